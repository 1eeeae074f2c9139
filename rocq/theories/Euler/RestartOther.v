(** Taking some components from the restart of another solver. *)
From Coq Require Import List ZArith Lia Bool String Ascii Arith.
From Verif Require Import Base.Prelude Base.PreludeFacts Euler.RestartModel Euler.RestartSpec Euler.RestartProofs Euler.RestartDisk.
Import ListNotations.
Local Open Scope string_scope.

Section Other.
Context {A : Type}.
Implicit Types (old new row : list A).

Definition mixed (dims : list Z) old new row : Prop :=
  List.length row = List.length old /\
  forall k, (In (Z.of_nat k) dims -> nth_error row k = nth_error new k) /\
            (~ In (Z.of_nat k) dims -> nth_error row k = nth_error old k).

Lemma storeRow_ok new : forall dims old,
  fits dims (zlen old) -> fits dims (zlen new) ->
  exists row, storeRow dims old new = Ok row /\ mixed dims old new row.
Proof.
  induction dims as [|k dims IH]; intros old Ho Hn.
  - exists old. repeat split; easy.
  - assert (Bo := Ho k (or_introl eq_refl)). assert (Bn := Hn k (or_introl eq_refl)).
    unfold zlen in *.
    destruct (nth_error new (Z.to_nat k)) as [v|] eqn:E; [|apply nth_error_None in E; lia].
    assert (V : vget new k = Ok v) by (apply vget_Ok; split; [lia|easy]).
    assert (S : vset old k v = Ok (upd (Z.to_nat k) v old)).
    { unfold vset. rewrite (proj2 (Z.ltb_ge k 0)), (proj2 (Z.leb_gt _ k)) by lia. easy. }
    destruct (IH (upd (Z.to_nat k) v old)) as (row & R & L & M).
    + intros j I. unfold zlen. rewrite upd_length. apply Ho. now right.
    + intros j I. apply Hn. now right.
    + exists row. split; [unfold storeRow; cbn [foldM]; now rewrite V; cbn [bind]; rewrite S|].
      rewrite upd_length in L. split; [easy|]. intros j. split.
      * intros I. destruct (in_dec Z.eq_dec (Z.of_nat j) dims) as [I'|I']; [now apply M|].
        destruct I as [->|I]; [|easy]. rewrite (proj2 (M j) I').
        rewrite Nat2Z.id in *. rewrite nth_error_upd_same by lia. now rewrite E.
      * intros I. rewrite (proj2 (M j)); [|intros J; apply I; now right].
        apply nth_error_upd_other. intros Q. apply I. left. lia.
Qed.

Lemma storeRows_ok dims : forall os ns,
  List.length os = List.length ns ->
  (forall o, In o os -> fits dims (zlen o)) -> (forall o, In o ns -> fits dims (zlen o)) ->
  exists rs, storeRows dims os ns = Ok rs /\ List.length rs = List.length os /\
    forall i o n, nth_error os i = Some o -> nth_error ns i = Some n ->
      exists r, nth_error rs i = Some r /\ mixed dims o n r.
Proof.
  unfold storeRows. induction os as [|o os IH]; intros [|n ns] L Ho Hn; try discriminate.
  - exists []. split; [easy|]. split; [easy|]. now intros [|i].
  - destruct (storeRow_ok n dims o) as (r & R & M);
      [apply Ho; now left|apply Hn; now left|].
    destruct (IH ns) as (rs & Rs & Ls & Ms);
      [now injection L|intros; apply Ho; now right|intros; apply Hn; now right|].
    exists (r :: rs). cbn [combine mapM fst snd]. rewrite R. cbn [bind]. rewrite Rs. cbn [bind].
    split; [easy|]. split; [cbn; now rewrite Ls|].
    intros [|i] a b Ea Eb; cbn in *.
    + injection Ea as <-. injection Eb as <-. now exists r.
    + now apply (Ms i).
Qed.


Lemma part_value dims (os ns rs : list (list A)) i :
  List.length os = List.length ns -> List.length rs = List.length os ->
  (forall i o n, nth_error os i = Some o -> nth_error ns i = Some n ->
      exists r, nth_error rs i = Some r /\ mixed dims o n r) ->
  (nth_error os i = None /\ nth_error ns i = None /\ nth_error rs i = None) \/
  exists o n r, nth_error os i = Some o /\ nth_error ns i = Some n /\ nth_error rs i = Some r /\
    mixed dims o n r.
Proof.
  intros L1 L2 H. destruct (nth_error os i) as [o|] eqn:Eo.
  - right. destruct (nth_error ns i) as [n|] eqn:En.
    + destruct (H i o n Eo En) as (r & Er & M). now exists o, n, r.
    + apply nth_error_None in En. assert (nth_error os i <> None) by congruence.
      apply nth_error_Some in H0. lia.
  - left. apply nth_error_None in Eo. split; [easy|]. split; apply nth_error_None; lia.
Qed.

Lemma other_ok d name n r dims (u b : field A) :
  readRestart d name n r = Ok b -> regular u -> regular b ->
  List.length (father b) = List.length (father u) -> List.length (son b) = List.length (son u) ->
  fits dims (Z.min (width u) (width b)) ->
  exists u', readOther d name n r dims u = Ok u' /\ stored dims u b u'.
Proof.
  intros R Ru Rb Lf Ls F. unfold readOther. rewrite R. cbn [bind].
  rewrite Lf, Ls, !Nat.eqb_refl. cbn [assert_ bind].
  replace (forallb _ dims) with true.
  2: { symmetry. apply forallb_forall. intros k I. apply F in I. apply Z.leb_le. lia. }
  cbn [assert_ bind].
  assert (Hu : forall o, In o (father u ++ son u)%list -> fits dims (zlen o)).
  { intros o I k K. apply F in K. unfold zlen. rewrite (Ru o I). lia. }
  assert (Hb : forall o, In o (father b ++ son b)%list -> fits dims (zlen o)).
  { intros o I k K. apply F in K. unfold zlen. rewrite (Rb o I). lia. }
  destruct (storeRows_ok dims (father u) (father b)) as (fs & Ef & L1 & M1);
    [easy|intros; apply Hu, in_or_app; now left|intros; apply Hb, in_or_app; now left|].
  destruct (storeRows_ok dims (son u) (son b)) as (ss & Es & L2 & M2);
    [easy|intros; apply Hu, in_or_app; now right|intros; apply Hb, in_or_app; now right|].
  rewrite Ef. cbn [bind]. rewrite Es. cbn [bind].
  eexists. split; [reflexivity|]. unfold stored. cbn [father son width ghost].
  do 4 (split; [easy|]). intros i k. unfold value. cbn [father son].
  assert (X : (nth_error (father u ++ son u)%list i = None /\ nth_error (father b ++ son b)%list i = None
               /\ nth_error (fs ++ ss)%list i = None) \/
    exists o n r, nth_error (father u ++ son u)%list i = Some o /\
      nth_error (father b ++ son b)%list i = Some n /\ nth_error (fs ++ ss)%list i = Some r /\
      mixed dims o n r).
  { destruct (Nat.lt_ge_cases i (List.length (father u))) as [H|H].
    - rewrite !nth_error_app1 by lia. now apply part_value.
    - rewrite !nth_error_app2 by lia. rewrite Lf, L1. now apply part_value. }
  destruct X as [(-> & -> & ->)|(o & m & w & -> & -> & -> & _ & M)]; [easy|apply M].
Qed.

Lemma other_refused d name n r dims (u b : field A) :
  readRestart d name n r = Ok b ->
  List.length (father b) <> List.length (father u) \/ List.length (son b) <> List.length (son u) \/
  (exists k, In k dims /\ (Z.min (width u) (width b) <= k)%Z) ->
  readOther d name n r dims u = Abort.
Proof.
  intros R H. unfold readOther. rewrite R. cbn [bind].
  destruct (Nat.eqb_spec (List.length (father b)) (List.length (father u))) as [E|E]; [|easy].
  cbn [assert_ bind].
  destruct (Nat.eqb_spec (List.length (son b)) (List.length (son u))) as [E'|E']; [|easy].
  cbn [assert_ bind].
  destruct H as [H|[H|(k & I & K)]]; [easy|easy|].
  replace (forallb _ dims) with false; [easy|]. symmetry. apply not_true_iff_false. intros T.
  rewrite forallb_forall in T. apply T, Z.leb_le in I. lia.
Qed.

End Other.
