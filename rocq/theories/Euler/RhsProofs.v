(** Proofs for C54. *)
From Coq Require Import List ZArith Reals Lra Lia Bool Permutation.
From Verif Require Import Base.Prelude Base.PreludeFacts Geom.AdjModel Geom.BoundaryModel Geom.PeriodicModel
  Euler.RhsModel Euler.RhsSpec.
Import ListNotations.
Local Open Scope R_scope.

Lemma rsum_app : forall l m, rsum (l ++ m) = rsum l + rsum m.
Proof. unfold rsum. induction l as [|a l IH]; intros m; cbn; [lra|]. rewrite IH. lra. Qed.
Lemma rsum_perm : forall l m, Permutation l m -> rsum l = rsum m.
Proof. unfold rsum. intros l m H. induction H; cbn; lra. Qed.
Lemma rsum_map_ext : forall A (f g : A -> R) l, (forall a, In a l -> f a = g a) -> rsum (map f l) = rsum (map g l).
Proof. intros A f g l H. f_equal. apply map_ext_in. exact H. Qed.
Lemma rsum_plus : forall A (f g : A -> R) l, rsum (map (fun a => f a + g a) l) = rsum (map f l) + rsum (map g l).
Proof. intros A f g. unfold rsum. induction l as [|a l IH]; cbn; [lra|]. rewrite IH. lra. Qed.
Lemma rsum_scal : forall A c (f : A -> R) l, rsum (map (fun a => c * f a) l) = c * rsum (map f l).
Proof. intros A c f. unfold rsum. induction l as [|a l IH]; cbn; [lra|]. rewrite IH. lra. Qed.
Lemma rsum_zero : forall A (f : A -> R) l, (forall a, In a l -> f a = 0) -> rsum (map f l) = 0.
Proof.
  intros A f l. unfold rsum. induction l as [|a l IH]; intros H; cbn; [lra|].
  rewrite IH by (intros; apply H; right; assumption). rewrite H by (left; reflexivity). lra.
Qed.
Lemma rsum_swap : forall A B (f : A -> B -> R) l m,
  rsum (map (fun a => rsum (map (f a) m)) l) = rsum (map (fun b => rsum (map (fun a => f a b) l)) m).
Proof.
  intros A B f. unfold rsum. induction l as [|a l IH]; intros m; cbn.
  - symmetry. apply rsum_zero. intros; reflexivity.
  - rewrite IH. symmetry. apply (rsum_plus B (f a) (fun b => fold_right Rplus 0 (map (fun a => f a b) l))).
Qed.
Lemma rsum_one : forall c v n, (c < n)%nat -> rsum (map (fun i => if Nat.eqb c i then v i else 0) (seq 0 n)) = v c.
Proof.
  intros c v. induction n as [|n IH]; intros H; [lia|]. rewrite seq_S, map_app, rsum_app. cbn.
  destruct (Nat.eq_dec c n) as [->|N].
  - rewrite Nat.eqb_refl. rewrite rsum_zero; [lra|]. intros i Hi. apply in_seq in Hi.
    destruct (Nat.eqb_spec n i); [lia|reflexivity].
  - rewrite IH by lia. destruct (Nat.eqb_spec c n); [lia|lra].
Qed.
(** A sum over the positions listed, when the others count nothing. *)
Lemma rsum_listed : forall A (g : A -> R) (G : list A) fs, NoDup fs ->
  (forall i, In i fs -> (i < length G)%nat) ->
  (forall i a, nth_error G i = Some a -> ~ In i fs -> g a = 0) ->
  forall d, rsum (map (fun i => g (nth i G d)) fs) = rsum (map g G).
Proof.
  intros A g G fs ND Hin Hz d.
  transitivity (rsum (map (fun i => g (nth i G d)) (seq 0 (length G)))).
  - assert (P : Permutation (seq 0 (length G))
      (fs ++ filter (fun i => negb (existsb (Nat.eqb i) fs)) (seq 0 (length G)))).
    { apply NoDup_Permutation; [apply seq_NoDup| |].
      - assert (NoDup (filter (fun i => negb (existsb (Nat.eqb i) fs)) (seq 0 (length G)))) as ND2
          by (apply NoDup_filter, seq_NoDup).
        assert (forall i, In i (filter (fun i => negb (existsb (Nat.eqb i) fs)) (seq 0 (length G))) -> ~ In i fs) as D.
        { intros i Hi K. apply filter_In in Hi. destruct Hi as [_ Hi]. apply negb_true_iff in Hi.
          assert (existsb (Nat.eqb i) fs = true) by (apply existsb_exists; exists i; split; [exact K|apply Nat.eqb_refl]).
          congruence. }
        clear Hin Hz. induction fs as [|a fs' IH]; [exact ND2|].
        inversion ND; subst. cbn [app]. revert D ND2. generalize (filter (fun i => negb (existsb (Nat.eqb i) (a :: fs'))) (seq 0 (length G))).
        intros l D ND2. constructor.
        + intros K. apply in_app_or in K. destruct K as [K|K]; [contradiction|]. apply (D a K). left. reflexivity.
        + clear IH. revert H1 H2 D. clear - ND2. intros _ ND1 D. induction fs' as [|b fs' IH]; [exact ND2|].
          inversion ND1; subst. cbn. constructor.
          * intros K. apply in_app_or in K. destruct K as [K|K]; [contradiction|]. apply (D b K). right. left. reflexivity.
          * apply IH; [assumption|]. intros i Hi K. apply (D i Hi). destruct K as [->|K]; [left; reflexivity|right; right; exact K].
      - intros i. rewrite in_app_iff, filter_In. split.
        + intros H. destruct (existsb (Nat.eqb i) fs) eqn:E.
          * left. apply existsb_exists in E. destruct E as [j [H1 H2]]. apply Nat.eqb_eq in H2. subst. exact H1.
          * right. split; [exact H|reflexivity].
        + intros [H|[H _]]; [|exact H]. apply in_seq. specialize (Hin i H). lia. }
    rewrite (rsum_perm _ _ (Permutation_map _ P)), map_app, rsum_app.
    rewrite (rsum_zero _ _ (filter _ _)); [lra|]. intros i Hi. apply filter_In in Hi. destruct Hi as [Hi Hn].
    apply in_seq in Hi. apply (Hz i).
    + apply nth_error_nth'. lia.
    + intros K. apply negb_true_iff in Hn.
      assert (existsb (Nat.eqb i) fs = true) by (apply existsb_exists; exists i; split; [exact K|apply Nat.eqb_refl]).
      congruence.
  - clear. f_equal. induction G as [|a G IH]; [reflexivity|]. cbn [length seq map nth]. f_equal.
    rewrite <- seq_shift, map_map. exact IH.
Qed.

(** ** Turning *)
Section Run.
Variables (dim : nat) (isPeriodic : bool) (p : Periodicity).
Hypothesis Hdim : dim = 2%nat \/ dim = 3%nat.
Hypothesis Hrot : length (rotation p) = 4%nat.

Lemma to_cell_0 : forall u z, UFromFace2Cell dim isPeriodic p u z 0 = Ok u.
Proof.
  intros. unfold UFromFace2Cell. destruct isPeriodic; [|reflexivity]. cbn [negb].
  destruct (FaceIDIsPeriodic z); reflexivity.
Qed.
Lemma rot_at : forall i, (i < 4)%nat -> exists Q, nth_error (rotation p) i = Some Q.
Proof. intros i H. apply nth_error_lt_Some. lia. Qed.
Lemma to_cell_1 : forall u z, exists v, UFromFace2Cell dim isPeriodic p u z 1 = Ok v /\
  forall k, v k = turned dim isPeriodic p z u k.
Proof.
  intros u z. unfold UFromFace2Cell. destruct isPeriodic; cbn [negb]; [|exists u; split; [reflexivity|intros; reflexivity]].
  destruct (FaceIDIsPeriodic z) eqn:E.
  - assert (z = -1 \/ z = -2 \/ z = -3 \/ z = -4 \/ z = -5 \/ z = -6)%Z as C.
    { unfold FaceIDIsPeriodic, BC_ID_PERIODIC_1, BC_ID_PERIODIC_2, BC_ID_PERIODIC_3, BC_ID_PERIODIC_1_DONOR,
        BC_ID_PERIODIC_2_DONOR, BC_ID_PERIODIC_3_DONOR in E. rewrite !orb_true_iff, !Z.eqb_eq in E. tauto. }
    assert (R4 : exists q0 q1 q2 q3, rotation p = [q0; q1; q2; q3]).
    { destruct (rotation p) as [|q0 [|q1 [|q2 [|q3 [|q4 l]]]]]; try discriminate. eauto. }
    destruct R4 as (q0 & q1 & q2 & q3 & R4).
    assert (G : forall (f : mat -> res mat) Q,
      f (fun i _ => u (S i)) = Ok (if Nat.eqb dim 3 then mmul 3 Q (fun i _ => u (S i)) else mmul 2 Q (fun i _ => u (S i))) ->
      exists v, on_momentum dim f u = Ok v /\
        forall k, v k = if Nat.leb 1 k && Nat.leb k dim then sumn dim (fun j => Q (Nat.pred k) j * u (S j)) else u k).
    { intros f Q Ef. unfold on_momentum. rewrite Ef. cbn [bind]. eexists. split; [reflexivity|]. intros k.
      cbv beta. destruct (Nat.leb 1 k && Nat.leb k dim); [|reflexivity]. destruct Hdim as [-> | ->]; reflexivity. }
    unfold turned. rewrite R4. unfold FaceIDIsPeriodicMain, FaceIDIsPeriodicDonor.
    destruct C as [->|[->|[->|[->|[->| ->]]]]]; cbn [Z.eqb Pos.eqb andb orb BC_ID_PERIODIC_1 BC_ID_PERIODIC_2
      BC_ID_PERIODIC_3 BC_ID_PERIODIC_1_DONOR BC_ID_PERIODIC_2_DONOR BC_ID_PERIODIC_3_DONOR bind].
    1: destruct (G (fun m => TransVector dim p m (-1)) q1) as (v & -> & H).
    3: destruct (G (fun m => TransVector dim p m (-2)) q2) as (v & -> & H).
    5: destruct (G (fun m => TransVector dim p m (-3)) q3) as (v & -> & H).
    7: destruct (G (fun m => TransVectorBack dim p m (-4)) (tr q1)) as (v & -> & H).
    9: destruct (G (fun m => TransVectorBack dim p m (-5)) (tr q2)) as (v & -> & H).
    11: destruct (G (fun m => TransVectorBack dim p m (-6)) (tr q3)) as (v & -> & H).
    all: try (unfold TransVector, TransVectorBack; rewrite R4; reflexivity).
    all: exists v; split; [reflexivity|exact H].
  - exists u. split; [reflexivity|]. intros k. unfold turned. cbn [andb].
    destruct (Nat.leb 1 k && Nat.leb k dim); [|reflexivity].
    destruct z as [|q|[[[q|q|]|[q|q|]|]|[[q|q|]|[q|q|]|]|]]; try reflexivity; discriminate.
Qed.
Lemma turned_ext : forall z u v k, (forall j, u j = v j) -> turned dim isPeriodic p z u k = turned dim isPeriodic p z v k.
Proof.
  intros z u v k H. unfold turned. destruct (isPeriodic && _ && _); [|apply H].
  assert (X : forall Q : nat -> R, sumn dim (fun j => Q j * u (S j)) = sumn dim (fun j => Q j * v (S j))).
  { intros Q. clear Hdim. induction dim as [|d IH]; cbn; [reflexivity|]. rewrite IH, H. reflexivity. }
  destruct z as [|q|[[[q|q|]|[q|q|]|]|[[q|q|]|[q|q|]|]|]]; try apply H;
    match goal with |- context [nth_error ?r ?i] => destruct (nth_error r i); [apply X|apply H] end.
Qed.
Lemma turned_opp : forall z u k, turned dim isPeriodic p z (fun j => - u j) k = - turned dim isPeriodic p z u k.
Proof.
  intros z u k. unfold turned. destruct (isPeriodic && _ && _); [|reflexivity].
  assert (X : forall Q : nat -> R, sumn dim (fun j => Q j * - u (S j)) = - sumn dim (fun j => Q j * u (S j))).
  { intros Q. clear Hdim. induction dim as [|d IH]; cbn; [lra|]. rewrite IH. lra. }
  destruct z as [|q|[[[q|q|]|[q|q|]|]|[[q|q|]|[q|q|]|]|]]; try reflexivity;
    match goal with |- context [nth_error ?r ?i] => destruct (nth_error r i); [apply X|reflexivity] end.
Qed.

(** ** Adding to rows *)
Lemma vset_nat : forall A (l : list A) n x, (n < length l)%nat -> vset l (Z.of_nat n) x = Ok (upd n x l).
Proof. clear Hdim Hrot.
  intros A l n x H. unfold vset. destruct (Z.ltb_spec (Z.of_nat n) 0); [lia|].
  destruct (Z.leb_spec (Z.of_nat (length l)) (Z.of_nat n)); [lia|]. cbn [orb]. rewrite Nat2Z.id. reflexivity.
Qed.
(** [delta c k] has been added to component [k] of the row of each cell [c]. *)
Definition added (cells : list nat) (rhs rhs' : list state) (delta : nat -> nat -> R) : Prop :=
  length rhs' = length cells /\
  forall j c r, nth_error cells j = Some c -> nth_error rhs j = Some r ->
    exists r', nth_error rhs' j = Some r' /\ forall k, r' k = r k + delta c k.
Lemma added_ext : forall cells a b d d', (forall c k, In c cells -> d c k = d' c k) -> added cells a b d -> added cells a b d'.
Proof.
  intros cells a b d d' H [L K]. split; [exact L|]. intros j c r Hc Hr. destruct (K j c r Hc Hr) as (r' & E & X).
  exists r'. split; [exact E|]. intros k. rewrite X, H; [reflexivity|]. eapply nth_error_In; exact Hc.
Qed.
Lemma added_trans : forall cells a b c d e, added cells a b d -> added cells b c e ->
  added cells a c (fun n k => d n k + e n k).
Proof.
  intros cells a b c d e [L K] [M N]. split; [exact M|]. intros j n r Hn Hr.
  destruct (K j n r Hn Hr) as (r1 & E1 & X1). destruct (N j n r1 Hn E1) as (r2 & E2 & X2).
  exists r2. split; [exact E2|]. intros k. rewrite X2, X1. lra.
Qed.
Lemma added_refl : forall cells a, length a = length cells -> added cells a a (fun _ _ => 0).
Proof. intros. split; [assumption|]. intros j c r _ Hr. exists r. split; [exact Hr|]. intros; lra. Qed.
(** Adding row after row. *)
Lemma added_fold : forall cells A (step : list state -> A -> res (list state)) (delta : A -> nat -> nat -> R) (l : list A),
  (forall x rhs, In x l -> length rhs = length cells -> exists rhs', step rhs x = Ok rhs' /\ added cells rhs rhs' (delta x)) ->
  forall rhs, length rhs = length cells ->
  exists rhs', foldM step rhs l = Ok rhs' /\ added cells rhs rhs' (fun c k => rsum (map (fun x => delta x c k) l)).
Proof. clear Hdim Hrot.
  intros cells A step delta. induction l as [|x l IH]; intros H rhs L.
  - exists rhs. split; [reflexivity|]. apply added_refl, L.
  - destruct (H x rhs (or_introl eq_refl) L) as (r1 & E1 & A1).
    destruct (IH (fun y r Hy => H y r (or_intror Hy)) r1 (proj1 A1)) as (r2 & E2 & A2).
    exists r2. cbn [foldM]. rewrite E1. cbn [bind]. split; [exact E2|].
    eapply added_ext; [|exact (added_trans _ _ _ _ _ _ A1 A2)]. intros; reflexivity.
Qed.

Variable vol : nat -> R.
Lemma set_row_ok : forall cells rhs n c (g : state), NoDup cells -> length rhs = length cells ->
  nth_error cells n = Some c -> forall r, nth_error rhs n = Some r ->
  exists rhs', vset rhs (Z.of_nat n) (fun k => r k + g k) = Ok rhs' /\
    added cells rhs rhs' (fun c' k => if Nat.eqb c c' then g k else 0).
Proof. clear Hdim Hrot.
  intros cells rhs n c g ND L Hc r Hr.
  assert (Hlt : (n < length cells)%nat) by (apply nth_error_Some; congruence).
  rewrite vset_nat by lia. eexists. split; [reflexivity|]. split; [rewrite upd_length; exact L|].
  intros j c' r0 Hj Hr0. rewrite nth_error_upd. destruct (Nat.eqb_spec n j) as [E|E].
  - subst j. assert (c' = c) by congruence. assert (Some r0 = Some r) as Er by (rewrite <- Hr; symmetry; exact Hr0). injection Er as ->. subst.
    assert (X : Nat.ltb n (length rhs) = true) by (apply Nat.ltb_lt; lia).
    rewrite X, Nat.eqb_refl. eexists. split; [reflexivity|]. intros k. reflexivity.
  - exists r0. split; [exact Hr0|]. intros k. destruct (Nat.eqb_spec c c') as [F|F]; [|lra].
    exfalso. apply E. subst c'. eapply (proj1 (NoDup_nth_error cells) ND); [lia|congruence].
Qed.
Lemma add_row_ok : forall cells rhs i c inc, NoDup cells -> length rhs = length cells ->
  (0 <= i)%Z -> nth_error cells (Z.to_nat i) = Some c ->
  exists rhs', add_row rhs (map vol cells) i inc = Ok rhs' /\
    added cells rhs rhs' (fun c' k => if Nat.eqb c c' then inc k / vol c else 0).
Proof. clear Hdim Hrot.
  intros cells rhs i c inc ND L Hi Hc. unfold add_row.
  assert (Hlt : (Z.to_nat i < length cells)%nat) by (apply nth_error_Some; congruence).
  rewrite <- (Z2Nat.id i Hi). set (n := Z.to_nat i) in *.
  rewrite (vget_of_nat _ (map vol cells) n (vol c)) by (rewrite nth_error_map, Hc; reflexivity).
  destruct (nth_error_lt_Some _ rhs n ltac:(lia)) as [r Hr].
  rewrite (vget_of_nat _ rhs n r Hr). cbn [bind].
  exact (set_row_ok cells rhs n c (fun k => inc k / vol c) ND L Hc r Hr).
Qed.
Lemma UnInit_neg : (UnInitIndex < 0)%Z.
Proof. reflexivity. Qed.
Lemma face_add_ok : forall cells rhs lf gf, NoDup cells -> length rhs = length cells -> matches cells lf gf ->
  exists rhs', face_add dim isPeriodic p (map vol cells) rhs lf = Ok rhs' /\
    added cells rhs rhs' (fun c k => face_rate dim isPeriodic p vol c k gf).
Proof.
  intros cells rhs lf gf ND L (H0 & Hc0 & H1 & Hz & _ & Hf). unfold face_add. rewrite to_cell_0. cbn [bind].
  assert (A0 : forall c k, (if Nat.eqb (side0 gf) c then fluxEs lf k / vol (side0 gf) else 0) =
    (if Nat.eqb (side0 gf) c then gflux gf k / vol c else 0)).
  { intros c k. destruct (Nat.eqb_spec (side0 gf) c) as [->|]; [rewrite Hf|]; reflexivity. }
  destruct (side1 gf) as [c1|] eqn:E1.
  - destruct H1 as [H1 Hc1]. pose proof UnInit_neg as U. destruct (Z.eqb_spec (f2c1 lf) UnInitIndex) as [K|_]; [lia|].
    cbn [negb]. destruct (to_cell_1 (fun k => - fluxEs lf k) (zone lf)) as (v & -> & Hv). cbn [bind].
    destruct (add_row_ok cells rhs (f2c0 lf) (side0 gf) (fluxEs lf) ND L H0 Hc0) as (r1 & -> & A1). cbn [bind].
    destruct (add_row_ok cells r1 (f2c1 lf) c1 v ND (proj1 A1) H1 Hc1) as (r2 & -> & A2).
    exists r2. split; [reflexivity|]. eapply added_ext; [|exact (added_trans _ _ _ _ _ _ A1 A2)].
    intros c k _. cbv beta. rewrite A0. unfold face_rate. rewrite E1. unfold Rminus. f_equal.
    destruct (Nat.eqb_spec c1 c) as [->|]; [|lra]. rewrite Hv, turned_opp, Hz, (turned_ext _ _ _ k Hf). unfold Rdiv. lra.
  - rewrite H1, Z.eqb_refl. cbn [negb bind].
    destruct (add_row_ok cells rhs (f2c0 lf) (side0 gf) (fluxEs lf) ND L H0 Hc0) as (r1 & -> & A1). cbn [bind].
    exists r1. split; [reflexivity|]. eapply added_ext; [|exact A1].
    intros c k _. cbv beta. rewrite A0. unfold face_rate. rewrite E1. lra.
Qed.
Lemma source_add_ok : forall alpha (S : nat -> state) own_ ghost_ rhs n, NoDup (own_ ++ ghost_) ->
  length rhs = length (own_ ++ ghost_) -> (n < length own_)%nat ->
  exists rhs', source_add (map vol (own_ ++ ghost_)) (map alpha (own_ ++ ghost_)) (map S own_) rhs (Z.of_nat n) = Ok rhs' /\
    added (own_ ++ ghost_) rhs rhs' (fun c k => if Nat.eqb (nth n own_ 0%nat) c then S c k * (alpha c / vol c) else 0).
Proof. clear Hdim Hrot.
  intros alpha S own_ ghost_ rhs n ND L Hn. unfold source_add.
  assert (Hc : nth_error own_ n = Some (nth n own_ 0%nat)) by (apply nth_error_nth'; exact Hn).
  assert (Hc' : nth_error (own_ ++ ghost_) n = Some (nth n own_ 0%nat)) by (rewrite nth_error_app1; assumption).
  set (c := nth n own_ 0%nat) in *.
  rewrite (vget_of_nat _ (map vol (own_ ++ ghost_)) n (vol c)) by (rewrite nth_error_map, Hc'; reflexivity).
  rewrite (vget_of_nat _ (map alpha (own_ ++ ghost_)) n (alpha c)) by (rewrite nth_error_map, Hc'; reflexivity).
  rewrite (vget_of_nat _ (map S own_) n (S c)) by (rewrite nth_error_map, Hc; reflexivity).
  destruct (nth_error_lt_Some _ rhs n) as [r Hr]; [rewrite L, app_length; lia|].
  rewrite (vget_of_nat _ rhs n r Hr). cbn [bind].
  destruct (set_row_ok _ rhs n c (fun k => S c k * (alpha c / vol c)) ND L Hc' r Hr) as (rhs' & E & A).
  exists rhs'. split; [exact E|]. eapply added_ext; [|exact A]. intros c' k _. cbv beta.
  destruct (Nat.eqb_spec c c') as [->|]; reflexivity.
Qed.

(** ** One rank *)
Lemma sum_over_own : forall own_ c v, NoDup own_ -> In c own_ ->
  rsum (map (fun x => if Nat.eqb (nth (Z.to_nat x) own_ 0%nat) c then v else 0) (upto (Z.of_nat (length own_)))) = v.
Proof. clear Hdim Hrot.
  intros own_ c v ND Hc. apply (In_nth _ _ 0%nat) in Hc. destruct Hc as (n & Hn & En).
  unfold upto. rewrite Nat2Z.id, map_map.
  transitivity (rsum (map (fun i => if Nat.eqb n i then v else 0) (seq 0 (length own_)))).
  - apply rsum_map_ext. intros i Hi. apply in_seq in Hi. rewrite Nat2Z.id.
    destruct (Nat.eqb_spec n i) as [->|N]; [rewrite En, Nat.eqb_refl; reflexivity|].
    destruct (Nat.eqb_spec (nth i own_ 0%nat) c) as [K|]; [|reflexivity]. exfalso. apply N.
    apply (proj1 (NoDup_nth own_ 0%nat) ND); [lia|lia|congruence].
  - apply (rsum_one n (fun _ => v)). exact Hn.
Qed.
Lemma NoDup_app_l : forall A (l m : list A), NoDup (l ++ m) -> NoDup l.
Proof. clear Hdim Hrot.
  induction l as [|a l IH]; intros m H; [constructor|]. inversion H; subst. constructor; [|eapply IH; eassumption].
  intros K. apply H2. apply in_or_app. left. exact K.
Qed.
Lemma NoDup_app_disj : forall A (l m : list A) x, NoDup (l ++ m) -> In x l -> In x m -> False.
Proof.
  induction l as [|a l IH]; intros m x H Hl Hm; [contradiction|]. inversion H; subst. destruct Hl as [->|Hl].
  - apply H2. apply in_or_app. right. exact Hm.
  - eapply IH; eassumption.
Qed.
Lemma faces_sum : forall G r c k, has_faces G r -> In c (own r) ->
  forall gs, Forall2 (fun i gf => nth_error G i = Some gf) (fs r) gs ->
  rsum (map (fun gf => face_rate dim isPeriodic p vol c k gf) gs) = cell_rate dim isPeriodic p vol G c k.
Proof.
  intros G r c k (ND & NF & HT & HI) Hc gs HG. unfold cell_rate.
  set (g := face_rate dim isPeriodic p vol c k).
  assert (D : gs = [] \/ exists d : gface, True) by (destruct gs as [|g0 gs']; [left|right; exists g0]; auto).
  assert (Z0 : forall i a, nth_error G i = Some a -> ~ In i (fs r) -> g a = 0).
  { intros i a Ha Hn. unfold g, face_rate.
    destruct (Nat.eqb_spec (side0 a) c) as [E|E].
    - exfalso. apply Hn. apply (HI i a Ha). left. rewrite E. exact Hc.
    - destruct (side1 a) as [c1|] eqn:E1; [|lra]. destruct (Nat.eqb_spec c1 c) as [E2|E2]; [|lra].
      exfalso. apply Hn. apply (HI i a Ha). right. exists c1. split; [exact E1|]. rewrite E2. exact Hc. }
  assert (B : forall i, In i (fs r) -> (i < length G)%nat).
  { intros i Hi. clear - HG Hi. induction HG as [|x y l l' H HG IH]; [contradiction|].
    destruct Hi as [->|Hi]; [apply nth_error_Some; congruence|]. apply IH, Hi. }
  destruct D as [->|[d _]].
  - inversion HG as [F|]. symmetry. transitivity (rsum (map (fun _ : gface => 0) G)).
    + apply rsum_map_ext. intros a Ha. apply In_nth_error in Ha. destruct Ha as [i Ha]. apply (Z0 i a Ha). rewrite <- F. intros [].
    + cbn. apply rsum_zero. reflexivity.
  - rewrite <- (rsum_listed _ g G (fs r) NF B Z0 d). f_equal. clear - HG.
    induction HG as [|x y l l' H HG IH]; [reflexivity|]. cbn [map]. f_equal; [|exact IH].
    f_equal. symmetry. apply nth_error_nth. exact H.
Qed.
Lemma table_split : forall G (r : rank),
  Forall2 (fun i lf => exists gf, nth_error G i = Some gf /\ matches (own r ++ ghost r) lf gf) (fs r) (table r) ->
  exists gs, Forall2 (fun i gf => nth_error G i = Some gf) (fs r) gs /\ Forall2 (matches (own r ++ ghost r)) (table r) gs.
Proof.
  intros G r H. induction H as [|i lf l l' (gf & H1 & H2) H (gs & A & B)]; [exists []; split; constructor|].
  exists (gf :: gs). split; constructor; assumption.
Qed.
Lemma fold_faces : forall cells table_ gs rhs, NoDup cells -> length rhs = length cells ->
  Forall2 (matches cells) table_ gs ->
  exists rhs', foldM (face_add dim isPeriodic p (map vol cells)) rhs table_ = Ok rhs' /\
    added cells rhs rhs' (fun c k => rsum (map (fun gf => face_rate dim isPeriodic p vol c k gf) gs)).
Proof.
  intros cells table_ gs rhs ND L H. revert rhs L. induction H as [|lf gf l l' H1 H IH]; intros rhs L.
  - exists rhs. split; [reflexivity|]. apply added_refl, L.
  - destruct (face_add_ok cells rhs lf gf ND L H1) as (r1 & E1 & A1).
    destruct (IH r1 (proj1 A1)) as (r2 & E2 & A2). exists r2. cbn [foldM]. rewrite E1. cbn [bind].
    split; [exact E2|]. eapply added_ext; [|exact (added_trans _ _ _ _ _ _ A1 A2)]. intros; reflexivity.
Qed.
Lemma zero_rows : forall cells, length (map (fun (_ : R) (_ : nat) => 0) (map vol cells)) = length cells.
Proof. intros. rewrite !map_length. reflexivity. Qed.
Lemma zero_row : forall cells j c, nth_error cells j = Some c ->
  nth_error (map (fun (_ : R) (_ : nat) => 0) (map vol cells)) j = Some (fun _ => 0).
Proof. intros. rewrite !nth_error_map, H. reflexivity. Qed.
Lemma sources_ok : forall alpha S noSource r rhs, NoDup (own r ++ ghost r) -> length rhs = length (own r ++ ghost r) ->
  exists rhs', (if noSource : bool then Ok rhs else foldM (source_add (map vol (own r ++ ghost r))
      (map alpha (own r ++ ghost r)) (map S (own r))) rhs (upto (Z.of_nat (length (own r))))) = Ok rhs' /\
    length rhs' = length (own r ++ ghost r) /\
    forall j c r0, nth_error (own r) j = Some c -> nth_error rhs j = Some r0 ->
      exists r', nth_error rhs' j = Some r' /\ forall k, r' k = r0 k + source_rate vol alpha S noSource c k.
Proof. clear Hdim Hrot.
  intros alpha S noSource r rhs ND L. destruct noSource.
  - exists rhs. split; [reflexivity|]. split; [exact L|]. intros j c r0 _ Hr. exists r0. split; [exact Hr|].
    intros k. unfold source_rate. lra.
  - destruct (added_fold (own r ++ ghost r) Z
      (source_add (map vol (own r ++ ghost r)) (map alpha (own r ++ ghost r)) (map S (own r)))
      (fun x c k => if Nat.eqb (nth (Z.to_nat x) (own r) 0%nat) c then S c k * (alpha c / vol c) else 0)
      (upto (Z.of_nat (length (own r))))) with (rhs := rhs) as (rhs' & E & A); [|exact L|].
    + intros x rh Hx Lr. unfold upto in Hx. apply in_map_iff in Hx. destruct Hx as (n & <- & Hn).
      rewrite Nat2Z.id in Hn. apply in_seq in Hn.
      destruct (source_add_ok alpha S (own r) (ghost r) rh n ND Lr ltac:(lia)) as (rh' & E & A).
      exists rh'. split; [exact E|]. rewrite Nat2Z.id. exact A.
    + exists rhs'. split; [exact E|]. split; [exact (proj1 A)|]. intros j c r0 Hc Hr.
      destruct (proj2 A j c r0) as (r' & E' & X); [|exact Hr|].
      * rewrite nth_error_app1; [exact Hc|]. apply nth_error_Some. congruence.
      * exists r'. split; [exact E'|]. intros k. rewrite X. f_equal. unfold source_rate.
        apply (sum_over_own (own r) c); [eapply NoDup_app_l; exact ND|eapply nth_error_In; exact Hc].
Qed.

Theorem rank_rows : forall alpha S noSource G r, has_faces G r ->
  exists rhs, run dim isPeriodic p vol alpha S noSource r = Ok rhs /\ length rhs = length (own r ++ ghost r) /\
    forall j c, nth_error (own r) j = Some c -> exists row, nth_error rhs j = Some row /\
      forall k, row k = cell_rate dim isPeriodic p vol G c k + source_rate vol alpha S noSource c k.
Proof.
  intros alpha S noSource G r H. pose proof H as (ND & NF & HT & HI).
  destruct (table_split G r HT) as (gs & HG & HM).
  destruct (fold_faces _ _ _ _ ND (zero_rows _) HM) as (r1 & E1 & A1).
  destruct (sources_ok alpha S noSource r r1 ND (proj1 A1)) as (r2 & E2 & L2 & A2).
  exists r2. unfold run, EvaluateRHS. split; [|split; [exact L2|]].
  - match goal with |- bind ?x _ = _ => replace x with (@Ok (list state) r1) end. cbn [bind]. exact E2.
  - intros j c Hc. assert (Hc' : nth_error (own r ++ ghost r) j = Some c).
    { rewrite nth_error_app1; [exact Hc|]. apply nth_error_Some. congruence. }
    destruct (proj2 A1 j c _ Hc' (zero_row _ _ _ Hc')) as (q1 & Q1 & X1).
    destruct (A2 j c q1 Hc Q1) as (q2 & Q2 & X2). exists q2. split; [exact Q2|]. intros k. rewrite X2, X1.
    rewrite (faces_sum G r c k H (nth_error_In _ _ Hc) gs HG). lra.
Qed.

(** ** Conservation *)
Lemma untouched_turned : forall f k u, untouched dim isPeriodic p k f -> turned dim isPeriodic p (gzone f) u k = u k.
Proof.
  intros f k u H. unfold turned. destruct H as [->|[H|[->|[H|H]]]].
  - rewrite andb_false_r. reflexivity.
  - destruct (Nat.leb_spec k dim); [lia|]. rewrite andb_false_r. reflexivity.
  - reflexivity.
  - destruct (isPeriodic && _ && _); [|reflexivity].
    destruct (gzone f) as [|q|[[[q|q|]|[q|q|]|]|[[q|q|]|[q|q|]|]|]]; try reflexivity; discriminate.
  - destruct (isPeriodic && Nat.leb 1 k) eqn:E; [|reflexivity]. cbn [andb]. apply andb_true_iff in E. destruct E as [_ E].
    apply Nat.leb_le in E. destruct (Nat.leb_spec k dim) as [Hk|]; [|reflexivity].
    assert (X : forall Q, In Q (rotation p) -> sumn dim (fun j => Q (Nat.pred k) j * u (S j)) = u k /\
       sumn dim (fun j => Q j (Nat.pred k) * u (S j)) = u k).
    { intros Q HQ. specialize (H Q HQ). destruct k as [|k]; [lia|]. cbn [Nat.pred].
      destruct Hdim as [D|D]; rewrite D in *; cbn [sumn].
      - rewrite !H by lia. destruct k as [|[|k]]; [| |lia]; cbn; lra.
      - rewrite !H by lia. destruct k as [|[|[|k]]]; [| | |lia]; cbn; lra. }
    destruct (gzone f) as [|q|[[[q|q|]|[q|q|]|]|[[q|q|]|[q|q|]|]|]]; try reflexivity;
      match goal with |- context [nth_error ?r ?i] => destruct (nth_error r i) eqn:EQ; [|reflexivity] end;
      apply nth_error_In in EQ; apply X in EQ; apply EQ.
Qed.
Lemma face_total : forall n k f, (forall c, (c < n)%nat -> vol c <> 0) -> sides_in n f -> untouched dim isPeriodic p k f ->
  rsum (map (fun c => vol c * face_rate dim isPeriodic p vol c k f) (seq 0 n)) = if is_boundary f then gflux f k else 0.
Proof.
  intros n k f Hv [H0 H1] HU. unfold is_boundary.
  assert (A : rsum (map (fun c => if Nat.eqb (side0 f) c then gflux f k else 0) (seq 0 n)) = gflux f k)
    by (apply (rsum_one (side0 f) (fun _ => gflux f k)); exact H0).
  destruct (side1 f) as [c1|] eqn:E1.
  - assert (B : rsum (map (fun c => if Nat.eqb c1 c then - gflux f k else 0) (seq 0 n)) = - gflux f k)
      by (apply (rsum_one c1 (fun _ => - gflux f k)); apply H1; reflexivity).
    rewrite (rsum_map_ext _ _ (fun c => (if Nat.eqb (side0 f) c then gflux f k else 0) + (if Nat.eqb c1 c then - gflux f k else 0))).
    + rewrite rsum_plus, A, B. lra.
    + intros c Hc. apply in_seq in Hc. unfold face_rate. rewrite E1, (untouched_turned f k _ HU).
      assert (vol c <> 0) by (apply Hv; lia).
      destruct (Nat.eqb (side0 f) c), (Nat.eqb c1 c); field; assumption.
  - rewrite (rsum_map_ext _ _ (fun c => if Nat.eqb (side0 f) c then gflux f k else 0)); [exact A|].
    intros c Hc. apply in_seq in Hc. unfold face_rate. rewrite E1. assert (vol c <> 0) by (apply Hv; lia).
    destruct (Nat.eqb (side0 f) c); field; assumption.
Qed.
Lemma amount_rows : forall k r rhs (g : nat -> R),
  (forall j c, nth_error (own r) j = Some c -> exists row, nth_error rhs j = Some row /\ row k = g c) ->
  amount vol k r rhs = rsum (map (fun c => vol c * g c) (own r)).
Proof.
  intros k r rhs g H. unfold amount. revert rhs H. induction (own r) as [|c l IH]; intros rhs H; [reflexivity|].
  destruct (H 0%nat c eq_refl) as (row & E & X). destruct rhs as [|row' rhs]; [discriminate|]. injection E as ->.
  cbn [combine map]. unfold rsum in *. cbn [fold_right]. rewrite X. f_equal. apply IH.
  intros j c' Hj. destruct (H (S j) c' Hj) as (row' & E' & X'). exists row'. split; assumption.
Qed.
Lemma rsum_filter : forall A (b : A -> bool) (g : A -> R) l, rsum (map (fun a => if b a then g a else 0) l) = rsum (map g (filter b l)).
Proof.
  intros A b g. unfold rsum. induction l as [|a l IH]; [reflexivity|]. cbn. destruct (b a); cbn; rewrite IH; lra.
Qed.

Theorem conservation : forall alpha S noSource n G ranks rhss k,
  (forall c, (c < n)%nat -> vol c <> 0) -> distributed n ranks ->
  Forall (has_faces G) ranks -> Forall (sides_in n) G -> Forall (untouched dim isPeriodic p k) G ->
  Forall2 (fun r rhs => run dim isPeriodic p vol alpha S noSource r = Ok rhs) ranks rhss ->
  rsum (map (fun '(r, rhs) => amount vol k r rhs) (combine ranks rhss)) =
  rsum (map (fun f => gflux f k) (filter is_boundary G)) +
  (if noSource then 0 else rsum (map (fun c => alpha c * S c k) (seq 0 n))).
Proof.
  intros alpha S noSource n G ranks rhss k Hv HD HF HS HU HR.
  set (g := fun c => cell_rate dim isPeriodic p vol G c k + source_rate vol alpha S noSource c k).
  transitivity (rsum (map (fun c => vol c * g c) (concat (map own ranks)))).
  - clear HD. induction HR as [|r rhs rs rhss' E HR IH]; [reflexivity|].
    inversion HF as [|? ? F1 F2]; subst. cbn [combine map concat]. rewrite map_app, rsum_app, <- (IH F2).
    unfold rsum at 1. cbn [fold_right]. f_equal.
    apply amount_rows. destruct (rank_rows alpha S noSource G r F1) as (rhs' & E' & _ & X).
    rewrite E in E'. injection E' as <-. intros j c Hc. destruct (X j c Hc) as (row & Y & Z). exists row. split; [exact Y|apply Z].
  - rewrite (rsum_perm _ _ (Permutation_map _ HD)).
    rewrite (rsum_map_ext _ _ (fun c => vol c * cell_rate dim isPeriodic p vol G c k + (if noSource then 0 else alpha c * S c k))).
    2:{ intros c Hc. apply in_seq in Hc. unfold g, source_rate. destruct noSource; [lra|]. field. apply Hv. lia. }
    rewrite rsum_plus. f_equal.
    2:{ destruct noSource; [apply rsum_zero; reflexivity|reflexivity]. }
    unfold cell_rate.
    rewrite (rsum_map_ext _ _ (fun c => rsum (map (fun f => vol c * face_rate dim isPeriodic p vol c k f) G)))
      by (intros; symmetry; apply (rsum_scal _ (vol a))).
    rewrite (rsum_swap _ _ (fun c f => vol c * face_rate dim isPeriodic p vol c k f)).
    rewrite <- rsum_filter. apply rsum_map_ext. intros f Hf. rewrite Forall_forall in HS, HU.
    apply face_total; auto.
Qed.
End Run.
