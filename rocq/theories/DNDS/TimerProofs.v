From Coq Require Import Reals ZArith List Bool Lia Lra.
From Verif Require Import Base.Prelude Base.PreludeFacts DNDS.TimerModel DNDS.TimerSpec.
Import ListNotations.
Open Scope R_scope.

Definition wf (s : timers) : Prop := length (timer s) = 128%nat /\ length (tStart s) = 128%nat.

Lemma wf_init : wf timers_init.
Proof. split; reflexivity. Qed.

Definition at0 (l : list R) (i : Z) : R := nth (Z.to_nat i) l 0.

Lemma vset_in (l : list R) i x : length l = 128%nat -> (0 <= i < 128)%Z ->
  vset l i x = Ok (upd (Z.to_nat i) x l).
Proof.
  intros L H. unfold vset.
  destruct (Z.ltb_spec i 0); [lia|]. destruct (Z.leb_spec (Z.of_nat (length l)) i); [lia|].
  reflexivity.
Qed.
Lemma vget_in (l : list R) i : length l = 128%nat -> (0 <= i < 128)%Z ->
  vget l i = Ok (at0 l i).
Proof.
  intros L H. unfold vget, at0. destruct (Z.ltb_spec i 0); [lia|].
  rewrite (nth_error_nth' l 0) by lia. reflexivity.
Qed.
Lemma at0_upd (l : list R) i j x : length l = 128%nat -> (0 <= i < 128)%Z -> (0 <= j)%Z ->
  at0 (upd (Z.to_nat i) x l) j = if (i =? j)%Z then x else at0 l j.
Proof.
  intros L H J. unfold at0. destruct (Z.eqb_spec i j) as [->|N].
  - apply nth_error_nth. apply nth_error_upd_same. lia.
  - destruct (nth_error l (Z.to_nat j)) as [y|] eqn:E.
    + rewrite (nth_error_nth l _ 0 E). apply nth_error_nth.
      rewrite nth_error_upd_other by lia. exact E.
    + apply nth_error_None in E. rewrite !nth_overflow; rewrite ?upd_length; auto.
Qed.

Definition start_key (k : key) : key := match k with Enum t => Enum t | Int t => Enum t end.

Lemma clear_all_run (l : list R) n m : length l = 128%nat -> (n + m <= 128)%nat ->
  exists l', foldM (fun l i => vset l (Z.of_nat i) 0) l (seq n m) = Ok l' /\
    length l' = 128%nat /\
    forall j, (0 <= j)%Z -> at0 l' j = if (Z.of_nat n <=? j)%Z && (j <? Z.of_nat (n + m))%Z
                                       then 0 else at0 l j.
Proof.
  revert l n. induction m as [|m IH]; intros l n L H; cbn [seq foldM].
  - exists l. split; [reflexivity|]. split; [exact L|]. intros j Hj.
    rewrite Nat.add_0_r. destruct (Z.leb_spec (Z.of_nat n) j), (Z.ltb_spec j (Z.of_nat n));
      cbn [andb]; try reflexivity; lia.
  - rewrite vset_in by (auto; lia). cbn [bind].
    destruct (IH (upd (Z.to_nat (Z.of_nat n)) 0 l) (Datatypes.S n)) as (l' & E & L' & V).
    + rewrite upd_length; exact L.
    + lia.
    + exists l'. split; [exact E|]. split; [exact L'|]. intros j Hj. rewrite (V j Hj).
      rewrite at0_upd by (auto; lia).
      destruct (Z.leb_spec (Z.of_nat (Datatypes.S n)) j), (Z.ltb_spec j (Z.of_nat (Datatypes.S n + m))),
        (Z.leb_spec (Z.of_nat n) j), (Z.ltb_spec j (Z.of_nat (n + Datatypes.S m))),
        (Z.eqb_spec (Z.of_nat n) j); cbn [andb]; try reflexivity; lia.
Qed.

Lemma slot_range k : valid_key k -> (0 <= slot k < 128)%Z.
Proof. destruct k; cbn; unfold Ntype; lia. Qed.

Lemma slot_eqb j k : valid_key j -> valid_key k -> (slot j =? slot k)%Z = key_eqb j k.
Proof.
  intros Vj Vk. destruct j as [a|a], k as [b|b]; cbn in *; unfold Ntype.
  - reflexivity.
  - apply Z.eqb_neq; lia.
  - apply Z.eqb_neq; lia.
  - destruct (Z.eqb_spec (a + 64) (b + 64)), (Z.eqb_spec a b); try reflexivity; lia.
Qed.

Lemma start_valid k : valid_key k -> valid_key (start_key k).
Proof. destruct k; auto. Qed.

Definition total_of (s : timers) (k : key) : R := at0 (timer s) (slot k).
Definition since_of (s : timers) (k : key) : R := at0 (tStart s) (slot (start_key k)).

Lemma step_ok s c : wf s -> valid_call c ->
  exists s', step s c = Ok s' /\ wf s' /\
  forall k, valid_key k ->
    total_of s' k = match c with
      | Stop j now => if key_eqb j k then total_of s k + (now - since_of s k) else total_of s k
      | Clear j => if key_eqb j k then 0 else total_of s k
      | ClearAll => 0
      | Start _ _ => total_of s k end /\
    since_of s' k = match c with
      | Start j now => if key_eqb j (start_key k) then now else since_of s k
      | _ => since_of s k end.
Proof.
  intros [L1 L2] V. destruct c as [j now|j now|j|]; cbn [step valid_call] in *.
  - rewrite vset_in by (auto; apply slot_range, V). cbn [bind].
    eexists. split; [reflexivity|]. split.
    { split; cbn; rewrite ?upd_length; assumption. }
    intros k Vk. split; [reflexivity|]. unfold since_of. cbn [tStart].
    rewrite at0_upd; [|auto|apply slot_range, V|apply slot_range, start_valid, Vk].
    rewrite slot_eqb by (auto using start_valid). reflexivity.
  - assert (E : exists x, step s (Stop j now) = Ok {| timer := upd (Z.to_nat (slot j)) x (timer s); tStart := tStart s |}
            /\ x = total_of s j + (now - since_of s j)).
    { destruct j as [t|t]; cbn [step slot] in *; cbn in V; unfold Ntype in *.
      - rewrite (vget_in (tStart s)), (vget_in (timer s)) by (auto; lia). cbn [bind].
        rewrite vset_in by (auto; lia). cbn [bind]. eexists; split; [reflexivity|].
        reflexivity.
      - rewrite (vget_in (tStart s)), (vget_in (timer s)) by (auto; lia). cbn [bind].
        rewrite vset_in by (auto; lia). cbn [bind]. eexists; split; [reflexivity|].
        reflexivity. }
    destruct E as (x & E & ->). cbn [step] in E. rewrite E. eexists; split; [reflexivity|].
    split; [split; cbn; rewrite ?upd_length; assumption|].
    intros k Vk. split; [|reflexivity].
    unfold total_of at 1. cbn [timer].
    rewrite at0_upd; [|auto|apply slot_range, V|apply slot_range, Vk].
    rewrite slot_eqb by auto. destruct (key_eqb j k) eqn:K; [|reflexivity].
    assert (j = k) as ->; [|reflexivity].
    destruct j as [a|a], k as [b|b]; cbn in K; try discriminate; apply Z.eqb_eq in K; congruence.
  - rewrite vset_in by (auto; apply slot_range, V). cbn [bind].
    eexists. split; [reflexivity|]. split.
    { split; cbn; rewrite ?upd_length; assumption. }
    intros k Vk. split; [|reflexivity]. unfold total_of at 1. cbn [timer].
    rewrite at0_upd; [|auto|apply slot_range, V|apply slot_range, Vk].
    rewrite slot_eqb by auto. reflexivity.
  - unfold clear_all.
    destruct (clear_all_run (timer s) 0 128 L1 ltac:(lia)) as (l' & E & L' & G).
    change (Z.to_nat Ntype_All) with 128%nat. rewrite E. cbn [bind].
    eexists. split; [reflexivity|]. split; [split; cbn; assumption|].
    intros k Vk. split; [|reflexivity]. unfold total_of. cbn [timer].
    pose proof (slot_range k Vk) as B. rewrite G by lia.
    destruct (Z.leb_spec (Z.of_nat 0) (slot k)), (Z.ltb_spec (slot k) (Z.of_nat (0 + 128)));
      cbn [andb]; try reflexivity; lia.
Qed.

(** What the code accumulates for [k]: stops of [k] against the starts of
    [start_key k]. *)
Fixpoint accumulated (k : key) (since total : R) (cs : list call) : R :=
  match cs with
  | [] => total
  | Start j now :: cs => accumulated k (if key_eqb j (start_key k) then now else since) total cs
  | Stop j now :: cs => accumulated k since (if key_eqb j k then total + (now - since) else total) cs
  | Clear j :: cs => accumulated k since (if key_eqb j k then 0 else total) cs
  | ClearAll :: cs => accumulated k since 0 cs
  end.

Lemma run_ok cs : forall s, wf s -> Forall valid_call cs ->
  exists s', run s cs = Ok s' /\ wf s' /\
  forall k, valid_key k -> total_of s' k = accumulated k (since_of s k) (total_of s k) cs.
Proof.
  induction cs as [|c cs IH]; intros s W F; unfold run; cbn [foldM].
  - exists s. split; [reflexivity|]. split; [exact W|]. reflexivity.
  - inversion F as [|? ? V F']; subst.
    destruct (step_ok s c W V) as (s1 & E & W1 & H). rewrite E. cbn [bind].
    destruct (IH s1 W1 F') as (s2 & E2 & W2 & H2).
    exists s2. split; [exact E2|]. split; [exact W2|]. intros k Vk.
    rewrite (H2 k Vk). destruct (H k Vk) as [-> ->]. destruct c; reflexivity.
Qed.

Lemma accumulated_enum t : forall cs since total,
  accumulated (Enum t) since total cs = measured (Enum t) since total cs.
Proof. induction cs as [|[]]; intros; cbn; auto. Qed.

Lemma at0_init i : at0 (repeat 0 (Z.to_nat Ntype_All)) i = 0.
Proof. unfold at0. apply nth_repeat. Qed.

Lemma enum_measures cs t : Forall valid_call cs -> (0 <= t < 64)%Z ->
  exists s, run timers_init cs = Ok s /\ getTimer s (Enum t) = Ok (measured (Enum t) 0 0 cs).
Proof.
  intros F B. destruct (run_ok cs timers_init wf_init F) as (s & E & W & H).
  exists s. split; [exact E|]. unfold getTimer.
  rewrite vget_in by (try apply W; cbn; lia). f_equal.
  change (total_of s (Enum t) = measured (Enum t) 0 0 cs).
  rewrite H by exact B. rewrite accumulated_enum.
  unfold since_of, total_of. cbn [tStart timer timers_init]. rewrite !at0_init. reflexivity.
Qed.

(** The starts of timer [Enum t] seen as starts of [Int t]: what an integer
    timer really measures. *)
Definition int_view (t : Z) (c : call) : list call :=
  match c with
  | Start (Enum a) now => if (a =? t)%Z then [Start (Int t) now] else []
  | Start (Int a) _ => []
  | c => [c]
  end.

Lemma accumulated_int t : forall cs since total,
  accumulated (Int t) since total cs = measured (Int t) since total (flat_map (int_view t) cs).
Proof.
  induction cs as [|c cs IH]; intros; cbn [flat_map accumulated]; [reflexivity|].
  destruct c as [[a|a] now|j now|j|]; cbn [int_view]; rewrite ?IH.
  - cbn [start_key key_eqb]. destruct (Z.eqb_spec a t) as [->|N]; cbn [app measured key_eqb];
      rewrite ?Z.eqb_refl; reflexivity.
  - reflexivity.
  - reflexivity.
  - reflexivity.
  - reflexivity.
Qed.

Lemma int_measures cs t : Forall valid_call cs -> (0 <= t < 64)%Z ->
  exists s, run timers_init cs = Ok s /\
    getTimer s (Int t) = Ok (measured (Int t) 0 0 (flat_map (int_view t) cs)).
Proof.
  intros F B. destruct (run_ok cs timers_init wf_init F) as (s & E & W & H).
  exists s. split; [exact E|]. unfold getTimer.
  rewrite vget_in by (try apply W; cbn; unfold Ntype; lia). f_equal.
  change (total_of s (Int t) = measured (Int t) 0 0 (flat_map (int_view t) cs)).
  rewrite H by exact B. rewrite accumulated_int.
  unfold since_of, total_of. cbn [tStart timer timers_init]. rewrite !at0_init. reflexivity.
Qed.

Lemma only_that_timer s c s' k : wf s -> valid_call c -> valid_key k -> step s c = Ok s' ->
  match c with Start _ _ => True | Stop j _ | Clear j => j <> k | ClearAll => False end ->
  getTimer s' k = getTimer s k.
Proof.
  intros W V Vk E H. destruct (step_ok s c W V) as (s1 & E1 & W1 & G).
  assert (s1 = s') as -> by congruence.
  unfold getTimer. pose proof (slot_range k Vk).
  rewrite !vget_in by (try apply W; try apply W1; lia). f_equal.
  change (total_of s' k = total_of s k). destruct (G k Vk) as [-> _].
  assert (N : forall j, j <> k -> key_eqb j k = false).
  { intros j N. destruct j as [a|a], k as [b|b]; cbn; try reflexivity; apply Z.eqb_neq; congruence. }
  destruct c as [j ?|j ?|j|]; try rewrite (N j H); tauto || reflexivity.
Qed.

Lemma int_wrong : exists cs s, Forall valid_call cs /\ run timers_init cs = Ok s /\
  measured (Int 3) 0 0 cs = 2 /\ getTimer s (Int 3) = Ok 12.
Proof.
  set (cs := [Start (Int 3) 10; Stop (Int 3) 12]).
  assert (F : Forall valid_call cs) by (repeat constructor; cbn; lia).
  destruct (int_measures cs 3 F ltac:(lia)) as (s & E & G).
  exists cs, s. split; [exact F|]. split; [exact E|]. split.
  - cbn. lra.
  - rewrite G. cbn. f_equal. lra.
Qed.

(** ** Running statistics *)
Definition stats_inv (s : stats) (l : list R) : Prop :=
  count s = length l /\ average s * INR (length l) = rsum l /\
  sigmaS s * INR (length l) + average s * average s * INR (length l) = rsum (map (fun x => x * x) l).

Lemma rsum_app a b : rsum (a ++ b) = rsum a + rsum b.
Proof. induction a; cbn; [lra|]. rewrite IHa. lra. Qed.

Lemma stats_step s l v : stats_inv s l -> stats_inv (stats_update s v) (l ++ [v]).
Proof.
  intros (C & A & V). unfold stats_inv. rewrite app_length, map_app, !rsum_app. cbn [length map rsum].
  cbn [stats_update count average sigmaS]. rewrite C. rewrite Nat.add_1_r.
  pose proof (pos_INR (length l)) as P. rewrite S_INR.
  split; [reflexivity|]. split.
  - rewrite <- A. field. lra.
  - rewrite <- V. field. lra.
Qed.

Lemma stats_run l : stats_inv (fold_left stats_update l stats_clear) l.
Proof.
  rewrite <- (rev_involutive l). rewrite <- fold_left_rev_right, rev_involutive.
  induction (rev l) as [|v r IH].
  - cbn. repeat split; cbn; lra.
  - cbn [rev fold_right]. apply stats_step, IH.
Qed.

Lemma rsum_dev l m : rsum (map (fun x => (x - m) * (x - m)) l)
  = rsum (map (fun x => x * x) l) - 2 * m * rsum l + m * m * INR (length l).
Proof.
  induction l as [|x l IH].
  - cbn. lra.
  - cbn [map rsum length]. rewrite IH, S_INR. ring.
Qed.

Lemma rsum_dev_nonneg l m : 0 <= rsum (map (fun x => (x - m) * (x - m)) l).
Proof.
  induction l as [|x l IH]; cbn [map rsum]; [lra|].
  pose proof (Rle_0_sqr (x - m)) as Q. unfold Rsqr in Q. lra.
Qed.

Lemma stats_spec l : l <> [] ->
  let s := fold_left stats_update l stats_clear in
  stats_get s = (mean l, sqrt (variance l)) /\ stats_getSum s = rsum l.
Proof.
  intros N s. destruct (stats_run l) as (C & A & V). fold s in C, A, V.
  assert (P : 0 < INR (length l)).
  { apply lt_0_INR. destruct l; [congruence|cbn; lia]. }
  assert (AM : average s = mean l).
  { unfold mean. rewrite <- A. field. lra. }
  assert (VV : sigmaS s = variance l).
  { unfold variance. rewrite rsum_dev, <- V, <- A, AM. field. lra. }
  split.
  - unfold stats_get. rewrite AM, VV. f_equal. f_equal. apply Rmax_right.
    unfold variance. apply Rmult_le_pos; [apply rsum_dev_nonneg|].
    left. apply Rinv_0_lt_compat, P.
  - unfold stats_getSum. rewrite C. exact A.
Qed.

Lemma stats_example : stats_get (fold_left stats_update [1; 3] stats_clear) = (2, 1).
Proof.
  destruct (stats_spec [1; 3]) as [E _]; [discriminate|]. rewrite E.
  assert (M : mean [1; 3] = 2) by (unfold mean; simpl; field).
  rewrite M. f_equal. replace (variance [1; 3]) with (1 * 1).
  - apply sqrt_square. lra.
  - unfold variance. rewrite M. simpl. field.
Qed.
