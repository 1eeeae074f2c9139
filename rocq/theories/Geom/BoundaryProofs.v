From Coq Require Import ZArith String List Bool Lia.
From Verif Require Import Geom.BoundaryModel.
Import ListNotations.
Open Scope Z_scope.

(** Exactly one of four booleans. *)
Definition exactly_one (l : list bool) : Prop :=
  List.length (filter (fun b => b) l) = 1%nat.

Lemma bool_case4 id : -6 <= id ->
  exactly_one [FaceIDIsExternalBC id; FaceIDIsTrueInternal id;
               FaceIDIsPeriodicMain id; FaceIDIsPeriodicDonor id].
Proof.
  intros H.
  destruct (Z_lt_le_dec 0 id) as [P|P].
  - assert (id = Z.pos (Z.to_pos id)) as -> by lia. reflexivity.
  - assert (id = 0 \/ id = -1 \/ id = -2 \/ id = -3 \/ id = -4 \/ id = -5 \/ id = -6)
      as C by lia.
    destruct C as [->|[->|[->|[->|[->|[->| ->]]]]]]; reflexivity.
Qed.

Lemma unused_ids id : id < -6 ->
  FaceIDIsExternalBC id = false /\ FaceIDIsTrueInternal id = false /\
  FaceIDIsPeriodic id = false /\ FaceIDIsInternal id = true.
Proof.
  intros H. unfold FaceIDIsExternalBC, FaceIDIsTrueInternal, FaceIDIsPeriodic,
    FaceIDIsInternal, BC_ID_PERIODIC_1, BC_ID_PERIODIC_2, BC_ID_PERIODIC_3,
    BC_ID_PERIODIC_1_DONOR, BC_ID_PERIODIC_2_DONOR, BC_ID_PERIODIC_3_DONOR.
  repeat match goal with |- context [?a =? ?b] =>
    replace (a =? b) with false by (symmetry; apply Z.eqb_neq; lia) end.
  split; [apply Z.ltb_ge; lia|]. split; [reflexivity|]. split; [reflexivity|].
  apply Z.leb_le; lia.
Qed.

Lemma internal_split id : FaceIDIsInternal id = negb (FaceIDIsExternalBC id).
Proof.
  unfold FaceIDIsInternal, FaceIDIsExternalBC.
  destruct (Z.leb_spec id 0), (Z.ltb_spec 0 id); try reflexivity; lia.
Qed.

Lemma periodic_split id :
  (FaceIDIsPeriodic id = true <-> -6 <= id <= -1) /\
  (FaceIDIsPeriodic id = FaceIDIsPeriodicMain id || FaceIDIsPeriodicDonor id) /\
  (FaceIDIsPeriodicMain id && FaceIDIsPeriodicDonor id = false) /\
  (FaceIDIsPeriodic id = true ->
   exactly_one [FaceIDIsPeriodic1 id; FaceIDIsPeriodic2 id; FaceIDIsPeriodic3 id]).
Proof.
  destruct (Z_lt_le_dec id (-6)) as [P|P];
    [|destruct (Z_lt_le_dec (-1) id) as [Q|Q]].
  - destruct (unused_ids id P) as (_ & _ & U & _). rewrite U.
    revert U. unfold FaceIDIsPeriodic, FaceIDIsPeriodicMain, FaceIDIsPeriodicDonor.
    intros U. apply orb_false_iff in U. destruct U as [U ->].
    apply orb_false_iff in U. destruct U as [U ->].
    apply orb_false_iff in U. destruct U as [U ->]. rewrite U.
    repeat split; try discriminate; lia.
  - assert (U : FaceIDIsPeriodic id = false).
    { unfold FaceIDIsPeriodic, BC_ID_PERIODIC_1, BC_ID_PERIODIC_2, BC_ID_PERIODIC_3,
      BC_ID_PERIODIC_1_DONOR, BC_ID_PERIODIC_2_DONOR, BC_ID_PERIODIC_3_DONOR.
      repeat match goal with |- context [?a =? ?b] =>
       replace (a =? b) with false by (symmetry; apply Z.eqb_neq; lia) end. reflexivity. }
    rewrite U. revert U.
    unfold FaceIDIsPeriodic, FaceIDIsPeriodicMain, FaceIDIsPeriodicDonor.
    intros U. apply orb_false_iff in U. destruct U as [U ->].
    apply orb_false_iff in U. destruct U as [U ->].
    apply orb_false_iff in U. destruct U as [U ->]. rewrite U.
    repeat split; try discriminate; lia.
  - assert (id = -1 \/ id = -2 \/ id = -3 \/ id = -4 \/ id = -5 \/ id = -6) as C by lia.
    destruct C as [->|[->|[->|[->|[->| ->]]]]]; repeat split; cbn; lia.
Qed.

Lemma tables_agree name :
  FBC_Name_2_ID_Default name =
  match map_find GetFaceName2IDDefault name with Some id => id | None => BC_ID_NULL end.
Proof.
  unfold FBC_Name_2_ID_Default, GetFaceName2IDDefault, map_find.
  repeat match goal with
  | |- context [String.eqb name ?k] =>
      rewrite (String.eqb_sym name k); destruct (String.eqb k name) eqn:?; [reflexivity|]
  end.
  cbn [orb].
  repeat match goal with
  | |- context [String.eqb name ?k] =>
      rewrite (String.eqb_sym name k); destruct (String.eqb k name) eqn:?; [reflexivity|]
  | H : String.eqb ?k name = false |- context [String.eqb ?k name] => rewrite H
  end.
  reflexivity.
Qed.

Lemma map_find_None l name : map_find l name = None <-> ~ In name (map fst l).
Proof.
  induction l as [|[k v] l IH]; cbn; [tauto|].
  destruct (String.eqb_spec k name) as [->|N].
  - split; [discriminate|tauto].
  - rewrite IH. tauto.
Qed.

Lemma map_find_In l name v : map_find l name = Some v -> In (name, v) l.
Proof.
  induction l as [|[k w] l IH]; cbn; [discriminate|].
  destruct (String.eqb_spec k name) as [->|N]; [intros E; inversion E; auto|auto].
Qed.

Lemma map_find_Some l name v : NoDup (map fst l) ->
  map_find l name = Some v <-> In (name, v) l.
Proof.
  intros ND. split; [apply map_find_In|].
  induction l as [|[k w] l IH]; cbn; [tauto|].
  inversion ND as [|? ? NI ND']; subst. intros [E|I].
  - inversion E; subst. rewrite String.eqb_refl. reflexivity.
  - destruct (String.eqb_spec k name) as [->|N]; [|auto].
    exfalso. apply NI. apply (in_map fst) in I. exact I.
Qed.

Lemma default_keys_nodup : NoDup (map fst GetFaceName2IDDefault).
Proof.
  cbn. repeat (constructor; [cbn; intuition discriminate|]). constructor.
Qed.

(** The name table of the header, by meaning: what each name designates. *)
Lemma unknown_name name :
  (FBC_Name_2_ID_Default name = BC_ID_NULL <-> ~ In name (map fst GetFaceName2IDDefault)).
Proof.
  rewrite tables_agree, <- map_find_None.
  destruct (map_find GetFaceName2IDDefault name) as [v|] eqn:E; [|tauto].
  split; [|discriminate].
  apply map_find_In in E. cbn in E. intros V. exfalso.
  rewrite V in E. unfold BC_ID_NULL in E.
  repeat (destruct E as [E|E]; [discriminate E|]). exact E.
Qed.

Lemma known_name name id : In (name, id) GetFaceName2IDDefault <->
  (FBC_Name_2_ID_Default name = id /\ id <> BC_ID_NULL).
Proof.
  rewrite tables_agree.
  rewrite <- (map_find_Some _ _ _ default_keys_nodup).
  destruct (map_find GetFaceName2IDDefault name) as [v|] eqn:E.
  - split.
    + intros H; inversion H; subst. split; [reflexivity|].
      apply map_find_In in E. intros V. subst id. cbn in E.
      repeat (destruct E as [E|E]; [discriminate E|]). exact E.
    + intros [-> _]. reflexivity.
  - split; [discriminate|]. intros [<- N]. exfalso. auto.
Qed.

(** ** The numbering map *)
Definition name_map_inv (m : list (string * Z)) : Prop :=
  NoDup (map fst m) /\ NoDup (map snd m) /\
  forall v, In v (map snd m) <-> 0 <= v < Z.of_nat (List.length m).

Lemma name_map_inv_nil : name_map_inv [].
Proof. repeat split; try constructor; cbn in *; try tauto; lia. Qed.

Lemma name_map_get_inv m name v m' : name_map_inv m ->
  name_map_get m name = (v, m') ->
  name_map_inv m' /\ map_find m' name = Some v /\
  (forall k w, map_find m k = Some w -> map_find m' k = Some w) /\
  (forall k, k <> name -> map_find m' k = map_find m k).
Proof.
  intros (N1 & N2 & R). unfold name_map_get.
  destruct (map_find m name) as [w|] eqn:E.
  - intros H; inversion H; subst. split; [split; auto|]. auto.
  - intros H; inversion H; subst. split; [|split; [|split]].
    + split; [|split].
      * cbn. constructor; [|exact N1]. apply map_find_None, E.
      * cbn. constructor; [|exact N2]. rewrite R. lia.
      * intros v. cbn [map snd In List.length]. rewrite R. lia.
    + cbn. rewrite String.eqb_refl. reflexivity.
    + intros k w Hk. cbn. destruct (String.eqb_spec name k) as [<-|]; [congruence|exact Hk].
    + intros k Hk. cbn. destruct (String.eqb_spec name k) as [->|]; [congruence|reflexivity].
Qed.

Lemma name_map_gets_inv names : forall m vs m', name_map_inv m ->
  name_map_gets m names = (vs, m') ->
  name_map_inv m' /\ (forall k w, map_find m k = Some w -> map_find m' k = Some w) /\
  List.length vs = List.length names /\
  (forall i n, nth_error names i = Some n ->
     exists v, nth_error vs i = Some v /\ map_find m' n = Some v).
Proof.
  induction names as [|n ns IH]; intros m vs m' I; cbn.
  - intros H; inversion H; subst.
    split; [exact I|]. split; [auto|]. split; [reflexivity|].
    intros [|i] x; discriminate.
  - destruct (name_map_get m n) as [v m1] eqn:G.
    destruct (name_map_gets m1 ns) as [ws m2] eqn:GS.
    intros H; inversion H; subst.
    destruct (name_map_get_inv _ _ _ _ I G) as (I1 & F1 & K1 & _).
    destruct (IH _ _ _ I1 GS) as (I2 & K2 & L & A).
    split; [exact I2|]. split; [auto|]. split; [cbn; congruence|].
    intros [|i] x; cbn; intros E.
    + inversion E; subst. eauto.
    + eauto.
Qed.

Lemma name_map_inv_inj m a b v : name_map_inv m ->
  map_find m a = Some v -> map_find m b = Some v -> a = b.
Proof.
  intros (_ & N & _) A B. apply map_find_In in A. apply map_find_In in B.
  revert A B N. induction m as [|[k w] m IH]; cbn; [tauto|].
  intros A B N. inversion N as [|? ? NI N']; subst.
  destruct A as [A|A], B as [B|B].
  - congruence.
  - inversion A; subst. exfalso. apply NI. apply (in_map snd) in B. exact B.
  - inversion B; subst. exfalso. apply NI. apply (in_map snd) in A. exact A.
  - auto.
Qed.

Lemma name_map_numbering names vs m : name_map_gets [] names = (vs, m) ->
  List.length vs = List.length names /\
  (forall i j a b, nth_error names i = Some a -> nth_error names j = Some b ->
     (a = b <-> nth_error vs i = nth_error vs j)) /\
  (forall v, In v (map snd m) <-> 0 <= v < Z.of_nat (List.length m)).
Proof.
  intros G. destruct (name_map_gets_inv _ _ _ _ name_map_inv_nil G) as (I & _ & L & A).
  split; [exact L|]. split; [|apply I].
  intros i j a b Ha Hb.
  destruct (A _ _ Ha) as (va & Ea & Fa). destruct (A _ _ Hb) as (vb & Eb & Fb).
  split.
  - intros ->. congruence.
  - rewrite Ea, Eb. intros E. inversion E; subst. eapply name_map_inv_inj; eauto.
Qed.
