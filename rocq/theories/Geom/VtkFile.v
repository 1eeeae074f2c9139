From Coq Require Import List ZArith QArith Bool Arith Permutation Lia.
From Verif Require Import Base.Prelude Base.PreludeFacts Base.MPIModel Geom.ElemModel Geom.AdjModel Geom.VtkModel Geom.VtkSpec Geom.VtkPut Geom.VtkFlags Geom.VtkNumber Geom.VtkRecreate.
Import ListNotations.
Local Open Scope Z_scope.

(** ** The order of the nodes in VTK's cells *)
Definition same_pointb (a b : point3) : bool :=
  let '(x, y, z) := a in let '(u, v, w) := b in Qeq_bool x u && Qeq_bool y v && Qeq_bool z w.
Lemma same_pointb_ok a b : same_pointb a b = true -> same_point a b.
Proof.
  destruct a as [[x y] z], b as [[u v] w]. cbn. rewrite !andb_true_iff, !Qeq_bool_iff. tauto.
Qed.
Definition space_eqb (a b : ParamSpace) : {a = b} + {a <> b}. Proof. decide equality. Defined.
Definition belongsb (t : ElemType) (n : Z) (ty : Z) (k : nat) : bool :=
  (0 <=? n) && Nat.ltb (Z.to_nat n) (GetNumNodes t) &&
  match nth_error (GetStandardCoord t) (Z.to_nat n), vtk_shape ty with
  | Some a, Some (s, ps) => (if space_eqb s (ElemType_to_ParamSpace t) then true else false) &&
      match nth_error ps k with Some b => same_pointb (to_unit t a) b | None => false end
  | _, _ => false
  end.
Lemma belongsb_ok t n ty k : belongsb t n ty k = true -> (0 <= n < Z.of_nat (GetNumNodes t)) /\ belongs t (Z.to_nat n) ty k.
Proof.
  unfold belongsb, belongs. rewrite !andb_true_iff. intros [[H1 H2] H3]. apply Z.leb_le in H1. apply Nat.ltb_lt in H2. split; [lia|].
  destruct (nth_error _ _) as [a|] eqn:A; [|discriminate]. destruct (vtk_shape ty) as [[s ps]|] eqn:S; [|discriminate].
  apply andb_true_iff in H3 as [H3 H4]. destruct (space_eqb _ _) as [E|]; [|discriminate]. destruct (nth_error ps k) as [b|] eqn:Bk; [|discriminate].
  exists a, s, ps, b. repeat split; auto. apply same_pointb_ok; auto.
Qed.
Definition row_checked (t : ElemType) : bool :=
  match vtk_row t with
  | Ok (ty, ns) => match vtk_shape ty with
     | Some (s, ps) => (match vtk_type t with Some u => u =? ty | None => false end) && Nat.eqb (length ns) (length ps) && (if space_eqb s (ElemType_to_ParamSpace t) then true else false) &&
          forallb (fun q => belongsb t (snd q) ty (fst q)) (combine (seq 0 (length ns)) ns)
     | None => false end
  | _ => false
  end.
Lemma table_ok t : t <> UnknownElem -> exists ty ns s ps, vtk_row t = Ok (ty, ns) /\ vtk_type t = Some ty /\ vtk_shape ty = Some (s, ps) /\
  s = ElemType_to_ParamSpace t /\ length ns = length ps /\
  forall k n, nth_error ns k = Some n -> 0 <= n < Z.of_nat (GetNumNodes t) /\ belongs t (Z.to_nat n) ty k.
Proof.
  intros N. assert (C : row_checked t = true) by (destruct t; try reflexivity; congruence).
  unfold row_checked in C. destruct (vtk_row t) as [[ty ns]| |] eqn:E; try discriminate. destruct (vtk_shape ty) as [[s ps]|] eqn:S; [|discriminate].
  rewrite !andb_true_iff in C. destruct C as [[[C0 C1] C2] C3]. apply Nat.eqb_eq in C1. destruct (vtk_type t) as [u|] eqn:U; [|discriminate]. apply Z.eqb_eq in C0. subst u. destruct (space_eqb _ _) as [C2'|]; [|discriminate].
  exists ty, ns, s, ps. repeat split; auto; rewrite forallb_forall in C3.
  all: assert (B : belongsb t n ty k = true) by (apply (C3 (k, n)); apply nth_error_In with k; apply nth_combine_eq; auto;
    rewrite nth_error_seq, (proj2 (Nat.ltb_lt _ _)); auto; eapply nth_error_Some_lt; eauto).
  all: apply belongsb_ok in B as [B1 B2]; auto; lia.
Qed.

Lemma verts_ok t row ty ns : vtk_row t = Ok (ty, ns) -> (forall k n, nth_error ns k = Some n -> 0 <= n < zlen row) ->
  exists v, ToVTKVertsAndData t row = Ok (ty, v) /\ length v = length ns /\
    forall k n, nth_error ns k = Some n -> exists x, nth_error v k = Some x /\ nth_error row (Z.to_nat n) = Some x.
Proof.
  intros E R. unfold ToVTKVertsAndData. rewrite E. cbn [bind snd fst].
  destruct (mapM_Ok_ex _ _ (vget row) ns) as [v V].
  { intros n I. apply In_nth_error in I as [k I]. destruct (vget_ok _ row n (R _ _ I)) as (x & X & _). eauto. }
  rewrite V. cbn [bind]. exists v. split; auto. destruct (mapM_nth _ _ _ _ _ V) as [L N]. split; auto.
  intros k n H. destruct (N _ _ H) as (x & X1 & X2). exists x. split; auto. apply vget_Ok in X1. tauto.
Qed.

Lemma in_nth A (l : list A) k x : nth_error l k = Some x -> (k < length l)%nat.
Proof. apply nth_error_Some_lt. Qed.

(** ** The offsets *)
Fixpoint oparts (a : Z) (ll : list (list Z)) : list (list Z) :=
  match ll with
  | [] => []
  | l :: rest => match rest with [] => psums a l | _ => firstn (length l) (psums a l) end :: oparts (a + zsum l) rest
  end.
Lemma psums_app : forall l a l', psums a (l ++ l') = firstn (length l) (psums a l) ++ psums (a + zsum l) l'.
Proof.
  induction l as [|x l IH]; intros a l'; cbn.
  - f_equal. unfold zsum. cbn. lia.
  - f_equal. rewrite IH. f_equal. f_equal. unfold zsum. cbn. lia.
Qed.
Lemma oparts_concat : forall ll a, ll <> [] -> concat (oparts a ll) = psums a (concat ll).
Proof.
  induction ll as [|l ll IH]; intros a H; [congruence|]. cbn [oparts concat]. destruct ll as [|l' ll].
  - cbn. rewrite !app_nil_r. auto.
  - rewrite IH by discriminate. rewrite psums_app. auto.
Qed.
Lemma oparts_len : forall ll a, length (oparts a ll) = length ll.
Proof. induction ll; intros; cbn; auto. Qed.
Lemma oparts_nth : forall ll a r l, nth_error ll r = Some l ->
  nth_error (oparts a ll) r = Some (firstn (length l + (if Nat.eqb r (length ll - 1) then 1 else 0)) (psums (a + zsum (concat (firstn r ll))) l)).
Proof.
  induction ll as [|x ll IH]; intros a [|r] l H; cbn in H; try discriminate.
  - injection H as ->. cbn [nth_error oparts firstn concat]. f_equal. change (zsum []) with 0. rewrite Z.add_0_r. destruct ll as [|y ll].
    + cbn [length Nat.sub Nat.eqb]. rewrite firstn_all2; auto. rewrite psums_length. lia.
    + cbn [length Nat.sub Nat.eqb]. rewrite Nat.add_0_r. auto.
  - cbn [nth_error oparts]. rewrite (IH _ _ _ H). f_equal. cbn [firstn concat length]. rewrite zsum_app. apply in_nth in H.
    replace (Nat.eqb (S r) (S (length ll) - 1)) with (Nat.eqb r (length ll - 1)).
    + f_equal. f_equal. lia.
    + destruct (Nat.eqb_spec r (length ll - 1)), (Nat.eqb_spec (S r) (S (length ll) - 1)); auto; lia.
Qed.
Lemma map_add_psums so : forall l a, map (fun v => v + so) (psums a l) = psums (a + so) l.
Proof. induction l as [|x l IH]; intros; cbn; auto. f_equal. rewrite IH. f_equal. lia. Qed.
Lemma zlen_firstn_psums n l a : (n <= S (length l))%nat -> zlen (firstn n (psums a l)) = Z.of_nat n.
Proof. intros. unfold zlen. rewrite firstn_length, psums_length. lia. Qed.

Lemma zsum_zlen_nat A (l : list (list A)) : zsum (map zlen l) = Z.of_nat (length (concat l)).
Proof. rewrite <- zlen_concat. auto. Qed.

Lemma oparts_before : forall ll a r, (r < length ll)%nat -> zsum (map zlen (firstn r (oparts a ll))) = zsum (map zlen (firstn r ll)).
Proof.
  induction ll as [|x ll IH]; intros a [|r] H; cbn [length] in *; try lia; auto.
  cbn [oparts firstn map]. destruct ll as [|y ll]; [cbn in H; lia|].
  change (zlen (firstn (length x) (psums a x)) + zsum (map zlen (firstn r (oparts (a + zsum x) (y :: ll)))) = zlen x + zsum (map zlen (firstn r (y :: ll)))).
  rewrite IH by (cbn in *; lia). rewrite zlen_firstn_psums by lia. auto.
Qed.

(** reading a slice *)
Lemma firstn_app_exact A (a b : list A) n : n = length a -> firstn n (a ++ b) = a.
Proof. intros ->. rewrite firstn_app, Nat.sub_diag, firstn_all, firstn_O, app_nil_r. auto. Qed.
Lemma skipn_app_exact A (a b : list A) n : n = length a -> skipn n (a ++ b) = b.
Proof. intros ->. rewrite skipn_app, Nat.sub_diag, skipn_all, skipn_O. auto. Qed.
Lemma slice_concat A : forall (ll : list (list A)) i x, nth_error ll i = Some x ->
  firstn (length x) (skipn (length (concat (firstn i ll))) (concat ll)) = x.
Proof.
  induction ll as [|y ll IH]; intros [|i] x H; cbn in H; try discriminate.
  - injection H as ->. cbn. apply firstn_app_exact; auto.
  - cbn [firstn concat]. rewrite app_length, skipn_app, skipn_all2 by lia. cbn [app].
    replace (length y + length (concat (firstn i ll)) - length y)%nat with (length (concat (firstn i ll))) by lia. auto.
Qed.
Lemma zsum_firstn_zlen A (ll : list (list A)) i : zsum (firstn i (map zlen ll)) = Z.of_nat (length (concat (firstn i ll))).
Proof. rewrite firstn_map. apply zsum_zlen_nat. Qed.
