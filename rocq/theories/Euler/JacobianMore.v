From Coq Require Import Reals List ZArith Arith Bool Lia Lra FunctionalExtensionality.
From Verif Require Import Base.Prelude Base.PreludeFacts Geom.PeriodicModel Geom.PeriodicSpec Euler.GasModel Euler.GasSpec Euler.GasProofs Euler.RiemannModel Euler.RiemannProofs
  Euler.JacobianModel Euler.JacobianSpec Euler.JacobianProofs Euler.JacobianRows.
From Verif Require Geom.PeriodicProofs.
Import ListNotations.
Local Open Scope R_scope.
Local Notation vec := GasModel.vec.
Local Notation dot := GasModel.dot.
Local Notation sumn := GasModel.sumn.

Lemma sumn_same : forall n f, PeriodicModel.sumn n f = sumn n f.
Proof. induction n; intro f; cbn; [reflexivity|]. rewrite IHn. reflexivity. Qed.
Lemma sumn_app : forall a b f, sumn (a + b) f = sumn a f + sumn b (fun k => f (a + k)%nat).
Proof.
  intros a b f. induction b as [|b IH]; [rewrite Nat.add_0_r; cbn; ring|]. rewrite Nat.add_succ_r. cbn [GasModel.sumn]. rewrite IH. ring.
Qed.
Lemma sumn_swap : forall n m (f : nat -> nat -> R), sumn n (fun i => sumn m (f i)) = sumn m (fun j => sumn n (fun i => f i j)).
Proof.
  intros. exact (PeriodicProofs.sumn_swap n m f).
Qed.
Lemma sumn_one : forall n i (f : nat -> R), (i < n)%nat -> sumn n (fun j => if (i =? j)%nat then f j else 0) = f i.
Proof.
  induction n as [|n IH]; intros i f H; [lia|]. cbn [GasModel.sumn]. destruct (Nat.eq_dec i n) as [-> |].
  - rewrite (sumn_ext n _ (fun _ => 0)), sumn_zero, Nat.eqb_refl; [ring|]. intros j Hj. destruct (Nat.eqb_spec n j); [lia|reflexivity].
  - rewrite IH by lia. destruct (Nat.eqb_spec i n); [lia|]. ring.
Qed.

(** *** turning a block through a periodic face *)
Lemma comp_with_mom : forall d U m k, (k < d)%nat -> comp d (with_mom U m) (S k) = m k.
Proof. intros d U m k H. unfold comp. cbn [Nat.eqb]. destruct (Nat.leb_spec (S k) d); [|lia]. cbn. f_equal. lia. Qed.
Lemma comp_with_mom_other : forall d U m k, (k = 0 \/ d < k)%nat -> comp d (with_mom U m) k = comp d U k.
Proof. intros d U m k H. unfold comp. destruct (Nat.eqb_spec k 0); [reflexivity|]. destruct (Nat.leb_spec k d); [lia|]. reflexivity. Qed.
Lemma with_cols_nth : forall d J M j, (j < length J)%nat ->
  nth j (with_cols d J M) zero_st = if ((1 <=? j) && (j <=? d))%nat then from_comps d (fun i => M (j - 1)%nat i) else nth j J zero_st.
Proof.
  intros d J M j H. unfold with_cols. set (F := fun j => _). rewrite (nth_indep _ zero_st (F 0%nat)) by (rewrite map_length, seq_length; auto).
  rewrite (map_nth F). rewrite seq_nth by auto. reflexivity.
Qed.
Lemma with_cols_length : forall d J M, length (with_cols d J M) = length J.
Proof. intros. unfold with_cols. rewrite map_length, seq_length. reflexivity. Qed.
Lemma turned_product : forall d x J Q U i, length J = (d + 2 + x)%nat ->
  col_times d (with_cols d J (mmul d (tr Q) (mom_cols d J))) U i = col_times d J (with_mom U (fun k => mmul d Q (mom_in U) k 0%nat)) i.
Proof.
  intros d x J Q U i L. unfold col_times. rewrite with_cols_length, L. replace (d + 2 + x)%nat with (1 + d + (1 + x))%nat by lia. rewrite !(sumn_app (1 + d) (1 + x)), !(sumn_app 1 d). f_equal; [f_equal|].
  - cbn [GasModel.sumn]. rewrite with_cols_nth by lia. cbn [Nat.leb andb]. rewrite comp_with_mom_other by lia. reflexivity.
  - rewrite (sumn_ext d _ (fun k => sumn d (fun j => Q j k * mom_cols d J j i * mom U k))).
    + rewrite sumn_swap. apply sumn_ext. intros j Hj. change (1 + j)%nat with (S j). rewrite comp_with_mom by auto. unfold mmul. change (PeriodicModel.sumn d) with (sumn d). unfold mom_cols, mom_in.
      rewrite <- (sumn_scal d (comp d (nth (S j) J zero_st) i)). apply sumn_ext. intros. ring.
    + intros k Hk. cbn [Nat.add]. rewrite with_cols_nth by lia. destruct (Nat.leb_spec 1 (S k)); [|lia]. destruct (Nat.leb_spec (S k) d); [|lia]. cbn [andb].
      rewrite comp_from. replace (S k - 1)%nat with k by lia. unfold mmul, tr. change (PeriodicModel.sumn d) with (sumn d).
      replace (comp d U (S k)) with (mom U k).
      * rewrite Rmult_comm, <- sumn_scal. apply sumn_ext. intros. ring.
      * unfold comp. cbn [Nat.eqb]. destruct (Nat.leb_spec (S k) d); [|lia]. f_equal. lia.
  - apply sumn_ext. intros k Hk. rewrite with_cols_nth by lia. destruct (Nat.leb_spec (1 + d + k) d); [lia|]. rewrite andb_false_r. rewrite comp_with_mom_other by lia. reflexivity.
Qed.
Lemma tr_tr : forall Q, tr (tr Q) = Q.
Proof. intro. reflexivity. Qed.
Lemma turn_ok : forall d x p id t J U, (d = 2 \/ d = 3)%nat -> length J = (d + 2 + x)%nat ->
  match turn_block d p id t J, from_other d p id t U with
  | Ok J', Ok V => forall i, (i < d + 2 + x)%nat -> col_times d J' U i = col_times d J V i
  | Abort, Abort | UB, UB => True
  | _, _ => False
  end.
Proof.
  intros d x p id t J U Hd L. unfold turn_block, from_other, TransVector, TransVectorBack. destruct t; [| |reflexivity];
    (destruct (period_index id) as [k| |]; cbn [bind]; auto; destruct (vat (rotation p) k) as [Q| |]; cbn [bind]; auto; intros i Hi;
     destruct Hd as [-> | ->]; cbn [Nat.eqb]).
  - apply (turned_product 2 x J Q U i L).
  - apply (turned_product 3 x J Q U i L).
  - apply (turned_product 2 x J (tr Q) U i L).
  - apply (turned_product 3 x J (tr Q) U i L).
Qed.

(** *** the written-out matrix *)
Lemma explicit_ok : forall x g U n dU y, timesC_du 3 g U n (fun _ => 0) dU = Ok y ->
  forall i, (i < 5 + x)%nat -> sumn (5 + x) (fun j => jac_entry g U n i j * comp 3 dU j) = comp 3 y i.
Proof.
  intros x g U n dU y H i Hi. unfold timesC_du in H. destruct (Req_EM_T (rho U) 0) as [|NZ]; [discriminate|].
  assert (E : y = cinc 3 g U n (fun _ => 0) dU) by (unfold cinc; congruence). clear H. subst y. rewrite sumn_app.
  do 5 (destruct i as [|i];
   [rewrite (sumn_ext x _ (fun _ => 0)) by (intros; cbn [jac_entry Nat.add]; ring); rewrite sumn_zero;
    cbn [GasModel.sumn jac_entry comp Nat.eqb Nat.leb Nat.sub Nat.add];
    unfold cinc, flux_increment, pressure, th_p, dpres, dvelo, velocity, sqnorm, dot; cbn [rho mom ene extra GasModel.sumn]; field; exact NZ|]).
  rewrite (sumn_ext x _ (fun j => if (i =? j)%nat then (dot 3 n (mom U) / rho U) * comp 3 dU (5 + j)%nat else 0)).
  - rewrite sumn_one by lia. cbn [GasModel.sumn jac_entry comp Nat.eqb Nat.leb Nat.sub Nat.add]. unfold cinc. cbn [extra].
    unfold dvelo, velocity, dot. cbn [GasModel.sumn]. rewrite ?Nat.sub_0_r. field. exact NZ.
  - intros j Hj. cbn [jac_entry Nat.add Nat.eqb]. rewrite (Nat.eqb_sym j i). destruct (Nat.eqb_spec i j); ring.
Qed.

(** *** conservation *)
Lemma lsum_app : forall A (f : A -> R) l m, lsum f (l ++ m) = lsum f l + lsum f m.
Proof. induction l; intro m; cbn; [ring|]. rewrite IHl. ring. Qed.
Lemma sum_seen : forall N u du (h : nat -> cface * state -> R) fs, (forall f, In f fs -> (fL f < N)%nat /\ (fR f < N)%nat) ->
  sumn N (fun i => lsum (h i) (seen u du fs i)) = lsum (fun f => h (fL f) (left_view u f, du (fR f)) + h (fR f) (right_view u f, du (fL f))) fs.
Proof.
  intros N u du h fs H. induction fs as [|f fs IH]; [cbn; apply sumn_zero|].
  destruct (H f (or_introl eq_refl)) as (HL & HR). cbn [lsum]. rewrite <- IH by (intros; apply H; right; auto). clear IH H.
  rewrite (sumn_ext N _ (fun i => ((if (fL f =? i)%nat then h i (left_view u f, du (fR f)) else 0) + (if (fR f =? i)%nat then h i (right_view u f, du (fL f)) else 0)) + lsum (h i) (seen u du fs i))).
  - rewrite !sumn_plus. rewrite (sumn_one N (fL f) (fun i => h i (left_view u f, du (fR f)))) by auto. rewrite (sumn_one N (fR f) (fun i => h i (right_view u f, du (fL f)))) by auto. reflexivity.
  - intros i Hi. change (seen u du (f :: fs) i) with (((if (fL f =? i)%nat then [(left_view u f, du (fR f))] else []) ++ (if (fR f =? i)%nat then [(right_view u f, du (fL f))] else [])) ++ seen u du fs i).
    rewrite !lsum_app. destruct (fL f =? i)%nat, (fR f =? i)%nat; cbn [lsum]; ring.
Qed.
Lemma comp_sum : forall d l k, comp d (sum_states l) k = lsum (fun s => comp d s k) l.
Proof. intros d l k. induction l as [|a l IH]; cbn [lsum]; [apply comp_zero|]. rewrite <- IH. change (sum_states (a :: l)) with (add_state a (sum_states l)). apply comp_add. Qed.
Lemma cinc_opp : forall d g U n vg dU, cinc d g U (opp n) vg dU = scale_state (-1) (cinc d g U n vg dU).
Proof.
  intros. assert (O : opp n = fun i => -1 * n i) by (apply functional_extensionality; intro; unfold opp; ring). rewrite O.
  unfold cinc, flux_increment. st; rewrite ?dot_scal_r, ?dot_scal_l; try ring.
Qed.
Lemma comp_sub : forall d a b k, comp d (sub_state a b) k = comp d a k - comp d b k.
Proof. intros. replace (sub_state a b) with (add_state a (scale_state (-1) b)) by (st; ring). rewrite comp_add, comp_scal. ring. Qed.

Lemma conserves : forall d x g N (dTau : nat -> R) dt alpha (vol : nat -> R) u du fs (diss : nat -> cface -> state -> state), mesh_ok d N u du fs ->
  (forall i, (i < N)%nat -> vol i <> 0) ->
  (forall f W, In f fs -> diss (fL f) (left_view u f) W = diss (fR f) (right_view u f) W) ->
  forall k, (k < d + 2 + x)%nat ->
  sumn N (fun i => vol i * comp d (row_value d g (dTau i) dt alpha (vol i) (diss i) (u i) (du i) (seen u du fs i)) k)
  = sumn N (fun i => vol i * ((1 / dTau i + 1 / dt) * comp d (du i) k)).
Proof.
  intros d x g N dTau dt alpha vol u du fs diss (HF & HC) HV HD k Hk.
  set (h := fun i (p : cface * state) => 1/2 * alpha * area (fst p) *
     (comp d (diss i (fst p) (du i)) k - comp d (diss i (fst p) (snd p)) k + comp d (cinc d g (there (fst p)) (nrm (fst p)) (vgrid (fst p)) (snd p)) k
      + comp d (cinc d g (u i) (nrm (fst p)) (vgrid (fst p)) (du i)) k)).
  transitivity (sumn N (fun i => vol i * ((1 / dTau i + 1 / dt) * comp d (du i) k) + lsum (h i) (seen u du fs i))).
  - apply sumn_ext. intros i Hi. pose proof (same_comps d x _ _ k (csum_zero d x g (u i) (map fst (seen u du fs i)) (du i) (HC i Hi)) Hk) as Z.
    rewrite comp_zero in Z. unfold csum in Z. rewrite comp_sum, !lsum_map in Z.
    unfold row_value. rewrite comp_add, comp_scal, comp_sum, !lsum_map, Rmult_plus_distr_l. f_equal.
    rewrite <- lsum_scal.
    transitivity (lsum (fun p => h i p + (- (1/2 * alpha)) * comp d (scale_state (area (fst p)) (cinc d g (u i) (nrm (fst p)) (vgrid (fst p)) (du i))) k) (seen u du fs i)).
    + apply lsum_ext. intro p. unfold h. rewrite !comp_scal, comp_add, comp_sub. field. auto.
    + rewrite lsum_plus, lsum_scal, Z. ring.
  - rewrite sumn_plus. rewrite (sum_seen N u du h fs HF).
    assert (E : lsum (fun f => h (fL f) (left_view u f, du (fR f)) + h (fR f) (right_view u f, du (fL f))) fs = 0); [|rewrite E; ring].
    clear HC. induction fs as [|f fs IH]; cbn [lsum]; [reflexivity|].
    rewrite (IH (fun a Ha => HF a (or_intror Ha)) (fun a W Ha => HD a W (or_intror Ha))). clear IH.
    unfold h. cbn [fst snd]. rewrite (HD f (du (fL f))), (HD f (du (fR f))) by (left; auto).
    cbn [left_view right_view area nrm vgrid there]. rewrite !cinc_opp, !comp_scal. ring.
Qed.
Lemma conserves_plain : forall d x g N (dTau : nat -> R) dt alpha (vol : nat -> R) u du fs, mesh_ok d N u du fs ->
  (forall i, (i < N)%nat -> vol i <> 0 /\ rho (u i) <> 0) ->
  exists r, (forall i, (i < N)%nat -> row_times d g (dTau i) dt alpha (vol i) (u i) (du i) (seen u du fs i) = Ok (r i)) /\
    forall k, (k < d + 2 + x)%nat -> sumn N (fun i => vol i * comp d (r i) k) = sumn N (fun i => vol i * ((1 / dTau i + 1 / dt) * comp d (du i) k)).
Proof.
  intros d x g N dTau dt alpha vol u du fs M H. eexists. split.
  - intros i Hi. apply row_plain. intros p Hp. unfold seen in Hp. apply in_flat_map in Hp. destruct Hp as (f & Hf & Hp). destruct (proj1 M f Hf) as (HL & HR).
    apply in_app_or in Hp. destruct Hp as [Hp|Hp]; [destruct (fL f =? i)%nat|destruct (fR f =? i)%nat]; cbn in Hp; try contradiction; destruct Hp as [<-|[]]; cbn; apply H; auto.
  - intros k Hk. apply (conserves d x g N dTau dt alpha vol u du fs (fun _ f => plain_diss (lam f)) M); auto. intros i Hi. apply H; auto.
Qed.
Lemma conserves_roe : forall d x g N (dTau : nat -> R) dt alpha (vol : nat -> R) u du fs, mesh_ok d N u du fs ->
  (forall i, (i < N)%nat -> vol i <> 0) -> (forall f, In f fs -> roe_ok d g (u (fL f)) (u (fR f))) ->
  exists r, (forall i, (i < N)%nat -> row_times_roe d g (dTau i) dt alpha (vol i) (u i) (du i) (seen u du fs i) = Ok (r i)) /\
    forall k, (k < d + 2 + x)%nat -> sumn N (fun i => vol i * comp d (r i) k) = sumn N (fun i => vol i * ((1 / dTau i + 1 / dt) * comp d (du i) k)).
Proof.
  intros d x g N dTau dt alpha vol u du fs M H HR. eexists. split.
  - intros i Hi. apply row_roe. intros p Hp. unfold seen in Hp. apply in_flat_map in Hp. destruct Hp as (f & Hf & Hp).
    apply in_app_or in Hp. destruct Hp as [Hp|Hp]; [destruct (Nat.eqb_spec (fL f) i) as [e|]|destruct (Nat.eqb_spec (fR f) i) as [e|]]; cbn in Hp; try contradiction;
      destruct Hp as [<-|[]]; cbn; rewrite <- e; [|apply roe_swap_in]; apply HR; auto.
  - intros k Hk. apply (conserves d x g N dTau dt alpha vol u du fs (fun i f => roe_diss d g (nrm f) (u i) (there f) (lam f)) M); auto.
    intros f W Hf. cbn [left_view right_view area nrm vgrid there lam]. symmetry. apply roe_diss_back. apply HR; auto.
Qed.
