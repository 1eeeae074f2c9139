From Coq Require Import Reals List ZArith Arith Bool Lia Lra FunctionalExtensionality.
From Verif Require Import Base.Prelude Base.PreludeFacts Euler.GasModel Euler.GasSpec Euler.GasProofs Euler.RiemannModel Euler.RiemannProofs
  Euler.JacobianModel Euler.JacobianSpec.
Import ListNotations.
Local Open Scope R_scope.

Lemma state_eq : forall U V, rho U = rho V -> mom U = mom V -> ene U = ene V -> extra U = extra V -> U = V.
Proof. intros [] []; cbn; intros; subst; reflexivity. Qed.
Ltac st := apply state_eq; cbn [rho mom ene extra add_state sub_state scale_state zero_st]; try (apply functional_extensionality; intro).

Lemma add_zero : forall U, add_state U zero_st = U.
Proof. intro. st; ring. Qed.
Lemma scale_add : forall c U V, scale_state c (add_state U V) = add_state (scale_state c U) (scale_state c V).
Proof. intros. st; ring. Qed.

(** *** linearity *)
Lemma dvelo_add : forall U a b, dvelo U (add_state a b) = fun i => dvelo U a i + dvelo U b i.
Proof. intros. apply functional_extensionality. intro. unfold dvelo. cbn. unfold Rdiv. ring. Qed.
Lemma dvelo_scal : forall U c a, dvelo U (scale_state c a) = fun i => c * dvelo U a i.
Proof. intros. apply functional_extensionality. intro. unfold dvelo. cbn. unfold Rdiv. ring. Qed.
Lemma dpres_add : forall d U a b v g, dpres d U (add_state a b) v g = dpres d U a v g + dpres d U b v g.
Proof. intros. unfold dpres. rewrite dvelo_add. cbn [mom ene add_state]. rewrite dot_add_l, dot_add_r. ring. Qed.
Lemma dpres_scal : forall d U c a v g, dpres d U (scale_state c a) v g = c * dpres d U a v g.
Proof. intros. unfold dpres. rewrite dvelo_scal. cbn [mom ene scale_state]. rewrite dot_scal_l, dot_scal_r. ring. Qed.

Section Linear.
  Variables (d : nat) (g : R).
  (** the central part *)
  Definition cinc (U : state) (n vg : vec) (dU : state) : state :=
    let F := flux_increment d U dU n (velocity U) (dvelo U dU) vg (dpres d U dU (velocity U) g) (pressure d g U) in
    {| rho := rho F; mom := mom F; ene := ene F;
       extra := fun i => extra dU i * dot d n (fun k => velocity U k - vg k) + extra U i * dot d n (dvelo U dU) |}.
  Lemma cinc_add : forall U n vg a b, cinc U n vg (add_state a b) = add_state (cinc U n vg a) (cinc U n vg b).
  Proof.
    intros. unfold cinc, flux_increment. rewrite dvelo_add, dpres_add. st; rewrite ?dot_add_l, ?dot_add_r; ring.
  Qed.
  Lemma cinc_scal : forall U n vg c a, cinc U n vg (scale_state c a) = scale_state c (cinc U n vg a).
  Proof.
    intros. unfold cinc, flux_increment. rewrite dvelo_scal, dpres_scal. st; rewrite ?dot_scal_l, ?dot_scal_r; ring.
  Qed.

  (** Roe's waves *)
  Lemma st_add : forall n A a b, strength_t d n A (add_state a b) = fun i => strength_t d n A a i + strength_t d n A b i.
  Proof.
    intros. apply functional_extensionality. intro i. unfold strength_t. cbn [rho mom add_state].
    rewrite (dot_ext d (fun i => mom a i + mom b i - (rho a + rho b) * av_v A i) n (fun i => (mom a i - rho a * av_v A i) + (mom b i - rho b * av_v A i)) n) by (intros; auto; ring).
    rewrite dot_add_l. ring.
  Qed.
  Lemma st_scal : forall n A c a, strength_t d n A (scale_state c a) = fun i => c * strength_t d n A a i.
  Proof.
    intros. apply functional_extensionality. intro i. unfold strength_t. cbn [rho mom scale_state].
    rewrite (dot_ext d (fun i => c * mom a i - c * rho a * av_v A i) n (fun i => c * (mom a i - rho a * av_v A i)) n) by (intros; auto; ring).
    rewrite dot_scal_l. ring.
  Qed.
  Lemma s1_add : forall n A a b, strength1 d g n A (add_state a b) = strength1 d g n A a + strength1 d g n A b.
  Proof. intros. unfold strength1. rewrite st_add. cbn [rho mom ene add_state]. rewrite !dot_add_l. ring. Qed.
  Lemma s1_scal : forall n A c a, strength1 d g n A (scale_state c a) = c * strength1 d g n A a.
  Proof. intros. unfold strength1. rewrite st_scal. cbn [rho mom ene scale_state]. rewrite !dot_scal_l. ring. Qed.
  Lemma s0_add : forall n A c a b, strength0 d g n A c (add_state a b) = strength0 d g n A c a + strength0 d g n A c b.
  Proof. intros. unfold strength0. rewrite s1_add. cbn [rho mom ene add_state]. rewrite !dot_add_l. unfold Rdiv. ring. Qed.
  Lemma s0_scal : forall n A b c a, strength0 d g n A b (scale_state c a) = c * strength0 d g n A b a.
  Proof. intros. unfold strength0. rewrite s1_scal. cbn [rho mom ene scale_state]. rewrite !dot_scal_l. unfold Rdiv. ring. Qed.
  Lemma wave_add : forall n A c a b l0 l1 l4, wave_sum d g n A c (add_state a b) l0 l1 l4 = add_state (wave_sum d g n A c a l0 l1 l4) (wave_sum d g n A c b l0 l1 l4).
  Proof.
    intros. unfold wave_sum, strength4. rewrite s0_add, s1_add, st_add.
    rewrite (dot_ext d (fun i => (strength_t d n A a i + strength_t d n A b i) * l1) (av_v A) (fun i => strength_t d n A a i * l1 + strength_t d n A b i * l1) (av_v A)) by (intros; auto; ring).
    rewrite dot_add_l. st; ring.
  Qed.
  Lemma wave_scal : forall n A b c a l0 l1 l4, wave_sum d g n A b (scale_state c a) l0 l1 l4 = scale_state c (wave_sum d g n A b a l0 l1 l4).
  Proof.
    intros. unfold wave_sum, strength4. rewrite s0_scal, s1_scal, st_scal.
    rewrite (dot_ext d (fun i => c * strength_t d n A a i * l1) (av_v A) (fun i => c * (strength_t d n A a i * l1)) (av_v A)) by (intros; auto; ring).
    rewrite dot_scal_l. st; ring.
  Qed.
  Lemma wave_speed : forall n A b c a l0 l1 l4, wave_sum d g n A b a (c * l0) (c * l1) (c * l4) = scale_state c (wave_sum d g n A b a l0 l1 l4).
  Proof.
    intros. unfold wave_sum.
    rewrite (dot_ext d (fun i => strength_t d n A a i * (c * l1)) (av_v A) (fun i => c * (strength_t d n A a i * l1)) (av_v A)) by (intros; auto; ring).
    rewrite dot_scal_l. st; ring.
  Qed.

  (** *** the whole function is the central part and the dissipation *)
  Definition the_diss (useRoe : bool) (n : vec) (U UO : state) (l : speeds_in) : state -> state :=
    if useRoe then roe_diss d g n U UO l else plain_diss l.
  Definition tdu (U UO : state) (n vg : vec) (l : speeds_in) (useRoe : bool) (sign : R) (omitF : bool) (dU : state) : state :=
    add_state (if omitF then zero_st else cinc U n vg dU) (scale_state sign (the_diss useRoe n U UO l dU)).
  Lemma times_ok : forall U UO n vg l useRoe sign omitF dU, rho U <> 0 -> (useRoe = true -> roe_ok d g U UO) ->
    times_du d g U UO n vg l useRoe sign omitF dU = Ok (tdu U UO n vg l useRoe sign omitF dU).
  Proof.
    intros U UO n vg l useRoe sign omitF dU HU HR. unfold times_du. destruct (Req_EM_T (rho U) 0); [contradiction|]. unfold tdu, the_diss. destruct useRoe.
    - destruct (HR eq_refl) as (H1 & H2 & H3). unfold roe_in. destruct (Rle_dec 0 (rho U)); [|lra]. destruct (Rle_dec 0 (rho UO)); [|lra].
      destruct (Rle_dec 0 (av_a2 (roe_average d g U UO))); [|lra]. destruct (Req_EM_T (rho UO) 0); [lra|]. destruct (Req_EM_T (av_a2 (roe_average d g U UO)) 0); [lra|].
      cbn [bind fst snd]. rewrite wave_speed. f_equal. unfold roe_diss. destruct omitF; st; cbn; ring.
    - cbn [bind]. f_equal. unfold plain_diss. destruct omitF; st; cbn; ring.
  Qed.
  Lemma diss_add : forall useRoe n U UO l a b, the_diss useRoe n U UO l (add_state a b) = add_state (the_diss useRoe n U UO l a) (the_diss useRoe n U UO l b).
  Proof. intros. unfold the_diss. destruct useRoe; [unfold roe_diss; rewrite wave_add|unfold plain_diss]; st; ring. Qed.
  Lemma diss_scal : forall useRoe n U UO l c a, the_diss useRoe n U UO l (scale_state c a) = scale_state c (the_diss useRoe n U UO l a).
  Proof. intros. unfold the_diss. destruct useRoe; [unfold roe_diss; rewrite wave_scal|unfold plain_diss]; st; ring. Qed.
  Lemma tdu_add : forall U UO n vg l r s o a b, tdu U UO n vg l r s o (add_state a b) = add_state (tdu U UO n vg l r s o a) (tdu U UO n vg l r s o b).
  Proof. intros. unfold tdu. rewrite diss_add. destruct o; [|rewrite cinc_add]; st; ring. Qed.
  Lemma tdu_scal : forall U UO n vg l r s o c a, tdu U UO n vg l r s o (scale_state c a) = scale_state c (tdu U UO n vg l r s o a).
  Proof. intros. unfold tdu. rewrite diss_scal. destruct o; [|rewrite cinc_scal]; st; ring. Qed.

  (** *** only the components that exist matter *)
  Lemma cinc_local : forall x U n vg a b, same_state d x a b -> same_state d x (cinc U n vg a) (cinc U n vg b).
  Proof.
    intros x U n vg a b (R & M & E & X).
    assert (DV : forall i, (i < d)%nat -> dvelo U a i = dvelo U b i) by (intros; unfold dvelo; rewrite M, R by auto; reflexivity).
    assert (DP : dpres d U a (velocity U) g = dpres d U b (velocity U) g).
    { unfold dpres. rewrite E. f_equal. f_equal. f_equal. f_equal; apply dot_ext; auto. }
    assert (D1 : dot d (mom a) n = dot d (mom b) n) by (apply dot_ext; auto).
    assert (D2 : dot d (dvelo U a) n = dot d (dvelo U b) n) by (apply dot_ext; auto).
    assert (D3 : dot d n (dvelo U a) = dot d n (dvelo U b)) by (apply dot_ext; auto).
    unfold same_state, cinc, flux_increment. cbn [rho mom ene extra]. rewrite DP, D1, D2, D3, R, E.
    split; [reflexivity|]. split; [intros; rewrite M by auto; reflexivity|]. split; [reflexivity|]. intros. rewrite X by auto. reflexivity.
  Qed.
  Lemma diss_local : forall x useRoe n U UO l a b, same_state d x a b -> same_state d x (the_diss useRoe n U UO l a) (the_diss useRoe n U UO l b).
  Proof.
    intros x useRoe n U UO l a b (R & M & E & X). unfold the_diss. destruct useRoe.
    - set (A := roe_average d g U UO).
      assert (ST : forall i, (i < d)%nat -> strength_t d n A a i = strength_t d n A b i).
      { intros i Hi. unfold strength_t. rewrite M, R by auto. f_equal. f_equal. apply dot_ext; auto. intros; rewrite M by auto; reflexivity. }
      assert (DM : dot d (mom a) n = dot d (mom b) n) by (apply dot_ext; auto).
      assert (S1 : strength1 d g n A a = strength1 d g n A b).
      { unfold strength1. rewrite R, E, DM. f_equal. f_equal. f_equal. apply dot_ext; auto. }
      assert (S0 : forall c, strength0 d g n A c a = strength0 d g n A c b).
      { intro c. unfold strength0. rewrite R, S1, DM. reflexivity. }
      unfold same_state, roe_diss, wave_sum, strength4. fold A. cbn [rho mom ene extra]. rewrite !S0, !S1, !R, !E.
      split; [reflexivity|]. split; [intros; rewrite ST, M by auto; reflexivity|]. split; [|intros; rewrite X by auto; reflexivity].
      f_equal. f_equal. apply dot_ext; auto. intros; rewrite ST by auto; reflexivity.
    - unfold same_state, plain_diss. cbn. rewrite R, E. split; [reflexivity|]. split; [intros; rewrite M by auto; reflexivity|]. split; [reflexivity|]. intros; rewrite X by auto; reflexivity.
  Qed.
  Lemma tdu_local : forall x U UO n vg l r s o a b, same_state d x a b -> same_state d x (tdu U UO n vg l r s o a) (tdu U UO n vg l r s o b).
  Proof.
    intros x U UO n vg l r s o a b H. pose proof (diss_local x r n U UO l a b H) as (R1 & M1 & E1 & X1). pose proof (cinc_local x U n vg a b H) as (R2 & M2 & E2 & X2).
    unfold same_state, tdu. destruct o; cbn [rho mom ene extra add_state scale_state zero_st]; rewrite ?R1, ?E1, ?R2, ?E2;
      (split; [reflexivity|]; split; [intros; rewrite ?M1, ?M2 by auto; reflexivity|]; split; [reflexivity|]; intros; rewrite ?X1, ?X2 by auto; reflexivity).
  Qed.

  (** *** the matrix *)
  Lemma comp_from : forall f k, comp d (from_comps d f) k = f k.
  Proof.
    intros f k. unfold comp, from_comps. cbn [rho mom ene extra]. destruct (Nat.eqb_spec k 0) as [-> |]; [reflexivity|].
    destruct (Nat.leb_spec k d); [f_equal; lia|]. destruct (Nat.eqb_spec k (d + 1)) as [-> |]; [reflexivity|]. f_equal. lia.
  Qed.
  Lemma comp_add : forall a b k, comp d (add_state a b) k = comp d a k + comp d b k.
  Proof. intros. unfold comp. destruct (_ =? _)%nat; [reflexivity|]. destruct (_ <=? _)%nat; [reflexivity|]. destruct (_ =? _)%nat; reflexivity. Qed.
  Lemma comp_scal : forall c a k, comp d (scale_state c a) k = c * comp d a k.
  Proof. intros. unfold comp. destruct (_ =? _)%nat; [reflexivity|]. destruct (_ <=? _)%nat; [reflexivity|]. destruct (_ =? _)%nat; reflexivity. Qed.
  Lemma comp_zero : forall k, comp d zero_st k = 0.
  Proof. intros. unfold comp. destruct (_ =? _)%nat; [reflexivity|]. destruct (_ <=? _)%nat; [reflexivity|]. destruct (_ =? _)%nat; reflexivity. Qed.
  Lemma comps_same : forall x a b, (forall k, (k < d + 2 + x)%nat -> comp d a k = comp d b k) -> same_state d x a b.
  Proof.
    intros x a b H. split; [|split; [|split]].
    - apply (H 0%nat). lia.
    - intros i Hi. pose proof (H (S i) ltac:(lia)) as E. unfold comp in E. cbn [Nat.eqb] in E. destruct (Nat.leb_spec (S i) d); [|lia]. replace (S i - 1)%nat with i in E by lia. exact E.
    - pose proof (H (d + 1)%nat ltac:(lia)) as E. unfold comp in E. destruct (Nat.eqb_spec (d + 1) 0); [lia|]. destruct (Nat.leb_spec (d + 1) d); [lia|]. rewrite Nat.eqb_refl in E. exact E.
    - intros i Hi. pose proof (H (d + 2 + i)%nat ltac:(lia)) as E. unfold comp in E. destruct (Nat.eqb_spec (d + 2 + i) 0); [lia|]. destruct (Nat.leb_spec (d + 2 + i) d); [lia|].
      destruct (Nat.eqb_spec (d + 2 + i) (d + 1)); [lia|]. replace (d + 2 + i - d - 2)%nat with i in E by lia. exact E.
  Qed.
  Lemma same_comps : forall x a b k, same_state d x a b -> (k < d + 2 + x)%nat -> comp d a k = comp d b k.
  Proof.
    intros x a b k (R & M & E & X) Hk. unfold comp. destruct (Nat.eqb_spec k 0); [exact R|]. destruct (Nat.leb_spec k d); [apply M; lia|]. destruct (Nat.eqb_spec k (d + 1)); [exact E|]. apply X. lia.
  Qed.

  Section Columns.
  Variable f : state -> state.
  Hypothesis f_add : forall a b, f (add_state a b) = add_state (f a) (f b).
  Hypothesis f_scal : forall c a, f (scale_state c a) = scale_state c (f a).
  Fixpoint upto (dU : state) (N : nat) : state :=
    match N with O => zero_st | S k => add_state (upto dU k) (scale_state (comp d dU k) (unit_st d k)) end.
  Lemma f_zero : f zero_st = zero_st.
  Proof. replace zero_st with (scale_state 0 zero_st) at 1 by (st; ring). rewrite f_scal. st; ring. Qed.
  Lemma columns : forall dU i N, sumn N (fun j => comp d (f (unit_st d j)) i * comp d dU j) = comp d (f (upto dU N)) i.
  Proof.
    intros dU i. induction N as [|N IH]; cbn [sumn upto]; [rewrite f_zero, comp_zero; reflexivity|].
    rewrite f_add, f_scal, comp_add, comp_scal, IH. ring.
  Qed.
  Lemma upto_comp : forall dU N k, comp d (upto dU N) k = if (k <? N)%nat then comp d dU k else 0.
  Proof.
    intros dU. induction N as [|N IH]; intro k; cbn [upto]; [rewrite comp_zero; reflexivity|]. rewrite comp_add, comp_scal, IH. unfold unit_st. rewrite comp_from.
    destruct (Nat.ltb_spec k N); destruct (Nat.ltb_spec k (S N)); destruct (Nat.eqb_spec k N); try lia; subst; ring.
  Qed.
  End Columns.
  Lemma mapM_total : forall A B (F : A -> res B) (G : A -> B) l, (forall a, F a = Ok (G a)) -> mapM F l = Ok (map G l).
  Proof. intros A B F G l H. induction l as [|a l IH]; cbn; [reflexivity|]. rewrite H. cbn. rewrite IH. reflexivity. Qed.
  Lemma matrix_ok : forall x U UO n vg l r s o, rho U <> 0 -> (r = true -> roe_ok d g U UO) ->
    exists J, times_matrix d x g U UO n vg l r s o = Ok J /\ length J = (d + 2 + x)%nat /\
      forall dU, exists y, times_du d g U UO n vg l r s o dU = Ok y /\ forall i, (i < d + 2 + x)%nat -> col_times d J dU i = comp d y i.
  Proof.
    intros x U UO n vg l r s o HU HR. exists (map (fun j => tdu U UO n vg l r s o (unit_st d j)) (seq 0 (d + 2 + x))).
    split; [apply mapM_total; intro; apply times_ok; auto|]. split; [rewrite map_length, seq_length; reflexivity|].
    intro dU. eexists. split; [apply times_ok; auto|]. intros i Hi. unfold col_times. rewrite map_length, seq_length.
    rewrite (sumn_ext _ _ (fun j => comp d (tdu U UO n vg l r s o (unit_st d j)) i * comp d dU j)).
    - rewrite (columns (tdu U UO n vg l r s o) (tdu_add U UO n vg l r s o) (tdu_scal U UO n vg l r s o)). apply (same_comps x); auto. apply tdu_local. apply comps_same.
      intros k Hk. rewrite upto_comp. destruct (Nat.ltb_spec k (d + 2 + x)); [reflexivity|lia].
    - intros j Hj. f_equal. f_equal. rewrite (nth_indep _ zero_st (tdu U UO n vg l r s o (unit_st d 0))) by (rewrite map_length, seq_length; lia).
      rewrite (map_nth (fun j => tdu U UO n vg l r s o (unit_st d j))). rewrite seq_nth by lia. reflexivity.
  Qed.
End Linear.
