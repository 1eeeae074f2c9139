From Coq Require Import Reals List ZArith Arith Bool Lia Lra FunctionalExtensionality.
From Verif Require Import Base.Prelude Base.PreludeFacts Euler.GasModel Euler.GasSpec Euler.GasProofs Euler.RiemannModel Euler.RiemannProofs
  Euler.JacobianModel Euler.JacobianSpec Euler.JacobianProofs.
Import ListNotations.
Local Open Scope R_scope.

(** *** derivatives of states *)
Lemma hd_along : forall d x U dU, has_derivative d x (along U dU) 0 dU.
Proof.
  intros d x U dU. assert (L : forall a b, derivable_pt_lim (fun t => a + t * b) 0 b).
  { intros a b. apply (dl_eq _ _ (0 + b)); [ring|]. apply dl_plus; [apply dl_c|]. apply (dl_ext (fun t => b * t)); [intro; ring|]. apply (dl_eq _ _ (b * 1)); [ring|]. apply dl_scal. apply derivable_pt_lim_id. }
  unfold has_derivative, along. cbn. repeat split; intros; apply L.
Qed.
Lemma along0 : forall U dU, along U dU 0 = U.
Proof. intros. unfold along. st; ring. Qed.
Lemma hd_add : forall d x F G t a b, has_derivative d x F t a -> has_derivative d x G t b -> has_derivative d x (fun s => add_state (F s) (G s)) t (add_state a b).
Proof. intros d x F G t a b (A1 & A2 & A3 & A4) (B1 & B2 & B3 & B4). unfold has_derivative. cbn. repeat split; intros; apply dl_plus; auto. Qed.
Lemma hd_sub : forall d x F G t a b, has_derivative d x F t a -> has_derivative d x G t b -> has_derivative d x (fun s => sub_state (F s) (G s)) t (sub_state a b).
Proof. intros d x F G t a b (A1 & A2 & A3 & A4) (B1 & B2 & B3 & B4). unfold has_derivative. cbn. repeat split; intros; apply dl_minus; auto. Qed.
Lemma hd_scal : forall d x F t a c, has_derivative d x F t a -> has_derivative d x (fun s => scale_state c (F s)) t (scale_state c a).
Proof. intros d x F t a c (A1 & A2 & A3 & A4). unfold has_derivative. cbn. repeat split; intros; apply dl_scal; auto. Qed.
Lemma hd_zero : forall d x t, has_derivative d x (fun _ => zero_st) t zero_st.
Proof. intros. unfold has_derivative. cbn. repeat split; intros; apply dl_c. Qed.
Lemma hd_same : forall d x F t a b, has_derivative d x F t a -> same_state d x a b -> has_derivative d x F t b.
Proof. intros d x F t a b (A1 & A2 & A3 & A4) (R & M & E & X). unfold has_derivative. rewrite <- R, <- E. repeat split; auto; intros; [rewrite <- M by auto|rewrite <- X by auto]; auto. Qed.

Section Rows.
  Variables (d x : nat) (g : R).
  Lemma hd_full : forall vg n U t dU, has_derivative d x U t dU -> rho (U t) <> 0 ->
    has_derivative d x (fun s => full_flux d g vg n (U s)) t (cinc d g (U t) n vg dU).
  Proof.
    intros vg n U t dU H HU. destruct (der_flux d x g U t dU H HU vg n) as (A1 & A2 & A3 & _). unfold full_flux, cinc. split; [exact A1|]. split; [exact A2|]. split; [exact A3|].
    intros i Hi. cbn [extra]. destruct H as (H1 & H2 & H3 & H4).
    apply (dl_eq _ _ (extra dU i * dot d (fun k => velocity (U t) k - vg k) n + extra (U t) i * dot d (dvelo (U t) dU) n)); [rewrite !(dot_comm d n); reflexivity|].
    apply (dl_mult (fun s => extra (U s) i) (fun s => dot d (fun k => velocity (U s) k - vg k) n)); [apply H4; auto|].
    apply (dl_eq _ _ (dot d (fun k => dvelo (U t) dU k) n + dot d (fun k => velocity (U t) k - vg k) (fun _ => 0))).
    { rewrite (dot_comm d _ (fun _ => 0)), dot_zero_l. rewrite Rplus_0_r. reflexivity. }
    apply (dl_dot d (fun s k => velocity (U s) k - vg k) (fun _ => n)); intros k Hk; [|apply dl_c].
    apply (dl_eq _ _ (dvelo (U t) dU k - 0)); [ring|]. apply dl_minus; [|apply dl_c]. apply (der_velocity d x U t dU); auto. split; auto.
  Qed.
  Lemma hd_lin : forall (L : state -> state) U t dU, (forall a b, L (add_state a b) = add_state (L a) (L b)) -> (forall c a, L (scale_state c a) = scale_state c (L a)) ->
    forall V dV, (forall s, U s = along V dV s) -> t = 0 -> dU = dV -> has_derivative d x (fun s => L (U s)) t (L dU).
  Proof.
    intros L U t dU LA LS V dV HU -> ->. assert (E : (fun s => L (U s)) = along (L V) (L dV)); [|rewrite E; apply hd_along].
    apply functional_extensionality. intro s. rewrite HU. unfold along. rewrite LA, LS. reflexivity.
  Qed.

  (** *** one face *)
  Lemma sub_along : forall U dU V dV s, sub_state (along U dU s) (along V dV s) = along (sub_state U V) (sub_state dU dV) s.
  Proof. intros. unfold along. st; ring. Qed.
  Lemma hd_face : forall (L : state -> state) vg n U dU V dV,
    (forall a b, L (add_state a b) = add_state (L a) (L b)) -> (forall c a, L (scale_state c a) = scale_state c (L a)) ->
    rho U <> 0 -> rho V <> 0 ->
    has_derivative d x (fun s => dissipative_flux d g L vg n (along U dU s) (along V dV s)) 0
      (scale_state (1/2) (add_state (add_state (cinc d g U n vg dU) (L dU)) (sub_state (cinc d g V n vg dV) (L dV)))).
  Proof.
    intros L vg n U dU V dV LA LS HU HV. unfold dissipative_flux.
    pose proof (hd_full vg n (along U dU) 0 dU (hd_along d x U dU)) as H1. rewrite along0 in H1. specialize (H1 HU).
    pose proof (hd_full vg n (along V dV) 0 dV (hd_along d x V dV)) as H2. rewrite along0 in H2. specialize (H2 HV).
    pose proof (hd_lin L (fun s => sub_state (along V dV s) (along U dU s)) 0 (sub_state dV dU) LA LS _ _ (sub_along V dV U dU) eq_refl eq_refl) as H3.
    pose proof (hd_sub _ _ _ _ _ _ _ (hd_scal _ _ _ _ _ (1/2) (hd_add _ _ _ _ _ _ _ H1 H2)) (hd_scal _ _ _ _ _ (1/2) H3)) as H.
    eapply hd_same; [exact H|]. assert (E : L (sub_state dV dU) = sub_state (L dV) (L dU)).
    { replace (sub_state dV dU) with (add_state dV (scale_state (-1) dU)) by (st; ring). rewrite LA, LS. st; ring. }
    rewrite E. unfold same_state. cbn [rho mom ene extra add_state sub_state scale_state]. repeat split; intros; ring.
  Qed.

  (** *** a closed cell *)
  Lemma lsum_plus : forall A (f h : A -> R) l, lsum (fun a => f a + h a) l = lsum f l + lsum h l.
  Proof. induction l; cbn; [ring|]. rewrite IHl. ring. Qed.
  Lemma lsum_scal : forall A c (f : A -> R) l, lsum (fun a => c * f a) l = c * lsum f l.
  Proof. induction l; cbn; [ring|]. rewrite IHl. ring. Qed.
  Lemma lsum_ext : forall A (f h : A -> R) l, (forall a, f a = h a) -> lsum f l = lsum h l.
  Proof. induction l; intro H; cbn; [ring|]. rewrite H, IHl by auto. ring. Qed.
  Lemma lsum_dot : forall fs (w : vec), lsum (fun f => area f * dot d w (nrm f)) fs = dot d w (fun i => lsum (fun f => area f * nrm f i) fs).
  Proof.
    intros fs w. induction fs as [|f fs IH]; cbn [lsum].
    - rewrite dot_comm, dot_zero_l. reflexivity.
    - rewrite IH. rewrite (dot_add_r d (fun i => area f * nrm f i) (fun i => lsum (fun f => area f * nrm f i) fs) w). rewrite dot_scal_r. reflexivity.
  Qed.
  Definition csum (U : state) (fs : list cface) (dU : state) : state :=
    sum_states (map (fun f => scale_state (area f) (cinc d g U (nrm f) (vgrid f) dU)) fs).
  Lemma sum_rho : forall l, rho (sum_states l) = lsum rho l.
  Proof. induction l; cbn; [reflexivity|]. rewrite <- IHl. reflexivity. Qed.
  Lemma sum_mom : forall l i, mom (sum_states l) i = lsum (fun s => mom s i) l.
  Proof. intros l i. induction l; cbn; [reflexivity|]. rewrite <- IHl. reflexivity. Qed.
  Lemma sum_ene : forall l, ene (sum_states l) = lsum ene l.
  Proof. induction l; cbn; [reflexivity|]. rewrite <- IHl. reflexivity. Qed.
  Lemma sum_extra : forall l i, extra (sum_states l) i = lsum (fun s => extra s i) l.
  Proof. intros l i. induction l; cbn; [reflexivity|]. rewrite <- IHl. reflexivity. Qed.
  Lemma lsum_map : forall A B (h : A -> B) (f : B -> R) l, lsum f (map h l) = lsum (fun a => f (h a)) l.
  Proof. induction l; cbn; [reflexivity|]. rewrite IHl. reflexivity. Qed.
  Lemma csum_zero : forall U fs dU, closed d fs -> same_state d x (csum U fs dU) zero_st.
  Proof.
    intros U fs dU (C1 & C2). assert (D : forall w, lsum (fun f => area f * dot d w (nrm f)) fs = 0).
    { intro w. rewrite lsum_dot. rewrite (dot_ext d w _ w (fun _ => 0)) by auto. rewrite dot_comm. apply dot_zero_l. }
    unfold csum, same_state. rewrite sum_rho, sum_ene, !lsum_map. cbn [rho mom ene extra scale_state cinc flux_increment zero_st].
    split; [|split; [|split]].
    - rewrite (lsum_ext _ _ (fun f => area f * dot d (mom dU) (nrm f) + - rho dU * (area f * dot d (vgrid f) (nrm f)))) by (intros; cbn; ring).
      rewrite lsum_plus, D, lsum_scal, C2. ring.
    - intros i Hi. rewrite sum_mom, lsum_map. cbn [mom scale_state cinc flux_increment].
      rewrite (lsum_ext _ _ (fun f => mom dU i * (area f * dot d (velocity U) (nrm f)) + (mom U i * (area f * dot d (dvelo U dU) (nrm f)) + (dpres d U dU (velocity U) g * (area f * nrm f i) + - mom dU i * (area f * dot d (vgrid f) (nrm f)))))) by (intros; cbn; ring).
      rewrite !lsum_plus, !lsum_scal, !D, C1, C2 by auto. ring.
    - rewrite (lsum_ext _ _ (fun f => (ene dU + dpres d U dU (velocity U) g) * (area f * dot d (velocity U) (nrm f)) + ((ene U + pressure d g U) * (area f * dot d (dvelo U dU) (nrm f)) + - ene dU * (area f * dot d (vgrid f) (nrm f))))) by (intros; cbn; ring).
      rewrite !lsum_plus, !lsum_scal, !D, C2. ring.
    - intros i Hi. rewrite sum_extra, lsum_map. cbn [extra scale_state cinc].
      rewrite (lsum_ext _ _ (fun f => extra dU i * (area f * dot d (velocity U) (nrm f)) + (extra U i * (area f * dot d (dvelo U dU) (nrm f)) + - extra dU i * (area f * dot d (vgrid f) (nrm f)))))
        by (intros; cbn; rewrite !(dot_comm d (nrm _)), dot_sub_l; ring).
      rewrite !lsum_plus, !lsum_scal, !D, C2. ring.
  Qed.

  (** *** the rows *)
  Variables (dTau dt alpha vol : R).
  Variable diss : cface -> state -> state.
  Hypothesis LA : forall f a b, diss f (add_state a b) = add_state (diss f a) (diss f b).
  Hypothesis LS : forall f c a, diss f (scale_state c a) = scale_state c (diss f a).
  (** what a row amounts to: time term, dissipation in the cell, the other cells *)
  Definition row_value (U dU : state) (fs : list (cface * state)) : state :=
    add_state (scale_state (1 / dTau + 1 / dt) dU)
      (sum_states (map (fun p => scale_state ((1/2 * alpha) * area (fst p) / vol)
         (add_state (diss (fst p) dU) (sub_state (cinc d g (there (fst p)) (nrm (fst p)) (vgrid (fst p)) (snd p)) (diss (fst p) (snd p))))) fs)).
  Lemma hd_outflow : forall U dU fs, rho U <> 0 -> (forall p, In p fs -> rho (there (fst p)) <> 0) ->
    has_derivative d x (fun t => outflow d g vol diss (along U dU t) (moved fs t)) 0
      (add_state (scale_state (1/2 / vol) (csum U (map fst fs) dU))
        (sum_states (map (fun p => scale_state (1/2 * area (fst p) / vol)
           (add_state (diss (fst p) dU) (sub_state (cinc d g (there (fst p)) (nrm (fst p)) (vgrid (fst p)) (snd p)) (diss (fst p) (snd p))))) fs))).
  Proof.
    intros U dU fs HU. induction fs as [|p fs IH]; intro HF.
    - cbn. eapply hd_same; [apply hd_zero|]. unfold same_state, csum. cbn. repeat split; intros; ring.
    - assert (HF' : forall q, In q fs -> rho (there (fst q)) <> 0) by (intros; apply HF; right; auto). specialize (IH HF'). unfold outflow, moved in IH |- *. cbn [map].
      pose proof (hd_face (diss (fst p)) (vgrid (fst p)) (nrm (fst p)) U dU (there (fst p)) (snd p) (LA _) (LS _) HU (HF p (or_introl eq_refl))) as H1.
      pose proof (hd_add _ _ _ _ _ _ _ (hd_scal _ _ _ _ _ (area (fst p) / vol) H1) IH) as H. eapply hd_same; [exact H|].
      unfold csum. cbn [map]. change (sum_states (?a :: ?l)) with (add_state a (sum_states l)).
      unfold same_state. cbn [rho mom ene extra add_state sub_state scale_state fold_right sum_states]. repeat split; intros; unfold Rdiv; ring.
  Qed.
  Lemma row_derivative : forall U dU fs, rho U <> 0 -> (forall p, In p fs -> rho (there (fst p)) <> 0) -> closed d (map fst fs) ->
    has_derivative d x (implicit_residual d g dTau dt alpha vol diss U dU fs) 0 (row_value U dU fs).
  Proof.
    intros U dU fs HU HF C. unfold implicit_residual.
    pose proof (hd_add _ _ _ _ _ _ _ (hd_scal d x _ _ _ (1 / dTau + 1 / dt) (hd_along d x U dU)) (hd_scal _ _ _ _ _ alpha (hd_outflow U dU fs HU HF))) as H.
    eapply hd_same; [exact H|]. unfold row_value. destruct (csum_zero U (map fst fs) dU C) as (R & M & E & X). cbn in R, M, E, X.
    unfold same_state. cbn [rho mom ene extra add_state scale_state]. rewrite R, E, !sum_rho, !sum_ene, !lsum_map. cbn [rho mom ene extra add_state sub_state scale_state].
    split; [|split; [|split]]; [| | |]; try intros i Hi; rewrite ?sum_mom, ?sum_extra, ?lsum_map; cbn [rho mom ene extra add_state sub_state scale_state]; rewrite ?M, ?X by auto;
      f_equal; rewrite Rmult_0_r, Rplus_0_l, <- lsum_scal; apply lsum_ext; intro; unfold Rdiv; ring.
  Qed.
End Rows.

(** *** the code's rows *)
Lemma fold_sub : forall A (F : A -> res state) (G : A -> state) l b, (forall a, In a l -> F a = Ok (G a)) ->
  foldM (fun b p => do W <- F p; Ok (sub_state b W)) b l = Ok (sub_state b (sum_states (map G l))).
Proof.
  intros A F G. induction l as [|a l IH]; intros b H; cbn [foldM map].
  - f_equal. unfold sum_states. cbn. st; ring.
  - rewrite H by (left; auto). cbn [bind]. rewrite IH by (intros; apply H; right; auto). f_equal. cbn [sum_states fold_right]. fold (sum_states (map G l)). st; ring.
Qed.
Lemma fold_add : forall A (F : A -> res state) (k : A -> R) (G : A -> state) l b, (forall a, In a l -> F a = Ok (G a)) ->
  foldM (fun b p => do W <- F p; Ok (add_state b (scale_state (k p) W))) b l = Ok (add_state b (sum_states (map (fun p => scale_state (k p) (G p)) l))).
Proof.
  intros A F k G. induction l as [|a l IH]; intros b H; cbn [foldM map].
  - f_equal. unfold sum_states. cbn. st; ring.
  - rewrite H by (left; auto). cbn [bind]. rewrite IH by (intros; apply H; right; auto). f_equal. cbn [sum_states fold_right]. fold (sum_states (map (fun p => scale_state (k p) (G p)) l)). st; ring.
Qed.

Lemma comb : forall A (a b e : A -> R) c t l, (forall y, e y = a y * c + b y) -> (t + lsum a l) * c - (0 - lsum b l) = t * c + lsum e l.
Proof. intros A a b e c t l H. induction l as [|y l IH]; cbn [lsum]; [ring|]. rewrite H. transitivity (t * c + lsum e l + (a y * c + b y)); [rewrite <- IH|]; ring. Qed.

Section Code.
  Variables (d : nat) (g dTau dt alpha vol : R).
  Lemma divisor_ok : forall fs, divisor dTau dt alpha vol fs = (1 / dTau + 1 / dt) + lsum (fun f => (1/2 * alpha) * area f * lamMain (lam f) / vol) fs.
  Proof.
    intro fs. unfold divisor. generalize (1 / dTau + 1 / dt). induction fs as [|f fs IH]; intro b; cbn [fold_left lsum]; [ring|]. rewrite IH. ring.
  Qed.
  Lemma row_plain : forall U dU fs, (forall p, In p fs -> rho (there (fst p)) <> 0) ->
    row_times d g dTau dt alpha vol U dU fs = Ok (row_value d g dTau dt alpha vol (fun f => plain_diss (lam f)) U dU fs).
  Proof.
    intros U dU fs H. unfold row_times.
    rewrite (fold_sub _ _ (fun p => scale_state ((1/2 * alpha) * area (fst p) / vol) (tdu d g (there (fst p)) U (nrm (fst p)) (vgrid (fst p)) (lam (fst p)) false (-1) false (snd p)))).
    - cbn [bind]. f_equal. rewrite divisor_ok. unfold row_value, tdu, the_diss, plain_diss. clear H.
      apply state_eq; cbn [rho mom ene extra add_state sub_state scale_state zero_st]; try (apply functional_extensionality; intro i);
        rewrite ?sum_rho, ?sum_ene, ?sum_mom, ?sum_extra, !lsum_map; apply comb; intro p; cbn [rho mom ene extra add_state sub_state scale_state]; unfold Rdiv; ring.
    - intros p Hp. unfold off_diag. rewrite times_ok by (auto; discriminate). reflexivity.
  Qed.

  (** Roe's term *)
  Lemma roe_swap_in : forall U V, roe_ok d g U V -> roe_ok d g V U /\ roe_average d g V U = roe_average d g U V.
  Proof. intros U V (H1 & H2 & H3). pose proof (average_swap d g U V H1 H2) as E. split; [|exact E]. unfold roe_ok. rewrite E. auto. Qed.
  Lemma roe_diss_order : forall n U V l, roe_ok d g U V -> roe_diss d g n V U l = roe_diss d g n U V l.
  Proof. intros n U V l H. unfold roe_diss. rewrite (proj2 (roe_swap_in U V H)). reflexivity. Qed.
  Lemma roe_diss_back : forall n U V l W, roe_ok d g U V -> roe_diss d g (opp n) V U (back_speeds l) W = roe_diss d g n U V l W.
  Proof.
    intros n U V l W H. rewrite roe_diss_order by auto. unfold roe_diss, back_speeds. cbn [lamMain lamVis lam0 lam123 lam4]. set (A := roe_average d g U V).
    assert (E : wave_sum d g (opp n) A (sqrt (av_a2 A)) W (lam4 l) (lam123 l) (lam0 l) = wave_sum d g n A (sqrt (av_a2 A)) W (lam0 l) (lam123 l) (lam4 l)); [|rewrite E; reflexivity].
    assert (N : sqrt (av_a2 A) <> 0). { pose proof (sqrt_lt_R0 (av_a2 A) (proj2 (proj2 H))). lra. }
    pose proof (wave_sum_swap d g n A (sqrt (av_a2 A)) W (lam0 l) (lam123 l) (lam4 l) N) as X. unfold opp_state in X. rewrite wave_scal in X.
    assert (Y : forall a b, scale_state (-1) a = scale_state (-1) b -> a = b); [|apply Y; exact X].
    intros a b Z. replace a with (scale_state (-1) (scale_state (-1) a)) by (st; ring). rewrite Z. st; ring.
  Qed.
  Lemma row_roe : forall U dU fs, (forall p, In p fs -> roe_ok d g U (there (fst p))) ->
    row_times_roe d g dTau dt alpha vol U dU fs = Ok (row_value d g dTau dt alpha vol (fun f => roe_diss d g (nrm f) U (there f) (lam f)) U dU fs).
  Proof.
    intros U dU fs H. unfold row_times_roe.
    rewrite (fold_sub _ _ (fun p => scale_state ((1/2 * alpha) * area (fst p) / vol)
       (add_state (cinc d g (there (fst p)) (nrm (fst p)) (vgrid (fst p)) (snd p)) (scale_state (-1) (roe_diss d g (nrm (fst p)) U (there (fst p)) (lam (fst p)) (snd p)))))).
    - cbn [bind]. unfold diag_roe.
      rewrite (fold_add _ _ (fun f => (1/2 * alpha) * area f / vol) (fun f => roe_diss d g (nrm f) U (there f) (lam f) dU)).
      + cbn [bind]. f_equal. unfold row_value. clear H. rewrite map_map.
        apply state_eq; cbn [rho mom ene extra add_state sub_state scale_state zero_st]; try (apply functional_extensionality; intro i);
        rewrite ?sum_rho, ?sum_ene, ?sum_mom, ?sum_extra, !lsum_map;
        match goal with |- 0 + lsum ?a fs + ?t - (0 - lsum ?b fs) = _ => transitivity (t + lsum (fun p => a p + b p) fs); [rewrite lsum_plus; ring|] end;
        f_equal; apply lsum_ext; intro p; cbn [rho mom ene extra add_state sub_state scale_state]; unfold Rdiv; ring.
      + intros f Hf. rewrite in_map_iff in Hf. destruct Hf as (p & <- & Hp). destruct (H p Hp) as (H1 & H2 & H3).
        rewrite times_ok by (auto; lra). f_equal. unfold tdu, the_diss. st; ring.
    - intros p Hp. unfold off_diag. destruct (H p Hp) as (H1 & H2 & H3).
      rewrite times_ok by (try lra; intros; apply roe_swap_in; auto). cbn [bind]. f_equal. f_equal. unfold tdu, the_diss. rewrite roe_diss_order by auto. reflexivity.
  Qed.

  (** equal speeds *)
  Lemma wave_complete : forall n A a W l, g <> 1 -> a <> 0 -> a * a = av_a2 A -> av_a2 A = (g - 1) * (av_H A - 1/2 * av_vv A) ->
    same_state d 0 (wave_sum d g n A a W l l l) (scale_state l W).
  Proof.
    intros n A a W l G N Ea EA. assert (N2 : av_a2 A <> 0) by (rewrite <- Ea; apply Rmult_integral_contrapositive; auto).
    assert (DT : dot d (fun i => strength_t d n A W i * l) (av_v A) = l * dot d (strength_t d n A W) (av_v A)).
    { rewrite (dot_ext d _ (av_v A) (fun i => l * strength_t d n A W i) (av_v A)) by (intros; auto; ring). apply dot_scal_l. }
    assert (D : dot d (fun i => mom W i - rho W * av_v A i) n = dot d (mom W) n - rho W * dot d (av_v A) n).
    { rewrite dot_sub_l, dot_scal_l. reflexivity. }
    assert (Diff : strength4 d g n A a W - strength0 d g n A a W = (dot d (mom W) n - rho W * dot d (av_v A) n) / a).
    { unfold strength4, strength0. field. auto. }
    assert (S1 : (1/2 * av_vv A - av_H A) * strength1 d g n A W =
       - (rho W * (av_H A - dot d (av_v A) n * dot d (av_v A) n) + dot d (av_v A) n * dot d (mom W) n - (ene W - dot d (strength_t d n A W) (av_v A)))).
    { unfold strength1. replace (1/2 * av_vv A - av_H A) with (- (av_a2 A / (g - 1))) by (rewrite EA; field; lra). field. split; [auto|lra]. }
    unfold same_state, wave_sum. cbn [rho mom ene extra scale_state]. rewrite DT. split; [unfold strength4; ring|]. split; [|split; [|intros; lia]].
    - intros i Hi. unfold strength_t. rewrite D.
      transitivity (l * (av_v A i * (strength0 d g n A a W + strength1 d g n A W + strength4 d g n A a W) + n i * (a * (strength4 d g n A a W - strength0 d g n A a W))
         + (mom W i - rho W * av_v A i - n i * (dot d (mom W) n - rho W * dot d (av_v A) n)))); [ring|].
      rewrite Diff. unfold strength4. field. auto.
    - transitivity (l * (av_H A * (strength0 d g n A a W + strength1 d g n A W + strength4 d g n A a W) + (1/2 * av_vv A - av_H A) * strength1 d g n A W
         + dot d (av_v A) n * (a * (strength4 d g n A a W - strength0 d g n A a W)) + dot d (strength_t d n A W) (av_v A))); [ring|].
      rewrite Diff, S1. unfold strength4. field. auto.
  Qed.
  Lemma roe_equal_speeds : forall x n U V l v W, g <> 1 -> roe_ok d g U V ->
    same_state d x (roe_diss d g n U V {| lamMain := l + v; lamVis := v; lam0 := l; lam123 := l; lam4 := l |} W) (scale_state (l + v) W).
  Proof.
    intros x n U V l v W G (H1 & H2 & H3). unfold roe_diss.
    assert (EA : av_a2 (roe_average d g U V) = (g - 1) * (av_H (roe_average d g U V) - 1/2 * av_vv (roe_average d g U V))) by reflexivity.
    generalize dependent (roe_average d g U V). intros A H3 EA. pose proof (sqrt_lt_R0 _ H3) as Sp.
    destruct (wave_complete n A (sqrt (av_a2 A)) W l G ltac:(lra) (sqrt_sqrt _ (Rlt_le _ _ H3)) EA) as (R & M & E & _).
    unfold same_state. cbn [lamMain lamVis lam0 lam123 lam4 rho mom ene extra scale_state] in *.
    split; [rewrite R; ring|]. split; [intros; rewrite M by auto; ring|]. split; [rewrite E; ring|]. intros; ring.
  Qed.
End Code.

(** *** a uniform flow with a uniform increment *)
Lemma row_uniform : forall d x g dTau dt alpha vol diss U dU fs, closed d (map fst fs) ->
  (forall p, In p fs -> there (fst p) = U /\ snd p = dU) ->
  same_state d x (row_value d g dTau dt alpha vol diss U dU fs) (scale_state (1 / dTau + 1 / dt) dU).
Proof.
  intros d x g dTau dt alpha vol diss U dU fs C H.
  assert (E : sum_states (map (fun p => scale_state ((1/2 * alpha) * area (fst p) / vol)
         (add_state (diss (fst p) dU) (sub_state (cinc d g (there (fst p)) (nrm (fst p)) (vgrid (fst p)) (snd p)) (diss (fst p) (snd p))))) fs)
     = scale_state (1/2 * alpha / vol) (csum d g U (map fst fs) dU)).
  { clear C. unfold csum. rewrite map_map. induction fs as [|p fs IH].
    - cbn. st; ring.
    - cbn [map]. change (sum_states (?a :: ?l)) with (add_state a (sum_states l)). rewrite IH by (intros; apply H; right; auto).
      destruct (H p (or_introl eq_refl)) as (-> & ->). rewrite scale_add. f_equal. st; unfold Rdiv; ring. }
  unfold row_value. rewrite E. destruct (csum_zero d x g U (map fst fs) dU C) as (R & M & E' & X). cbn in R, M, E', X.
  unfold same_state. cbn [rho mom ene extra add_state scale_state]. rewrite R, E'. split; [ring|]. split; [intros; rewrite M by auto; ring|]. split; [ring|]. intros; rewrite X by auto; ring.
Qed.
