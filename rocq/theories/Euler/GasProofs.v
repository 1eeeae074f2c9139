From Coq Require Import Reals List Arith Lra Lia Psatz.
From Verif Require Import Base.Prelude Euler.GasModel Euler.GasSpec.
Local Open Scope R_scope.

Lemma sumn_ext : forall n f g, (forall i, (i < n)%nat -> f i = g i) -> sumn n f = sumn n g.
Proof. induction n; intros f g H; cbn; auto. rewrite (IHn f g), H; auto. Qed.
Lemma sumn_plus : forall n f g, sumn n (fun i => f i + g i) = sumn n f + sumn n g.
Proof. induction n; intros; cbn; [lra|]. rewrite IHn. lra. Qed.
Lemma sumn_scal : forall n c f, sumn n (fun i => c * f i) = c * sumn n f.
Proof. induction n; intros; cbn; [lra|]. rewrite IHn. lra. Qed.
Lemma sumn_zero : forall n, sumn n (fun _ => 0) = 0.
Proof. induction n; cbn; lra. Qed.

Lemma dot_ext : forall d u v u' v', (forall i, (i < d)%nat -> u i = u' i) -> (forall i, (i < d)%nat -> v i = v' i) ->
  dot d u v = dot d u' v'.
Proof. intros. unfold dot. apply sumn_ext. intros. rewrite H, H0; auto. Qed.
Lemma dot_comm : forall d u v, dot d u v = dot d v u.
Proof. intros. unfold dot. apply sumn_ext. intros. lra. Qed.
Lemma dot_add_l : forall d u v w, dot d (fun i => u i + v i) w = dot d u w + dot d v w.
Proof. intros. unfold dot. rewrite <- sumn_plus. apply sumn_ext. intros. lra. Qed.
Lemma dot_scal_l : forall d c u w, dot d (fun i => c * u i) w = c * dot d u w.
Proof. intros. unfold dot. rewrite <- sumn_scal. apply sumn_ext. intros. lra. Qed.
Lemma dot_scal_r : forall d c u w, dot d u (fun i => c * w i) = c * dot d u w.
Proof. intros. rewrite dot_comm, dot_scal_l, dot_comm. auto. Qed.
Lemma dot_add_r : forall d u v w, dot d w (fun i => u i + v i) = dot d w u + dot d w v.
Proof. intros. rewrite dot_comm, dot_add_l, (dot_comm d u), (dot_comm d v). auto. Qed.
Lemma dot_sub_l : forall d u v w, dot d (fun i => u i - v i) w = dot d u w - dot d v w.
Proof.
  intros. rewrite (dot_ext d _ w (fun i => u i + (-1) * v i) w) by (intros; lra).
  rewrite dot_add_l, dot_scal_l. lra.
Qed.
Lemma dot_sub_r : forall d u v w, dot d w (fun i => u i - v i) = dot d w u - dot d w v.
Proof. intros. rewrite dot_comm, dot_sub_l, (dot_comm d u), (dot_comm d v). auto. Qed.
Lemma dot_opp_r : forall d u w, dot d u (fun i => - w i) = - dot d u w.
Proof. intros. rewrite (dot_ext d u _ u (fun i => (-1) * w i)) by (intros; lra). rewrite dot_scal_r. lra. Qed.
Lemma sqnorm_pos : forall d u, 0 <= sqnorm d u.
Proof. induction d; intros; unfold sqnorm, dot in *; cbn; [lra|]. specialize (IHd u). nra. Qed.
Lemma sqnorm_div : forall d u r, r <> 0 -> sqnorm d (fun i => u i / r) = sqnorm d u / (r * r).
Proof.
  intros. unfold sqnorm. unfold Rdiv at 3. rewrite Rmult_comm, <- !(dot_scal_l d (/ (r * r)) u u). apply sumn_ext.
  intros. field. auto.
Qed.

(** ** C45 *)
Lemma prim_cons : forall d n g U, 0 < rho U -> g <> 1 ->
  exists W U', cons2prim d U g = Ok W /\ prim2cons d W g = Ok U' /\ same_state d n U' U.
Proof.
  intros d n g U Hr Hg. assert (N : rho U <> 0) by lra. unfold cons2prim, prim2cons.
  destruct (Rlt_dec 0 (rho U)) as [_|X]; [|contradiction]. eexists _, _. split; [reflexivity|]. cbn [rho].
  destruct (Rlt_dec 0 (rho U)) as [_|X]; [|contradiction]. split; [reflexivity|].
  split; [reflexivity|]. split; [|split].
  - intros i _. cbn. field. auto.
  - cbn [rho mom ene]. field. lra.
  - intros i _. cbn. field. auto.
Qed.

Lemma cons_prim : forall d n g W, 0 < rho W -> g <> 1 ->
  exists U W', prim2cons d W g = Ok U /\ cons2prim d U g = Ok W' /\ same_state d n W' W.
Proof.
  intros d n g W Hr Hg. assert (N : rho W <> 0) by lra. unfold cons2prim, prim2cons.
  destruct (Rlt_dec 0 (rho W)) as [_|X]; [|contradiction]. eexists _, _. split; [reflexivity|]. cbn [rho].
  destruct (Rlt_dec 0 (rho W)) as [_|X]; [|contradiction]. split; [reflexivity|].
  split; [reflexivity|]. split; [|split].
  - intros i _. cbn. field. auto.
  - cbn [rho mom ene]. unfold sqnorm at 2. rewrite (dot_ext d _ _ (mom W) (mom W)) by (intros; field; auto).
    fold (sqnorm d (mom W)). field. lra.
  - intros i _. cbn. field. auto.
Qed.

(** the pressure is the one the thermal relation gives *)
Lemma prim_thermal : forall d g U W, cons2prim d U g = Ok W ->
  ene W = th_p (ene U) (rho U) (sqnorm d (mom W)) g.
Proof.
  intros d g U W H. unfold cons2prim in H. destruct (Rlt_dec 0 (rho U)); [|discriminate].
  injection H as <-. reflexivity.
Qed.

(** ** C46 *)
Ltac entries := unfold sqnorm, dot, mat_mul; cbn [sumn].

Lemma LR3 : forall velo H a g i j, g <> 1 -> a <> 0 ->
  a * a = (g - 1) * (H - 1/2 * sqnorm 3 velo) -> (i < 5)%nat -> (j < 5)%nat ->
  mat_mul 5 (LeV 3 velo (sqnorm 3 velo) H a g) (ReV 3 velo (sqnorm 3 velo) H a) i j = delta i j.
Proof.
  intros velo H a g i j Hg Ha E Hi Hj.
  assert (Hb : g - 1 <> 0) by lra.
  assert (EH : H = a * a / (g - 1) + 1/2 * sqnorm 3 velo) by (rewrite E; field; auto).
  rewrite EH. entries.
  do 5 (destruct i as [|i]; [do 5 (destruct j as [|j]; [unfold LeV, ReV, delta; cbn; field; auto|]); exfalso; lia|]). exfalso; lia.
Qed.

Lemma RL3 : forall velo H a g i j, g <> 1 -> a <> 0 ->
  a * a = (g - 1) * (H - 1/2 * sqnorm 3 velo) -> (i < 5)%nat -> (j < 5)%nat ->
  mat_mul 5 (ReV 3 velo (sqnorm 3 velo) H a) (LeV 3 velo (sqnorm 3 velo) H a g) i j = delta i j.
Proof.
  intros velo H a g i j Hg Ha E Hi Hj.
  assert (Hb : g - 1 <> 0) by lra.
  assert (EH : H = a * a / (g - 1) + 1/2 * sqnorm 3 velo) by (rewrite E; field; auto).
  rewrite EH. entries.
  do 5 (destruct i as [|i]; [do 5 (destruct j as [|j]; [unfold LeV, ReV, delta; cbn; field; auto|]); exfalso; lia|]). exfalso; lia.
Qed.

Lemma LR2 : forall velo H a g i j, g <> 1 -> a <> 0 ->
  a * a = (g - 1) * (H - 1/2 * sqnorm 2 velo) -> (i < 4)%nat -> (j < 4)%nat ->
  mat_mul 4 (LeV 2 velo (sqnorm 2 velo) H a g) (ReV 2 velo (sqnorm 2 velo) H a) i j = delta i j.
Proof.
  intros velo H a g i j Hg Ha E Hi Hj.
  assert (Hb : g - 1 <> 0) by lra.
  assert (EH : H = a * a / (g - 1) + 1/2 * sqnorm 2 velo) by (rewrite E; field; auto).
  rewrite EH. entries.
  do 4 (destruct i as [|i]; [do 4 (destruct j as [|j]; [unfold LeV, ReV, delta; cbn; field; auto|]); exfalso; lia|]). exfalso; lia.
Qed.

Lemma RL2 : forall velo H a g i j, g <> 1 -> a <> 0 ->
  a * a = (g - 1) * (H - 1/2 * sqnorm 2 velo) -> (i < 4)%nat -> (j < 4)%nat ->
  mat_mul 4 (ReV 2 velo (sqnorm 2 velo) H a) (LeV 2 velo (sqnorm 2 velo) H a g) i j = delta i j.
Proof.
  intros velo H a g i j Hg Ha E Hi Hj.
  assert (Hb : g - 1 <> 0) by lra.
  assert (EH : H = a * a / (g - 1) + 1/2 * sqnorm 2 velo) by (rewrite E; field; auto).
  rewrite EH. entries.
  do 4 (destruct i as [|i]; [do 4 (destruct j as [|j]; [unfold LeV, ReV, delta; cbn; field; auto|]); exfalso; lia|]). exfalso; lia.
Qed.

(** the thermal relation gives the condition on the sound speed *)
Lemma sound_enthalpy : forall d g U, rho U <> 0 ->
  sound2 d g U = (g - 1) * (enthalpy d g U - 1/2 * sqnorm d (velocity U)).
Proof.
  intros d g U N. unfold sound2, enthalpy, th_asqr, th_H, th_p. field. auto.
Qed.

Lemma eigen_gen : forall d g U vg a k, (d = 2 \/ d = 3)%nat -> rho U <> 0 -> g <> 1 -> a * a = sound2 d g U -> a <> 0 ->
  (k < d + 2)%nat ->
  let R_ := column d (ReV d (velocity U) (sqnorm d (velocity U)) (enthalpy d g U) a) k in
  same_state d 0
    (flux_increment d U R_ ex (velocity U) (dvelo U R_) vg (dpres d U R_ (velocity U) g) (pressure d g U))
    (scale_state (wave d (velocity U 0%nat) a k - vg 0%nat) R_).
Proof.
  intros d g U vg a k Hd N Hg Ea Ha Hk R_. subst R_.
  assert (Hb : g - 1 <> 0) by lra.
  pose proof (sound_enthalpy d g U N) as EH. rewrite <- Ea in EH.
  (* total energy and momentum in terms of a, velocity, density *)
  set (v := velocity U) in *. set (H := enthalpy d g U) in *. set (p := pressure d g U) in *.
  assert (Em : forall i, mom U i = rho U * v i) by (intro i; unfold v, velocity; field; auto).
  assert (EE : ene U = rho U * H - p) by (unfold H, enthalpy, th_H, p, pressure; fold v; field; auto).
  assert (EH' : H = a * a / (g - 1) + 1/2 * sqnorm d v) by (rewrite EH; field; auto).
  unfold flux_increment, scale_state, column, same_state, dvelo, dpres.
  cbn [rho mom ene extra].
  assert (D : forall i, (mom U i / rho U) = v i) by reflexivity.
  destruct Hd as [-> | ->]; unfold dot; cbn [sumn].
  - do 4 (destruct k as [|k]; [rewrite ?D, EE, ?Em, EH'; unfold ReV, wave, ex, dvelo, sqnorm, dot, column; cbn [rho mom ene extra sumn Nat.eqb Nat.leb orb Nat.add Nat.sub];
       rewrite ?Em; cbn [rho mom ene extra sumn Nat.eqb Nat.leb orb Nat.add Nat.sub]; split; [|split; [|split]]; 
       [field; auto
       |intros i Hi; do 2 (destruct i as [|i]; [rewrite ?Em; cbn [Nat.eqb Nat.leb orb Nat.add Nat.sub]; field; auto|]); exfalso; lia
       |field; auto|intros i Hi; exfalso; lia]|]). exfalso; lia.
  - do 5 (destruct k as [|k]; [rewrite ?D, EE, ?Em, EH'; unfold ReV, wave, ex, dvelo, sqnorm, dot, column; cbn [rho mom ene extra sumn Nat.eqb Nat.leb orb Nat.add Nat.sub];
       rewrite ?Em; cbn [rho mom ene extra sumn Nat.eqb Nat.leb orb Nat.add Nat.sub]; split; [|split; [|split]]; 
       [field; auto
       |intros i Hi; do 3 (destruct i as [|i]; [rewrite ?Em; cbn [Nat.eqb Nat.leb orb Nat.add Nat.sub]; field; auto|]); exfalso; lia
       |field; auto|intros i Hi; exfalso; lia]|]). exfalso; lia.
Qed.

(** ** C49 *)
Lemma dl_ext : forall f g x l, (forall t, f t = g t) -> derivable_pt_lim f x l -> derivable_pt_lim g x l.
Proof. intros f g x l E H eps He. destruct (H eps He) as [dl Hd]. exists dl. intros h H1 H2. rewrite <- !E. auto. Qed.
Lemma dl_eq : forall f x l l', l = l' -> derivable_pt_lim f x l -> derivable_pt_lim f x l'.
Proof. intros. subst. auto. Qed.
Lemma dl_c : forall c x, derivable_pt_lim (fun _ => c) x 0.
Proof. intros. apply derivable_pt_lim_const. Qed.
Lemma dl_plus : forall f g x a b, derivable_pt_lim f x a -> derivable_pt_lim g x b ->
  derivable_pt_lim (fun t => f t + g t) x (a + b).
Proof. intros. apply (derivable_pt_lim_plus f g); auto. Qed.
Lemma dl_minus : forall f g x a b, derivable_pt_lim f x a -> derivable_pt_lim g x b ->
  derivable_pt_lim (fun t => f t - g t) x (a - b).
Proof. intros. apply (derivable_pt_lim_minus f g); auto. Qed.
Lemma dl_mult : forall f g x a b, derivable_pt_lim f x a -> derivable_pt_lim g x b ->
  derivable_pt_lim (fun t => f t * g t) x (a * g x + f x * b).
Proof. intros. apply (derivable_pt_lim_mult f g); auto. Qed.
Lemma dl_scal : forall f c x a, derivable_pt_lim f x a -> derivable_pt_lim (fun t => c * f t) x (c * a).
Proof. intros. apply (derivable_pt_lim_scal f); auto. Qed.
Lemma dl_div : forall f g x a b, derivable_pt_lim f x a -> derivable_pt_lim g x b -> g x <> 0 ->
  derivable_pt_lim (fun t => f t / g t) x ((a - f x / g x * b) / g x).
Proof.
  intros. eapply dl_eq; [|apply (derivable_pt_lim_div f g x a b); auto]. unfold Rsqr. field. auto.
Qed.
Lemma dl_sumn : forall n (f : R -> nat -> R) df x, (forall i, (i < n)%nat -> derivable_pt_lim (fun t => f t i) x (df i)) ->
  derivable_pt_lim (fun t => sumn n (f t)) x (sumn n df).
Proof.
  induction n; intros f df x H; cbn; [apply dl_c|]. apply dl_plus; auto.
Qed.
Lemma dl_dot : forall d (u v : R -> vec) du dv x,
  (forall i, (i < d)%nat -> derivable_pt_lim (fun t => u t i) x (du i)) ->
  (forall i, (i < d)%nat -> derivable_pt_lim (fun t => v t i) x (dv i)) ->
  derivable_pt_lim (fun t => dot d (u t) (v t)) x (dot d du (v x) + dot d (u x) dv).
Proof.
  intros d u v du dv x H1 H2. unfold dot. rewrite <- sumn_plus.
  apply (dl_sumn d (fun t i => u t i * v t i)). intros i Hi. apply dl_mult; auto.
Qed.

Section Curve.
Variables (d n : nat) (g : R) (U : R -> state) (x : R) (dU : state).
Hypothesis Hd : has_derivative d n U x dU.
Hypothesis Hr : rho (U x) <> 0.

Lemma der_velocity : forall i, (i < d)%nat -> derivable_pt_lim (fun t => velocity (U t) i) x (dvelo (U x) dU i).
Proof. destruct Hd as (D1 & D2 & _ & _). intros i Hi. unfold velocity, dvelo. apply (dl_div (fun t => mom (U t) i) (fun t => rho (U t))); auto. Qed.

Lemma ene_kin : forall V, rho V <> 0 -> rho V * (1/2) * sqnorm d (velocity V) = 1/2 * dot d (mom V) (velocity V).
Proof.
  intros V HV. unfold sqnorm. rewrite (dot_ext d (mom V) (velocity V) (fun i => rho V * velocity V i) (velocity V)); auto.
  - rewrite dot_scal_l. lra.
  - intros i _. unfold velocity. field. auto.
Qed.

(** the pressure, through the product form *)
Lemma der_pressure : derivable_pt_lim (fun t => pressure d g (U t)) x (dpres d (U x) dU (velocity (U x)) g).
Proof.
  pose proof der_velocity as DV. destruct Hd as (D1 & D2 & D3 & D4).
  unfold pressure, th_p, dpres. apply dl_scal.
  pose proof (dl_dot d (fun t => velocity (U t)) (fun t => velocity (U t)) _ _ x DV DV) as DS.
  eapply dl_eq; [|apply dl_minus; [exact D3|apply dl_mult; [apply dl_mult; [exact D1|apply dl_c]|exact DS]]].
  cbv beta. fold (sqnorm d (velocity (U x))).
  assert (Emv : dot d (mom dU) (velocity (U x)) = rho (U x) * dot d (dvelo (U x) dU) (velocity (U x)) + rho dU * sqnorm d (velocity (U x))).
  { unfold sqnorm. rewrite <- !dot_scal_l, <- dot_add_l. apply dot_ext; auto. intros i _. unfold dvelo, velocity. field. auto. }
  assert (Em : dot d (mom (U x)) (dvelo (U x) dU) = rho (U x) * dot d (velocity (U x)) (dvelo (U x) dU)).
  { rewrite <- dot_scal_l. apply dot_ext; auto. intros i _. unfold velocity. field. auto. }
  rewrite Emv, Em, (dot_comm d (dvelo (U x) dU) (velocity (U x))). lra.
Qed.

Lemma der_flux : forall vg nn, has_derivative d 0 (fun t => exact_flux d g vg nn (U t)) x
  (flux_increment d (U x) dU nn (velocity (U x)) (dvelo (U x) dU) vg (dpres d (U x) dU (velocity (U x)) g) (pressure d g (U x))).
Proof.
  intros vg nn. pose proof der_velocity as DV. pose proof der_pressure as DP. destruct Hd as (D1 & D2 & D3 & D4).
  assert (DW : derivable_pt_lim (fun t => dot d (fun i => velocity (U t) i - vg i) nn) x (dot d (dvelo (U x) dU) nn)).
  { eapply dl_eq; [|apply (dl_dot d (fun t i => velocity (U t) i - vg i) (fun _ => nn) (fun i => dvelo (U x) dU i - 0) (fun _ => 0))].
    - rewrite (dot_ext d (fun i => dvelo (U x) dU i - 0) nn (dvelo (U x) dU) nn) by (intros; lra).
      unfold dot at 2. rewrite (sumn_ext _ _ (fun _ => 0)) by (intros; lra). rewrite sumn_zero. lra.
    - intros i Hi. apply dl_minus; [auto|apply dl_c].
    - intros. apply dl_c. }
  assert (DN : derivable_pt_lim (fun t => dot d (velocity (U t)) nn) x (dot d (dvelo (U x) dU) nn)).
  { eapply dl_ext; [|eapply dl_eq; [|apply dl_plus; [exact DW|apply (dl_c (dot d vg nn))]]].
    - intros t. cbv beta. rewrite dot_sub_l. lra.
    - lra. }
  unfold exact_flux, flux, flux_increment, has_derivative. cbn [rho mom ene extra]. split; [|split; [|split]].
  - eapply dl_eq; [|apply dl_mult; [exact D1|exact DW]]. cbv beta. rewrite dot_sub_l.
    assert (Em : dot d (mom dU) nn = rho (U x) * dot d (dvelo (U x) dU) nn + rho dU * dot d (velocity (U x)) nn).
    { rewrite <- !dot_scal_l, <- dot_add_l. apply dot_ext; auto. intros i _. unfold dvelo, velocity. field. auto. }
    rewrite Em. lra.
  - intros i Hi. eapply dl_eq; [|apply dl_plus; [apply dl_mult; [apply D2; auto|exact DW]|apply dl_mult; [exact DP|apply dl_c]]].
    cbv beta. rewrite dot_sub_l. lra.
  - eapply dl_eq; [|apply dl_plus; [apply dl_mult; [exact D3|exact DW]|apply dl_mult; [exact DN|exact DP]]].
    cbv beta. rewrite dot_sub_l. lra.
  - intros i Hi. exfalso; lia.
Qed.

Lemma der_primitive : has_derivative d n (fun t => primitive d g (U t)) x (grad_prim d (U x) dU g).
Proof.
  pose proof der_velocity as DV. pose proof der_pressure as DP. destruct Hd as (D1 & D2 & D3 & D4).
  unfold primitive, grad_prim. split; [|split; [|split]]; cbn [rho mom ene extra].
  - exact D1.
  - intros i Hi. eapply dl_eq; [|apply DV; auto]. unfold dvelo. field. auto.
  - eapply dl_eq; [|exact DP]. unfold dpres. do 2 f_equal. f_equal. f_equal. rewrite dot_comm. apply dot_ext; auto.
    intros i _. unfold dvelo. field. auto.
  - intros i Hi. eapply dl_eq; [|apply (dl_div (fun t => extra (U t) i) (fun t => rho (U t)) x (extra dU i) (rho dU)); auto]. field. auto.
Qed.
End Curve.

Lemma primitive_is_cons2prim : forall d g U, 0 < rho U -> cons2prim d U g = Ok (primitive d g U).
Proof. intros d g U H. unfold cons2prim. destruct (Rlt_dec 0 (rho U)); [|contradiction]. reflexivity. Qed.
