From Coq Require Import Reals List Arith Lra Lia Psatz.
From Verif Require Import Base.Prelude Base.PreludeFacts Euler.GasModel Euler.GasProofs
  Euler.CompressModel Euler.CompressProofs Euler.PositiveModel Euler.PositiveSpec Euler.PositiveProofs
  Euler.PositiveIncProofs Euler.PositiveFixProofs.
Import ListNotations.
Local Open Scope R_scope.

(** *** linearity of the reconstruction *)
Definition same_flow (u v : state) : Prop := rho u = rho v /\ (forall i, mom u i = mom v i) /\ ene u = ene v.
Definition diffs (c b : list state) : list state := map (fun p => sadd (fst p) (sscale (-1) (snd p))) (combine c b).
Definition blended (beta : R) (c b : list state) : list state :=
  map (fun p => sadd (sscale beta (sadd (fst p) (sscale (-1) (snd p)))) (snd p)) (combine c b).

Lemma same_flow_internal : forall d u v, same_flow u v -> internal d u = internal d v.
Proof. intros d u v (A & B & C). apply internal_ext; auto. Qed.

Lemma blended_at : forall beta row c b, length c = length b ->
  same_flow (rec_at (blended beta c b) row) (sadd (sscale beta (rec_at (diffs c b) row)) (rec_at b row)).
Proof.
  intros beta. unfold rec_at, blended, diffs. induction row as [|r row IH]; intros c b L.
  - cbn. unfold same_flow. cbn. repeat split; intros; ring.
  - destruct c as [|x c], b as [|y b]; try discriminate; [cbn; unfold same_flow; cbn; repeat split; intros; ring|].
    cbn [combine map fold_right fst snd]. injection L as L. destruct (IH c b L) as (A & B & C).
    unfold same_flow in *. cbn [sadd sscale rho mom ene]. cbn [sadd sscale rho mom ene] in A, B, C. rewrite A, C.
    split; [ring|]. split; [intro i; rewrite B; ring|ring].
Qed.
Lemma whole_at : forall row c b, length c = length b ->
  same_flow (rec_at c row) (sadd (rec_at (diffs c b) row) (rec_at b row)).
Proof.
  unfold rec_at, diffs. induction row as [|r row IH]; intros c b L.
  - cbn. unfold same_flow. cbn. repeat split; intros; ring.
  - destruct c as [|x c], b as [|y b]; try discriminate; [cbn; unfold same_flow; cbn; repeat split; intros; ring|].
    cbn [combine map fold_right fst snd]. injection L as L. destruct (IH c b L) as (A & B & C).
    unfold same_flow in *. cbn [sadd sscale rho mom ene]. cbn [sadd sscale rho mom ene] in A, B, C. rewrite A, C.
    split; [ring|]. split; [intro i; rewrite B; ring|ring].
Qed.
Lemma same_flow_at : forall f row c, (forall x, same_flow (f x) x) -> same_flow (rec_at (map f c) row) (rec_at c row).
Proof.
  intros f. unfold rec_at. induction row as [|r row IH]; intros c H; [repeat split|].
  destruct c as [|x c]; [repeat split|]. cbn [combine map fold_right fst snd].
  destruct (IH c H) as (A & B & C). destruct (H x) as (A' & B' & C').
  unfold same_flow. cbn [sadd sscale rho mom ene]. rewrite A, C, A', C'.
  split; [auto|]. split; [intro i; rewrite B, B'; auto|auto].
Qed.
Lemma zero_at : forall row n, same_flow (rec_at (map (fun _ : state => szero) n) row) szero.
Proof.
  unfold rec_at. induction row as [|r row IH]; intros n; [repeat split|]. destruct n as [|x n]; [repeat split|].
  cbn [map combine fold_right fst snd]. destruct (IH n) as (A & B & C). unfold same_flow. cbn [sadd sscale rho mom ene szero] in *.
  rewrite A, C. split; [ring|]. split; [intro i; rewrite B; ring|ring].
Qed.
Lemma self_diff_at : forall row c, same_flow (rec_at (diffs c c) row) szero.
Proof.
  unfold rec_at, diffs. induction row as [|r row IH]; intros c; [repeat split|]. destruct c as [|x c]; [repeat split|].
  cbn [map combine fold_right fst snd]. destruct (IH c) as (A & B & C). unfold same_flow. cbn [sadd sscale rho mom ene szero] in *.
  rewrite A, C. split; [ring|]. split; [intro i; rewrite B; ring|ring].
Qed.

(** *** the checks *)
Lemma all_e_good_val : forall d pE vs, (forall v, In v vs -> 0 < rho v) ->
  exists b, all_e_good d pE vs = Ok b /\ (b = true <-> forall v, In v vs -> pE <= internal d v).
Proof.
  intros d pE. induction vs as [|v vs IH]; intro H; [exists true; split; [reflexivity|]; split; [intros _ v []|auto]|].
  cbn [all_e_good]. rewrite rho_e_val by (apply H; left; auto). cbn [bind].
  destruct IH as (b & -> & Hb); [intros; apply H; right; auto|]. cbn [bind]. eexists. split; [reflexivity|].
  rewrite Bool.andb_true_iff, Hb. destruct (Rlt_dec (internal d v) pE) as [L|G].
  - split; [intros (? & _); discriminate|]. intro A. pose proof (A v (or_introl eq_refl)). lra.
  - split; [|intro A; split; [auto|intros; apply A; right; auto]].
    intros (_ & A) w [<-|Hw]; [lra|auto].
Qed.
Lemma all_e_good_ok : forall d pE vs, all_e_good d pE vs = Ok true -> forall v, In v vs -> rho v <> 0 /\ pE <= internal d v.
Proof.
  intros d pE. induction vs as [|v vs IH]; intros E w Hw; [destruct Hw|]. cbn [all_e_good] in E. unfold rho_e in E.
  destruct (Req_EM_T (rho v) 0); [discriminate|]. cbn [bind] in E. destruct (all_e_good d pE vs) as [b| |] eqn:Eb; [|discriminate|discriminate].
  cbn [bind] in E. destruct (Rlt_dec _ pE) as [L|G] in E; [discriminate|]. cbn in E. injection E as ->.
  destruct Hw as [<-|Hw]; [split; [auto|unfold internal; lra]|auto].
Qed.

Lemma rho_good : forall tb r vs, all_rho_good tb r vs = true -> forall v, In v vs -> r <= rho v.
Proof.
  intros tb r vs H v Hv. unfold all_rho_good in H. rewrite forallb_forall in H. specialize (H v Hv).
  apply Bool.andb_true_iff in H. destruct H as (H & _). destruct (Rlt_dec (rho v) r); [discriminate|lra].
Qed.

Lemma good_ok : forall d tb r e vs, good d tb r e vs = Ok true -> forall v, In v vs -> r <= rho v /\ e <= internal d v.
Proof.
  intros d tb r e vs H v Hv. unfold good in H. destruct (all_rho_good tb r vs) eqn:G; [|discriminate].
  split; [eapply rho_good; eauto|eapply all_e_good_ok; eauto].
Qed.
Lemma good_returns : forall d tb r e vs, 0 < r -> exists b, good d tb r e vs = Ok b.
Proof.
  intros d tb r e vs P. unfold good. destruct (all_rho_good tb r vs) eqn:G; [|eauto].
  destruct (all_e_good_val d e vs) as (b & -> & _); [|eauto].
  intros v Hv. pose proof (rho_good _ _ _ G v Hv). lra.
Qed.

(** *** lowering the order *)
Definition cast_rows (dim3 : bool) (order : nat) : nat :=
  match order with 1%nat => 0%nat | 2%nat => (if dim3 then 3 else 2)%nat | _ => (if dim3 then 9 else 5)%nat end.
Lemma down_cast_val : forall dim3 k c, (1 <= k <= 3)%nat -> down_cast dim3 k c = Ok (truncated (cast_rows dim3 k) c).
Proof. intros dim3 k c H. destruct k as [|[|[|[|k]]]]; try lia; reflexivity. Qed.
Lemma truncated_length : forall k c, length (truncated k c) = length c.
Proof. intros. unfold truncated. rewrite app_length, map_length, <- app_length, firstn_skipn. reflexivity. Qed.
Lemma truncated_0 : forall c, truncated 0 c = map (fun _ => szero) c.
Proof. reflexivity. Qed.
Lemma truncated_twice : forall c j k, (k <= j)%nat -> truncated k (truncated j c) = truncated k c.
Proof.
  unfold truncated. induction c as [|x c IH]; intros j k H; [destruct j, k; reflexivity|].
  destruct j as [|j], k as [|k]; try lia; cbn [firstn skipn map app].
  - rewrite !map_map. reflexivity.
  - f_equal. rewrite map_app, !map_map. rewrite <- map_app, firstn_skipn. reflexivity.
  - f_equal. apply IH. lia.
Qed.

(** [c'] is the reconstruction itself or a truncation of it, [b] a truncation of it *)
Lemma lower_order_spec : forall d dim3 tb r e u rows c0 order c b0 c' b,
  (1 <= order)%nat -> (c = c0 \/ ((order <= 2)%nat /\ c = truncated (cast_rows dim3 (S order)) c0)) ->
  lower_order d dim3 tb r e u rows order c b0 = Ok (c', b) ->
  length c' = length c0 /\ length b = length c0 /\ (exists k, b = truncated k c0) /\
  (good d tb r e (points u rows b) = Ok true \/ (c' = b /\ b = truncated 0 c0)).
Proof.
  intros d dim3 tb r e u rows c0. induction order as [|k IH]; intros c b0 c' b H1 HC E; [lia|].
  assert (L : length c = length c0) by (destruct HC as [->|(_ & ->)]; [auto|apply truncated_length]).
  cbn [lower_order] in E. destruct (down_cast dim3 (S k) c) as [b1| |] eqn:D; [|discriminate|discriminate]. cbn [bind] in E.
  assert (K3 : (S k <= 3)%nat). { destruct k as [|[|[|k]]]; try lia. discriminate D. }
  rewrite down_cast_val in D by lia.
  assert (b1 = truncated (cast_rows dim3 (S k)) c) as -> by congruence. clear D.
  set (b1 := truncated (cast_rows dim3 (S k)) c) in *.
  assert (B1 : b1 = truncated (cast_rows dim3 (S k)) c0).
  { unfold b1. destruct HC as [->|(H2 & ->)]; [auto|]. apply truncated_twice.
    destruct k as [|[|k]]; try lia; destruct dim3; cbn; lia. }
  destruct (good d tb r e (points u rows b1)) as [g| |] eqn:G; [|discriminate|discriminate]. cbn [bind] in E. destruct g.
  - assert (c' = c /\ b = b1) as (-> & ->) by (split; congruence).
    split; [auto|]. split; [rewrite B1; apply truncated_length|]. split; [eauto|auto].
  - destruct k as [|k].
    + cbn [lower_order] in E. assert (c' = b1 /\ b = b1) as (-> & ->) by (split; congruence). rewrite B1. split; [apply truncated_length|]. split; [apply truncated_length|].
      split; [eauto|]. right. split; reflexivity.
    + apply IH in E; [auto|lia|]. right. split; [lia|exact B1].
Qed.
Lemma lower_order_returns : forall d dim3 tb r e u rows order c b0, 0 < r -> (order <= 3)%nat ->
  exists x, lower_order d dim3 tb r e u rows order c b0 = Ok x.
Proof.
  intros d dim3 tb r e u rows. induction order as [|k IH]; intros c b0 P H; [eexists; reflexivity|].
  cbn [lower_order]. rewrite down_cast_val by lia. cbn [bind].
  destruct (good_returns d tb r e (points u rows (truncated (cast_rows dim3 (S k)) c)) P) as (b & ->). cbn [bind].
  destruct b; [eauto|]. apply IH; [auto|lia].
Qed.

(** *** the multiplier of the density *)
Lemma fold_theta : forall (r : R) (ps : list (state * state)) th0, 0 <= th0 <= 1 ->
  (forall b i, In (b, i) ps -> r <= rho b) ->
  let th := fold_left (fun th p => if Rlt_dec (rho (snd p)) 0
                 then Rmin th ((rho (fst p) - r) / (- rho (snd p) + verySmall)) else th) ps th0 in
  0 <= th <= th0 /\ forall b i, In (b, i) ps -> rho i < 0 -> th <= (rho b - r) / (- rho i + verySmall).
Proof.
  intros r. induction ps as [|(b, i) ps IH]; intros th0 H0 H; cbn; [split; [lra|intros ? ? []]|].
  pose proof verySmall_pos as VS.
  set (th1 := if Rlt_dec (rho i) 0 then Rmin th0 ((rho b - r) / (- rho i + verySmall)) else th0).
  assert (T1 : 0 <= th1 <= th0 /\ (rho i < 0 -> th1 <= (rho b - r) / (- rho i + verySmall))).
  { unfold th1. destruct (Rlt_dec (rho i) 0) as [N|N]; [|split; [lra|lra]].
    split; [split; [|apply Rmin_l]|intros _; apply Rmin_r]. apply Rmin_glb; [lra|].
    apply Rmult_le_pos; [pose proof (H b i (or_introl eq_refl)); lra|]. left. apply Rinv_0_lt_compat. lra. }
  destruct T1 as (T1 & T2).
  destruct (IH th1) as (I1 & I2); [lra|intros; eapply H; right; eauto|]. cbv zeta in I1, I2.
  split; [lra|]. intros b' i' [[= <- <-]|Hp] N; [specialize (T2 N); lra|auto].
Qed.

Lemma rho_theta_ok : forall r bs incs, (forall b i, In (b, i) (combine bs incs) -> r <= rho b) ->
  0 <= rho_theta r bs incs <= 1 /\
  forall b i t, In (b, i) (combine bs incs) -> 0 <= t <= rho_theta r bs incs -> r <= rho b + t * rho i.
Proof.
  intros r bs incs H. unfold rho_theta. pose proof verySmall_pos as VS.
  destruct (existsb _ _) eqn:X.
  - destruct (fold_theta r (combine bs incs) 1 ltac:(lra) H) as (F1 & F2). cbv zeta in F1, F2.
    match goal with |- context [fold_left ?f (combine bs incs) 1] => set (th := fold_left f (combine bs incs) 1) in * end.
    split; [lra|]. intros b i t Hp Ht. pose proof (H b i Hp) as Hb.
    destruct (Rle_or_lt 0 (rho i)) as [P|N]; [nra|].
    pose proof (F2 b i Hp N) as Q. set (q := (rho b - r) / (- rho i + verySmall)) in *.
    assert (Eq : q * (- rho i + verySmall) = rho b - r) by (unfold q; field; lra).
    assert (0 <= q) by lra. nra.
  - split; [lra|]. intros b i t Hp Ht. pose proof (H b i Hp) as Hb.
    assert (~ (rho i + rho b < r)) as G.
    { intro L. rewrite <- Bool.not_true_iff_false in X. apply X. apply existsb_exists. exists (rho i + rho b).
      split; [apply in_map_iff; exists (b, i); auto|]. destruct (Rlt_dec _ _); [auto|lra]. }
    destruct (Rle_or_lt 0 (rho i)); nra.
Qed.

Lemma p_theta_range : forall d g pE ps th thP, p_theta d g pE ps th = Ok thP -> 0 <= th <= 1 -> 0 <= thP <= th.
Proof.
  intros d g pE. induction ps as [|(b, i) ps IH]; intros th thP E H; cbn [p_theta] in E; [injection E as <-; lra|].
  destruct (rho_e d (sadd i b)) as [e| |]; [|discriminate|discriminate]. cbn [bind] in E.
  destruct (Req_EM_T g 1); [discriminate|]. destruct (Rlt_dec e _).
  - destruct (compression_ratio d 0 b i pE) as [c| |] eqn:C; [|discriminate|discriminate]. cbn [bind] in E.
    destruct (ratio_ok _ _ _ _ _ _ C) as (Rc & _).
    assert (0 <= Rmin th c <= th) by (split; [apply Rmin_glb; lra|apply Rmin_l]).
    apply IH in E; lra.
  - apply IH in E; auto.
Qed.

Lemma final_beta_range : forall st b, 0 <= b <= 1 -> 0 <= final_beta st b <= b.
Proof.
  intros st b H. unfold final_beta. destruct (Rlt_dec b 1) as [L|G]; [|lra].
  assert (P : 0 <= b ^ beta_power st <= 1).
  { split; [apply pow_le; lra|]. rewrite <- (pow1 (beta_power st)). apply pow_incr. lra. }
  pose proof safety_range as SR.
  assert (0 <= b * (b ^ beta_power st * safety) <= b).
  { assert (0 <= b ^ beta_power st * safety <= 1) by nra. nra. }
  destruct (Rlt_dec _ _); lra.
Qed.

Lemma scale_flow_same : forall tb a v, same_flow (scale_flow tb a v) (sscale a v).
Proof. intros [] a v; repeat split. Qed.
Lemma scale_extras_same : forall a v, same_flow (scale_extras a v) v.
Proof. intros; repeat split. Qed.

Lemma in_combine_map : forall {A B C} (f : A -> B) (g : A -> C) l x, In x l -> In (f x, g x) (combine (map f l) (map g l)).
Proof. induction l as [|y l IH]; intros x []; cbn; [subst; auto|auto]. Qed.
Lemma combine_map_in : forall {A B C} (f : A -> B) (g : A -> C) l b c, In (b, c) (combine (map f l) (map g l)) ->
  exists x, In x l /\ b = f x /\ c = g x.
Proof.
  induction l as [|y l IH]; intros b c H; cbn in H; [destruct H|].
  destruct H as [E|H2].
  - exists y. injection E as E1 E2. split; [left; reflexivity|]. split; congruence.
  - destruct (IH b c H2) as (x & Hx & Eb). exists x. split; [right; auto|auto].
Qed.

(** the reconstruction after the multiplier of the turbulence variables *)
Definition turb_scaled (tb : turbulence) (st : settings) (bs incs c : list state) : list state :=
  match tb with
  | TwoEq => let th := extra_theta st bs incs 1 (extra_theta st bs incs 0 1) in
             if Rlt_dec th 1 then map (scale_extras (th * (9/10))) c else c
  | _ => c
  end.
Lemma turb_scaled_flow : forall tb st bs incs c row, same_flow (rec_at (turb_scaled tb st bs incs c) row) (rec_at c row).
Proof.
  intros tb st bs incs c row. assert (R : same_flow (rec_at c row) (rec_at c row)) by (repeat split).
  destruct tb; cbn [turb_scaled]; auto. cbv zeta. destruct (Rlt_dec _ _); [|auto]. apply same_flow_at. intro. apply scale_extras_same.
Qed.
Lemma turb_scaled_length : forall tb st bs incs c, length (turb_scaled tb st bs incs c) = length c.
Proof. intros tb st bs incs c. destruct tb; cbn [turb_scaled]; auto. cbv zeta. destruct (Rlt_dec _ _); [apply map_length|auto]. Qed.

Lemma flow_trans' : forall u v w, same_flow u v -> same_flow v w -> same_flow u w.
Proof. intros u v w (A & B & C) (A' & B' & C'). split; [congruence|]. split; [intro; rewrite B; auto|congruence]. Qed.
Lemma flow_sadd : forall a b c e, same_flow a b -> same_flow c e -> same_flow (sadd a c) (sadd b e).
Proof. intros a b c e (A & B & C) (A' & B' & C'). repeat split; cbn; intros; rewrite ?A, ?B, ?C, ?A', ?B', ?C'; auto. Qed.
Lemma flow_sym : forall a b, same_flow a b -> same_flow b a.
Proof. intros a b (A & B & C). repeat split; intros; auto. Qed.

(** the limited reconstruction at a point *)
Definition limited (beta : R) (c b : list state) : list state := if Rlt_dec beta 1 then blended beta c b else c.
Lemma limited_at : forall beta tb st bs incs c b row u, length c = length b -> beta <= 1 ->
  same_flow (sadd (rec_at (limited beta (turb_scaled tb st bs incs c) b) row) u)
            (step (sadd (rec_at b row) u) (rec_at (diffs c b) row) beta).
Proof.
  intros beta tb st bs incs c b row u L Hb.
  set (c1 := turb_scaled tb st bs incs c). assert (L1 : length c1 = length b) by (unfold c1; rewrite turb_scaled_length; auto).
  assert (DF : same_flow (rec_at (diffs c1 b) row) (rec_at (diffs c b) row)).
  { destruct (whole_at row c1 b L1) as (A & B & C). destruct (whole_at row c b L) as (A' & B' & C').
    destruct (turb_scaled_flow tb st bs incs c row) as (A2 & B2 & C2). fold c1 in A2, B2, C2.
    cbn [sadd rho mom ene] in *. split; [lra|]. split; [intro i; specialize (B i); specialize (B' i); specialize (B2 i); lra|lra]. }
  unfold limited. destruct (Rlt_dec beta 1) as [N|N].
  - destruct (blended_at beta row c1 b L1) as (A & B & C). destruct DF as (D1 & D2 & D3).
    cbn [sadd sscale step rho mom ene] in *. unfold same_flow. cbn [sadd sscale step rho mom ene].
    rewrite A, C, D1, D3. split; [ring|]. split; [intro i; rewrite B, D2; ring|ring].
  - assert (beta = 1) as -> by lra. destruct (whole_at row c1 b L1) as (A & B & C). destruct DF as (D1 & D2 & D3).
    cbn [sadd sscale step rho mom ene] in *. unfold same_flow. cbn [sadd sscale step rho mom ene].
    rewrite A, C, D1, D3. split; [ring|]. split; [intro i; rewrite B, D2; ring|ring].
Qed.

(** what the routine computes once the reconstruction has failed the check *)
Lemma urec_beta_eq : forall d dim3 tb st rhoEps pEps to_mean order u rows c,
  urec_beta d dim3 tb st rhoEps pEps to_mean order u rows c =
  if Rlt_dec (rho u) rhoEps then Abort else
  do eCent <- rho_e d u;
  let pCent := (gam st - 1) * eCent in
  if Rlt_dec pCent pEps then Abort else
  do g <- good d tb rhoEps pEps (points u rows c);
  if g then Ok (c, 1) else
  do cb <- lower_order d dim3 tb rhoEps pEps u rows (if to_mean then 1%nat else order) c c;
  let bs := points u rows (snd cb) in
  let incs := map (fun r => rec_at (diffs (fst cb) (snd cb)) r) rows in
  let theta1 := rho_theta rhoEps bs incs in
  do thetaP <- (if Rle_dec pCent (2 * pEps) then Ok 0
                else p_theta d (gam st) pEps (combine bs (map (scale_flow tb theta1) incs)) 1);
  let beta := final_beta st (theta1 * thetaP) in
  if Rlt_dec beta 0 then Abort else
  let c := limited beta (turb_scaled tb st bs incs (fst cb)) (snd cb) in
  do ok <- all_e_good d pEps (points u rows c);
  if ok then Ok (c, beta) else Abort.
Proof. reflexivity. Qed.

Section Beta.
  Variables (d : nat) (dim3 : bool) (tb : turbulence) (st : settings) (rE pE : R) (u : state) (rows : list (list R)).
  Hypothesis RP : 0 < rE.

  Lemma mean_point : forall row c, same_flow (sadd (rec_at (truncated 0 c) row) u) u.
  Proof.
    intros row c. rewrite truncated_0. destruct (zero_at row c) as (A & B & C).
    unfold same_flow. cbn [sadd rho mom ene szero] in *. rewrite A, C. split; [ring|]. split; [intro i; rewrite B; ring|ring].
  Qed.

  (** densities of the base, and of what is left of the increments *)
  Lemma base_rho : forall c c' b, rE <= rho u -> length c' = length b ->
    (good d tb rE pE (points u rows b) = Ok true \/ (c' = b /\ b = truncated 0 c)) ->
    let th := rho_theta rE (points u rows b) (map (fun r => rec_at (diffs c' b) r) rows) in
    0 <= th <= 1 /\ forall row t, In row rows -> 0 <= t <= th ->
      rE <= rho (sadd (rec_at b row) u) + t * rho (rec_at (diffs c' b) row).
  Proof.
    intros c c' b HU L HB th.
    assert (B : forall row, In row rows -> rE <= rho (sadd (rec_at b row) u)).
    { intros row Hr. destruct HB as [G|(_ & ->)].
      - apply (good_ok _ _ _ _ _ G). unfold points. apply in_map_iff. exists row. auto.
      - destruct (mean_point row c) as (-> & _). auto. }
    assert (H : forall x i, In (x, i) (combine (points u rows b) (map (fun r => rec_at (diffs c' b) r) rows)) -> rE <= rho x).
    { intros x i Hx. unfold points in Hx. apply combine_map_in in Hx. destruct Hx as (row & Hr & -> & _). auto. }
    destruct (rho_theta_ok rE _ _ H) as (T1 & T2). fold th in T1, T2. split; [auto|].
    intros row t Hr Ht. apply T2; auto. unfold points.
    apply (in_combine_map (fun r => sadd (rec_at b r) u) (fun r => rec_at (diffs c' b) r)). auto.
  Qed.

  Theorem urec_beta_physical : forall to_mean order c c' beta, to_mean = true \/ (1 <= order)%nat ->
    urec_beta d dim3 tb st rE pE to_mean order u rows c = Ok (c', beta) ->
    0 <= beta <= 1 /\ forall row, In row rows -> physical d rE pE (sadd (rec_at c' row) u).
  Proof.
    intros to_mean order c c' beta HO E. rewrite urec_beta_eq in E.
    destruct (Rlt_dec (rho u) rE) as [|HU]; [discriminate|].
    destruct (rho_e d u) as [eC| |]; [|discriminate|discriminate]. cbn [bind] in E. cbv zeta in E.
    destruct (Rlt_dec _ pE); [discriminate|].
    destruct (good d tb rE pE (points u rows c)) as [g| |] eqn:G; [|discriminate|discriminate]. cbn [bind] in E. destruct g.
    { injection E as <- <-. split; [lra|]. intros row Hr.
      destruct (good_ok _ _ _ _ _ G (sadd (rec_at c row) u)) as (A & B); [unfold points; apply in_map_iff; exists row; auto|].
      split; [lra|]. split; auto. }
    destruct (lower_order d dim3 tb rE pE u rows (if to_mean then 1%nat else order) c c) as [(c1, b)| |] eqn:LO; [|discriminate|discriminate].
    cbn [bind fst snd] in E.
    apply (lower_order_spec d dim3 tb rE pE u rows c) in LO; [|destruct to_mean; destruct HO; try discriminate; lia|auto].
    destruct LO as (L1 & L2 & _ & HB).
    assert (L : length c1 = length b) by congruence.
    pose proof (base_rho c c1 b ltac:(lra) L HB) as BR. cbv zeta in BR.
    set (incs := map (fun r => rec_at (diffs c1 b) r) rows) in *. set (bs := points u rows b) in *.
    set (th := rho_theta rE bs incs) in *. destruct BR as (T1 & T2).
    match type of E with (do thetaP <- ?X; _) = _ => destruct X as [thP| |] eqn:EP end; [|discriminate|discriminate].
    cbn [bind] in E.
    assert (RthP : 0 <= thP <= 1).
    { destruct (Rle_dec _ _) in EP; [injection EP as <-; lra|]. apply p_theta_range in EP; lra. }
    assert (Rb : 0 <= th * thP <= th) by nra.
    pose proof (final_beta_range st (th * thP) ltac:(lra)) as FB.
    set (be := final_beta st (th * thP)) in *. destruct (Rlt_dec be 0); [discriminate|].
    destruct (all_e_good d pE _) as [ok| |] eqn:OK in E; [|discriminate|discriminate]. cbn [bind] in E.
    destruct ok; [|discriminate]. injection E as <- <-. split; [lra|]. intros row Hr.
    assert (HI : In (sadd (rec_at (limited be (turb_scaled tb st bs incs c1) b) row) u)
                    (points u rows (limited be (turb_scaled tb st bs incs c1) b))).
    { unfold points. apply in_map_iff. exists row. auto. }
    destruct (all_e_good_ok _ _ _ OK _ HI) as (_ & EI).
    destruct (limited_at be tb st bs incs c1 b row u L ltac:(lra)) as (A & _).
    assert (RR : rE <= rho (sadd (rec_at (limited be (turb_scaled tb st bs incs c1) b) row) u)).
    { rewrite A. cbn [step sadd sscale rho]. apply (T2 row be Hr). lra. }
    split; [lra|]. split; auto.
  Qed.

  Lemma p_theta_returns : forall g ps th, 1 < g -> 
    (forall b i, In (b, i) ps -> 0 < rho i + rho b) ->
    (forall b i, In (b, i) ps -> internal d (sadd i b) < 2 * pE / (g - 1) ->
       exists r, compression_ratio d 0 b i pE = Ok r /\ 0 <= r <= 1 /\ pE <= internal d (step b i r)) ->
    0 <= th <= 1 ->
    exists thP, p_theta d g pE ps th = Ok thP /\ 0 <= thP <= th /\
      forall b i, In (b, i) ps -> 2 * pE / (g - 1) <= internal d (sadd i b) \/
        exists r, thP <= r /\ r <= 1 /\ pE <= internal d (step b i r).
  Proof.
    intros g. induction ps as [|(b, i) ps IH]; intros th Hg HR H Hth; cbn [p_theta]; [exists th; split; [reflexivity|split; [lra|intros ? ? []]]|].
    rewrite rho_e_val by (apply (HR b i); left; auto). cbn [bind]. destruct (Req_EM_T g 1); [lra|].
    destruct (Rlt_dec (internal d (sadd i b)) (2 * pE / (g - 1))) as [Lo|Hi].
    - destruct (H b i (or_introl eq_refl) Lo) as (r & -> & Rr & Ir). cbn [bind].
      assert (Rm : 0 <= Rmin th r <= 1). { split; [apply Rmin_glb; lra|eapply Rle_trans; [apply Rmin_l|lra]]. }
      destruct (IH (Rmin th r) Hg) as (thP & E & Rp & Q); [intros; eapply HR; right; eauto|intros; eapply H; [right; eauto|auto]|auto|].
      exists thP. split; [auto|]. pose proof (Rmin_l th r). pose proof (Rmin_r th r). split; [lra|].
      intros b' i' [[= <- <-]|Hp]; [|auto]. right. exists r. split; [lra|]. split; [lra|auto].
    - destruct (IH th Hg) as (thP & E & Rp & Q); [intros; eapply HR; right; eauto|intros; eapply H; [right; eauto|auto]|auto|].
      exists thP. split; [auto|]. split; [auto|]. intros b' i' [[= <- <-]|Hp]; [left; lra|auto].
  Qed.

  Hypothesis PP : 0 < pE.
  Hypothesis HG : 1 < gam st < 2.

  (** the compression ratio as this limiter calls it *)
  Lemma beta_ratio : forall b i, physical d rE pE b -> resolved d pE b -> not_swamped d b -> 0 < rho b + rho i ->
    exists r, compression_ratio d 0 b i pE = Ok r /\ 0 <= r <= 1 /\ pE <= internal d (step b i r).
  Proof.
    intros b i (P & _ & Pe) RS NS Px. pose proof verySmall_pos as VS.
    destruct (step_internal_reg d b i 0) as (e0 & E0 & He0); [lra|].
    pose proof (swamped_bound d b i e0 P NS E0) as B. rewrite step_0 in He0.
    unfold resolved in RS.
    assert (V : 10 ^ 20 * verySmall = 10 * (10 ^ 19 * verySmall)) by ring. rewrite V in RS.
    assert (VP : 0 < 10 ^ 19 * verySmall) by (apply Rmult_lt_0_compat; [apply pow_lt; lra|auto]).
    set (w := 10 ^ 19 * verySmall) in *.
    destruct (quadratic_returns d b i pE e0 P Px E0) as (r & Er & Rr & Ir).
    - fold w. unfold Rmax. destruct (Rle_dec (smallR * e0) pE).
      + lra.
      + rewrite smallR_val in *.
        assert (2 * rho b * (internal d b - pE) <= 2 * rho b * internal d b) by (apply Rmult_le_compat_l; lra).
        assert (2 * rho b * (internal d b * (1/2)) <= 2 * rho b * (internal d b - 1/10000000000 * e0)) by (apply Rmult_le_compat_l; lra). lra.
    - exists r. split; [auto|]. split; [auto|]. eapply Rle_trans; [apply Rmax_r|exact Ir].
  Qed.

  Theorem urec_beta_returns : forall (to_mean : bool) order c,
    (to_mean = true \/ (1 <= order <= 3)%nat) -> rE <= rho u -> pE <= (gam st - 1) * internal d u ->
    (forall k v, In v (points u rows (truncated k c)) -> physical d rE pE v -> resolved d pE v /\ not_swamped d v) ->
    exists c' beta, urec_beta d dim3 tb st rE pE to_mean order u rows c = Ok (c', beta).
  Proof.
    intros to_mean order c HO HU HP HR. rewrite urec_beta_eq.
    destruct (Rlt_dec (rho u) rE); [lra|]. rewrite rho_e_val by lra. cbn [bind]. cbv zeta.
    destruct (Rlt_dec _ pE); [lra|].
    destruct (good_returns d tb rE pE (points u rows c) RP) as (g & ->). cbn [bind]. destruct g; [eauto|].
    set (o := if to_mean then 1%nat else order).
    assert (Ho : (1 <= o <= 3)%nat) by (unfold o; destruct to_mean; destruct HO; try discriminate; lia).
    destruct (lower_order_returns d dim3 tb rE pE u rows o c c RP ltac:(lia)) as ((c1, b) & LO).
    rewrite LO. cbn [bind fst snd].
    apply (lower_order_spec d dim3 tb rE pE u rows c) in LO; [|lia|auto].
    destruct LO as (L1 & L2 & (k & Ek) & HB).
    assert (L : length c1 = length b) by congruence.
    pose proof (base_rho c c1 b HU L HB) as BR. cbv zeta in BR.
    set (incs := map (fun r => rec_at (diffs c1 b) r) rows) in *. set (bs := points u rows b) in *.
    set (th := rho_theta rE bs incs) in *. destruct BR as (T1 & T2).
    (* the internal energy of the base *)
    assert (IB : forall row, In row rows -> pE <= internal d (sadd (rec_at b row) u)).
    { intros row Hr. destruct HB as [G|(_ & ->)].
      - apply (good_ok _ _ _ _ _ G). unfold points. apply in_map_iff. exists row. auto.
      - rewrite (same_flow_internal d _ u (mean_point row c)).
        assert (0 < internal d u) by nra. nra. }
    assert (RB : forall row, In row rows -> rE <= rho (sadd (rec_at b row) u)).
    { intros row Hr. pose proof (T2 row 0 Hr ltac:(lra)). lra. }
    (* the multiplier of the pressure *)
    assert (TP : exists thP, (if Rle_dec ((gam st - 1) * internal d u) (2 * pE) then Ok 0
        else p_theta d (gam st) pE (combine bs (map (scale_flow tb th) incs)) 1) = Ok thP /\ 0 <= thP <= 1 /\
        forall row, In row rows -> pE <= internal d (step (sadd (rec_at b row) u) (rec_at (diffs c1 b) row) (th * thP))).
    { destruct (Rle_dec _ _) as [Low|High].
      - exists 0. split; [auto|]. split; [lra|]. intros row Hr. rewrite Rmult_0_r, step_0. auto.
      - assert (PR : forall x i, In (x, i) (combine bs (map (scale_flow tb th) incs)) ->
           exists row, In row rows /\ x = sadd (rec_at b row) u /\ same_flow i (sscale th (rec_at (diffs c1 b) row))).
        { intros x i Hx. unfold bs, points, incs in Hx. rewrite map_map in Hx. apply combine_map_in in Hx.
          destruct Hx as (row & Hr & -> & ->). exists row. split; [auto|]. split; [auto|]. apply scale_flow_same. }
        destruct (p_theta_returns (gam st) (combine bs (map (scale_flow tb th) incs)) 1 (proj1 HG)) as (thP & E & Rp & Q); [| |lra|].
        + intros x i Hx. destruct (PR x i Hx) as (row & Hr & -> & (A & _)). rewrite A. cbn [sscale rho].
          pose proof (T2 row th Hr ltac:(lra)). lra.
        + intros x i Hx Lo. destruct (PR x i Hx) as (row & Hr & Ex & SF). destruct HB as [G|(Ec & Eb)].
          * assert (PX : physical d rE pE x).
            { rewrite Ex. pose proof (RB row Hr). split; [lra|]. split; [auto|auto]. }
            destruct (HR k x) as (Q1 & Q2); [|auto|].
            { rewrite <- Ek. unfold points. apply in_map_iff. exists row. auto. }
            apply beta_ratio; auto. destruct SF as (A & _). rewrite A, Ex. cbn [sscale rho].
            pose proof (T2 row th Hr ltac:(lra)). lra.
          * exfalso. assert (EI : internal d (sadd i x) = internal d u).
            { apply same_flow_internal. destruct SF as (A & B & C). rewrite Ec in A, B, C.
              destruct (self_diff_at row b) as (A' & B' & C'). cbn [sscale rho mom ene szero] in *.
              subst x. rewrite Eb in *. destruct (mean_point row c) as (A2 & B2 & C2). 
              cbn [sadd rho mom ene] in A2, B2, C2. unfold same_flow. cbn [sadd rho mom ene].
              rewrite A, C, A', C'. split; [lra|]. split; [intro j; rewrite B, B'; specialize (B2 j); lra|lra]. }
            rewrite EI in Lo. assert (2 * pE / (gam st - 1) * (gam st - 1) = 2 * pE) by (field; lra). nra.
        + exists thP. split; [auto|]. split; [lra|]. intros row Hr.
          set (x := sadd (rec_at b row) u). set (i := scale_flow tb th (rec_at (diffs c1 b) row)).
          assert (Hx : In (x, i) (combine bs (map (scale_flow tb th) incs))).
          { unfold bs, points, incs. rewrite map_map.
            apply (in_combine_map (fun r => sadd (rec_at b r) u) (fun r => scale_flow tb th (rec_at (diffs c1 b) r))). auto. }
          pose proof (RB row Hr) as Rx. fold x in Rx.
          assert (ST : forall s, internal d (step x i s) = internal d (step x (rec_at (diffs c1 b) row) (th * s))).
          { intro s. destruct (scale_flow_same tb th (rec_at (diffs c1 b) row)) as (A & B & C). fold i in A, B, C.
            apply internal_ext; cbn [step sadd sscale rho mom ene] in *; intros; rewrite ?A, ?B, ?C; ring. }
          assert (RT : forall s, 0 <= s <= 1 -> 0 < rho x + th * s * rho (rec_at (diffs c1 b) row)).
          { intros s Hs. pose proof (T2 row (th * s) Hr) as T. fold x in T. assert (0 <= th * s <= th) by nra.
            specialize (T ltac:(lra)). lra. }
          destruct (Q x i Hx) as [Hi|(r & Hr1 & Hr2 & Ir)].
          * apply (internal_below d x _ pE (th * thP) (th * 1)); [lra|apply RT; lra|nra|apply IB; auto|].
            rewrite <- ST. rewrite (internal_ext d (step x i 1) (sadd i x)) by (cbn; intros; ring).
            eapply Rle_trans; [|exact Hi]. apply (Rmult_le_reg_r (gam st - 1)); [lra|].
            unfold Rdiv. rewrite Rmult_assoc, Rinv_l by lra. nra.
          * apply (internal_below d x _ pE (th * thP) (th * r)); [lra|apply RT; lra|nra|apply IB; auto|].
            rewrite <- ST. auto. }
    destruct TP as (thP & EP & RthP & IP). rewrite EP. cbn [bind].
    assert (Rb : 0 <= th * thP <= th) by nra.
    pose proof (final_beta_range st (th * thP) ltac:(lra)) as FB.
    set (be := final_beta st (th * thP)) in *. destruct (Rlt_dec be 0); [lra|].
    set (c2 := limited be (turb_scaled tb st bs incs c1) b).
    assert (LA : forall row, In row rows -> 0 < rho (sadd (rec_at c2 row) u) /\ pE <= internal d (sadd (rec_at c2 row) u)).
    { intros row Hr. pose proof (limited_at be tb st bs incs c1 b row u L ltac:(lra)) as SF. fold c2 in SF.
      rewrite (same_flow_internal d _ _ SF). destruct SF as (-> & _). cbn [step sadd sscale rho].
      pose proof (T2 row be Hr ltac:(lra)) as T. cbn [sadd rho] in T. split; [lra|].
      pose proof (RB row Hr) as Rx. cbn [sadd rho] in Rx.
      apply (internal_below d _ _ pE be (th * thP)); [cbn [sadd rho]; lra| |lra|apply IB; auto|apply IP; auto].
      cbn [sadd rho]. pose proof (T2 row (th * thP) Hr ltac:(lra)) as T3. cbn [sadd rho] in T3. lra. }
    destruct (all_e_good_val d pE (points u rows c2)) as (ok & -> & Hok).
    { intros v Hv. unfold points in Hv. apply in_map_iff in Hv. destruct Hv as (row & <- & Hr). apply LA. auto. }
    cbn [bind]. assert (ok = true) as ->; [|eauto].
    apply Hok. intros v Hv. unfold points in Hv. apply in_map_iff in Hv. destruct Hv as (row & <- & Hr). apply LA. auto.
  Qed.
End Beta.
