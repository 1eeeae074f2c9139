(** Proofs about the lift driver. *)
From Coq Require Import Reals List Arith ZArith String Bool Lia Lra Psatz Permutation FunctionalExtensionality.
From Verif Require Import Base.Prelude Base.PreludeFacts Euler.GasModel Euler.RiemannModel Geom.RotationModel Geom.RotationSpec Geom.RotationProofs
  Geom.BoundaryModel Euler.BndModel Euler.DriverModel Euler.DriverSpec.
Import ListNotations.
Local Open Scope list_scope.
Local Open Scope R_scope.

Lemma back_idx : forall h w k, (h < w)%nat -> (k < w)%nat ->
  ((h + w - k) mod w = if k <=? h then h - k else h + w - k)%nat.
Proof.
  intros. destruct (Nat.leb_spec k h).
  - replace (h + w - k)%nat with ((h - k) + 1 * w)%nat by lia. rewrite Nat.mod_add by lia. apply Nat.mod_small. lia.
  - apply Nat.mod_small. lia.
Qed.
Lemma next_idx : forall h w, (h < w)%nat -> ((h + 1) mod w = if h + 1 =? w then 0 else h + 1)%nat.
Proof.
  intros. destruct (Nat.eqb_spec (h + 1) w) as [-> | N]. apply Nat.mod_same. lia. apply Nat.mod_small. lia.
Qed.
Lemma nth_upd : forall (A : Type) n m (x d : A) l, (n < List.length l)%nat -> nth m (upd n x l) d = if Nat.eqb n m then x else nth m l d.
Proof.
  intros. destruct (Nat.eqb_spec n m).
  - subst. apply nth_error_nth. apply nth_error_upd_same. assumption.
  - destruct (nth_error l m) as [y|] eqn:E.
    + rewrite (nth_error_nth l m d E). apply nth_error_nth. rewrite nth_error_upd_other; assumption.
    + rewrite !nth_overflow; auto. apply nth_error_None; assumption. rewrite upd_length. apply nth_error_None; assumption.
Qed.
Lemma nth_repeat_ : forall (A : Type) (a : A) n m, nth m (repeat a n) a = a.
Proof. induction n; destruct m; simpl; auto. Qed.
Lemma nth_repeat_in : forall (A : Type) (a d : A) n m, (m < n)%nat -> nth m (repeat a n) d = a.
Proof. induction n; destruct m; simpl; intros; auto; try lia. apply IHn. lia. Qed.

(** *** what is remembered *)
Lemma cleared_seen : forall s st, (0 < s_window s)%nat -> c_hist st = repeat veryLarge (s_window s) -> c_size st = 0%nat -> c_head st = 0%nat -> c_acc st = 0%nat ->
  seen s st [].
Proof.
  intros s st W H1 H2 H3 H4. unfold seen. rewrite H1, H2, H3, H4, repeat_length. split; [ reflexivity | ]. split; [ reflexivity | ].
  split; [ assumption | ]. split; [ reflexivity | ]. intros k K. rewrite nth_repeat_in. destruct k; reflexivity. apply Nat.mod_upper_bound. lia.
Qed.

Definition pushed (s : cl_settings) (st : cl_state) (CL : R) : cl_state :=
  with_acc (push st CL) (if Rle_dec (Rabs (s_target s - CL)) (IZR (s_longThreshold s)) then S (c_acc st) else 0%nat).
Lemma pushed_seen : forall s st l CL, seen s st l -> seen s (pushed s st CL) (CL :: l).
Proof.
  intros s st l CL (L & Sz & H & A & N). unfold seen, pushed, push, with_acc. cbn [c_hist c_size c_head c_acc]. rewrite upd_length, L.
  assert (H' : ((c_head st + 1) mod s_window s < s_window s)%nat) by (apply Nat.mod_upper_bound; lia).
  split; [ reflexivity | ]. split; [ rewrite Sz; reflexivity | ]. split; [ exact H' | ]. split.
  { cbn [leading]. rewrite A. reflexivity. }
  intros k K. rewrite nth_upd by (rewrite L; exact H'). rewrite back_idx by assumption. rewrite next_idx by assumption.
  destruct k as [|k].
  - cbn [nth]. destruct (Nat.eqb_spec (c_head st + 1) (s_window s)).
    + cbn [Nat.leb]. rewrite Nat.sub_0_r, Nat.eqb_refl. reflexivity.
    + destruct (Nat.leb_spec 0 (c_head st + 1)); [ | lia ]. rewrite Nat.sub_0_r, Nat.eqb_refl. reflexivity.
  - cbn [nth]. rewrite <- N by lia. rewrite back_idx by lia.
    destruct (Nat.eqb_spec (c_head st + 1) (s_window s)) as [E | E].
    + destruct (Nat.leb_spec (S k) 0); [ lia | ]. destruct (Nat.eqb_spec 0 (0 + s_window s - S k)); [ lia | ].
      destruct (Nat.leb_spec k (c_head st)); [ | lia ]. f_equal. lia.
    + destruct (Nat.leb_spec (S k) (c_head st + 1)).
      * destruct (Nat.eqb_spec (c_head st + 1) (c_head st + 1 - S k)); [ lia | ].
        destruct (Nat.leb_spec k (c_head st)); [ | lia ]. f_equal. lia.
      * destruct (Nat.eqb_spec (c_head st + 1) (c_head st + 1 + s_window s - S k)); [ lia | ].
        destruct (Nat.leb_spec k (c_head st)); [ lia | ]. f_equal. lia.
Qed.

Lemma map_nth_seq : forall (A : Type) (l : list A) d, map (fun i => nth i l d) (seq 0 (List.length l)) = l.
Proof.
  intros. apply nth_error_ext. intro i. destruct (Nat.lt_ge_cases i (List.length l)) as [H | H].
  - rewrite nth_error_map. rewrite (nth_error_nth' (seq 0 (List.length l)) 0%nat) by (rewrite seq_length; assumption). cbn [option_map].
    rewrite seq_nth by assumption. cbn. symmetry. apply nth_error_nth'. assumption.
  - rewrite !(proj2 (nth_error_None _ _)); auto. rewrite map_length, seq_length. assumption.
Qed.
Lemma firstn_map_nth : forall (A : Type) (l : list A) d w, (w <= List.length l)%nat -> map (fun i => nth i l d) (seq 0 w) = firstn w l.
Proof.
  intros A l d w H. rewrite <- (map_nth_seq A (firstn w l) d). rewrite firstn_length, Nat.min_l by assumption. apply map_ext_in. intros i Hi.
  apply in_seq in Hi. rewrite <- (firstn_skipn w l) at 1. rewrite app_nth1. reflexivity. rewrite firstn_length. lia.
Qed.
Lemma back_perm : forall h w, (h < w)%nat -> Permutation (map (fun k => (h + w - k) mod w)%nat (seq 0 w)) (seq 0 w).
Proof.
  intros h w H. apply NoDup_Permutation_bis.
  - rewrite <- (map_map (fun k => k) (fun k => ((h + w - k) mod w)%nat)). rewrite map_id.
    assert (G : forall l, NoDup l -> (forall x, In x l -> x < w)%nat -> NoDup (map (fun k => ((h + w - k) mod w)%nat) l)).
    { induction l as [|x l IH]; intros ND B; cbn [map]; constructor.
      - inversion ND as [|? ? N1 N2]; subst. intro Hin. apply in_map_iff in Hin. destruct Hin as (y & E & Hy). apply N1.
        replace x with y; [ assumption | ]. assert (x < w)%nat by (apply B; left; reflexivity). assert (y < w)%nat by (apply B; right; assumption).
        rewrite !back_idx in E by assumption. destruct (Nat.leb_spec y h), (Nat.leb_spec x h); lia.
      - apply IH. inversion ND; assumption. intros; apply B; right; assumption. }
    apply G. apply seq_NoDup. intros x Hx. apply in_seq in Hx. lia.
  - rewrite map_length. reflexivity.
  - intros x Hx. apply in_map_iff in Hx. destruct Hx as (k & <- & Hk). apply in_seq. split; [ lia | ]. apply Nat.mod_upper_bound. lia.
Qed.
Lemma seen_perm : forall s st l, seen s st l -> (s_window s <= List.length l)%nat -> Permutation (c_hist st) (firstn (s_window s) l).
Proof.
  intros s st l (L & Sz & H & A & N) W.
  rewrite <- (firstn_map_nth R l veryLarge) by assumption. rewrite <- (map_nth_seq R (c_hist st) 0) at 1. rewrite L.
  rewrite (map_ext_in (fun i => nth i l veryLarge) (fun k => nth ((c_head st + s_window s - k) mod s_window s) (c_hist st) 0)).
  2:{ intros k Hk. apply in_seq in Hk. symmetry. apply N. lia. }
  rewrite <- (map_map (fun k => ((c_head st + s_window s - k) mod s_window s)%nat) (fun i => nth i (c_hist st) 0)).
  apply Permutation_map. apply Permutation_sym. apply back_perm. assumption.
Qed.

(** *** averages and extremes *)
Lemma fold_plus : forall l a, fold_left Rplus l a = a + total l.
Proof. induction l; intros; cbn [fold_left total]. ring. rewrite IHl. ring. Qed.
Lemma mean_eq : forall l, mean l = average l.
Proof. intros. unfold mean, average. rewrite fold_plus. f_equal. ring. Qed.
Lemma total_perm : forall l l', Permutation l l' -> total l = total l'.
Proof. induction 1; cbn [total]; lra. Qed.
Lemma average_perm : forall l l', Permutation l l' -> average l = average l'.
Proof. intros l l' P. unfold average. rewrite (total_perm _ _ P), (Permutation_length P). reflexivity. Qed.
Lemma fold_max : forall l a b, fold_left Rmax l a <= b <-> a <= b /\ forall x, In x l -> x <= b.
Proof.
  induction l as [|y l IH]; intros a b; cbn [fold_left In].
  - split; [ intro; split; [ assumption | tauto ] | tauto ].
  - rewrite IH. split.
    + intros (H1 & H2). pose proof (Rmax_l a y). pose proof (Rmax_r a y). split; [ lra | ]. intros x [<- | Hx]; [ lra | apply H2; assumption ].
    + intros (H1 & H2). split; [ apply Rmax_lub; [ assumption | apply H2; left; reflexivity ] | intros; apply H2; right; assumption ].
Qed.
Lemma fold_min : forall l a b, b <= fold_left Rmin l a <-> b <= a /\ forall x, In x l -> b <= x.
Proof.
  induction l as [|y l IH]; intros a b; cbn [fold_left In].
  - split; [ intro; split; [ assumption | tauto ] | tauto ].
  - rewrite IH. split.
    + intros (H1 & H2). pose proof (Rmin_l a y). pose proof (Rmin_r a y). split; [ lra | ]. intros x [<- | Hx]; [ lra | apply H2; assumption ].
    + intros (H1 & H2). split; [ apply Rmin_glb; [ assumption | apply H2; left; reflexivity ] | intros; apply H2; right; assumption ].
Qed.
Lemma dev_iff : forall l c t, l <> [] -> Rmax (maxCoeff l - c) (c - minCoeff l) <= t <-> forall x, In x l -> Rabs (x - c) <= t.
Proof.
  intros [|a l] c t NE; [ congruence | ]. cbn [maxCoeff minCoeff]. split.
  - intros H x Hx. pose proof (Rmax_l (fold_left Rmax l a - c) (c - fold_left Rmin l a)). pose proof (Rmax_r (fold_left Rmax l a - c) (c - fold_left Rmin l a)).
    assert (M1 : fold_left Rmax l a <= c + t) by lra. assert (M2 : c - t <= fold_left Rmin l a) by lra.
    apply fold_max in M1. apply fold_min in M2. destruct M1 as (M1 & M1'), M2 as (M2 & M2').
    assert (x <= c + t /\ c - t <= x) by (destruct Hx as [<- | Hx]; split; auto). apply Rabs_le. lra.
  - intro H. assert (B : forall x, In x (a :: l) -> c - t <= x <= c + t).
    { intros x Hx. specialize (H x Hx). destruct (Rcase_abs (x - c)) as [N | N]; [ rewrite Rabs_left in H by lra | rewrite Rabs_right in H by lra ]; lra. }
    assert (M1 : fold_left Rmax l a <= c + t) by (apply fold_max; split; [ | intros ]; apply B; [ left; reflexivity | right; assumption ]).
    assert (M2 : c - t <= fold_left Rmin l a) by (apply fold_min; split; [ | intros ]; apply B; [ left; reflexivity | right; assumption ]).
    apply Rmax_lub; lra.
Qed.

(** *** the slope *)
Lemma std_pos : 0 < slope_std.
Proof. unfold slope_std. pose proof PI_RGT_0. assert (0 < PI * PI) by (apply Rmult_lt_0_compat; assumption). lra. Qed.
Lemma bound_slope_in : forall k, 9/10 * slope_std <= bound_slope k <= 10 * slope_std.
Proof.
  intro k. pose proof std_pos. unfold bound_slope. split. apply Rmax_r. apply Rmax_lub. apply Rmin_r. lra.
Qed.
Lemma bound_slope_id : forall k, 9/10 * slope_std <= k <= 10 * slope_std -> bound_slope k = k.
Proof. intros k H. unfold bound_slope. rewrite Rmin_left by lra. rewrite Rmax_left by lra. reflexivity. Qed.
Lemma slope_in : forall a b c d k, slope a b c d = Ok k -> 9/10 * slope_std <= k <= 10 * slope_std.
Proof.
  intros a b c d k. unfold slope. pose proof std_pos.
  destruct (Req_EM_T a veryLarge); [ intro E; injection E as <-; apply bound_slope_in | ].
  destruct (Req_EM_T c veryLarge); [ intro E; injection E as <-; apply bound_slope_in | ].
  destruct (Req_EM_T (c - d) 0).
  - destruct (Req_EM_T (a - b) 0); [ discriminate | ]. destruct (Rlt_dec (a - b) 0); intro E; injection E as <-; [ apply bound_slope_in | lra ].
  - intro E; injection E as <-; apply bound_slope_in.
Qed.
Lemma slope_UB : forall a b c d, slope a b c d <> Abort /\ (slope a b c d = UB <-> a <> veryLarge /\ c <> veryLarge /\ c = d /\ a = b).
Proof.
  intros. unfold slope.
  destruct (Req_EM_T a veryLarge); [ split; [ discriminate | split; [ discriminate | tauto ] ] | ].
  destruct (Req_EM_T c veryLarge); [ split; [ discriminate | split; [ discriminate | tauto ] ] | ].
  destruct (Req_EM_T (c - d) 0) as [Z | Z].
  - destruct (Req_EM_T (a - b) 0) as [Y | Y].
    + split; [ discriminate | ]. split; [ intros _; repeat split; auto; lra | reflexivity ].
    + destruct (Rlt_dec (a - b) 0); (split; [ discriminate | split; [ discriminate | intros (_ & _ & _ & Q); exfalso; apply Y; lra ] ]).
  - split; [ discriminate | ]. split; [ discriminate | intros (_ & _ & Q & _); exfalso; apply Z; lra ].
Qed.

(** *** one update *)
Lemma settled_dec : forall s lastCL iter l, {settled s lastCL iter l} + {~ settled s lastCL iter l}.
Proof.
  intros. unfold settled. destruct (Z_le_dec (s_start s) iter); [ | right; tauto ]. destruct (le_dec (s_window s) (List.length l)); [ | right; tauto ].
  destruct (le_dec (s_min s) (List.length l)); [ | right; tauto ].
  destruct (Forall_dec (fun x => Rabs (x - average (firstn (s_window s) l)) <= Rmin (s_threshold s) (Rabs (s_target s - lastCL) * s_ratio s))
              (fun x => Rle_dec _ _) (firstn (s_window s) l)) as [F | F].
  - left. repeat split; auto. apply Forall_forall. assumption.
  - right. intros (_ & _ & _ & G). apply F. apply Forall_forall. assumption.
Qed.

Definition stepped (s : cl_settings) (st : cl_state) (l : list R) (CL k : R) : cl_state :=
  {| c_lastCL := average (firstn (s_window s) l); c_lastAOA := c_AOA st; c_hist := repeat veryLarge (s_window s); c_size := 0; c_head := 0; c_acc := 0;
     c_AOA := c_AOA st + (s_target s - CL) / k * s_relax s |}.
Lemma update_eq : forall s st l iter CL, (0 < s_window s)%nat -> seen s st l ->
  update s st iter CL =
  if settled_dec s (c_lastCL st) iter (CL :: l) then
    do k <- slope (c_lastCL st) CL (c_lastAOA st) (c_AOA st); Ok (stepped s st (CL :: l) CL k)
  else Ok (pushed s st CL).
Proof.
  intros s st l iter CL W Se. pose proof (pushed_seen s st l CL Se) as Se'. pose proof Se' as (L & Sz & _).
  unfold update. fold (pushed s st CL).
  change (with_acc (push st CL) (if Rle_dec (Rabs (s_target s - CL)) (IZR (s_longThreshold s)) then S (c_acc (push st CL)) else 0%nat)) with (pushed s st CL).
  cbv zeta. rewrite L, Sz.
  change (c_lastCL (pushed s st CL)) with (c_lastCL st). change (c_lastAOA (pushed s st CL)) with (c_lastAOA st). change (c_AOA (pushed s st CL)) with (c_AOA st).
  destruct (settled_dec s (c_lastCL st) iter (CL :: l)) as [(S1 & S2 & S3 & S4) | NS].
  - destruct (Z.ltb_spec iter (s_start s)); [ lia | ]. rewrite (proj2 (Nat.leb_le _ _) S2), (proj2 (Nat.leb_le _ _) S3). cbn [andb].
    pose proof (seen_perm _ _ _ Se' S2) as P. rewrite mean_eq, (average_perm _ _ P).
    match goal with |- context [Rle_dec ?a ?b] => destruct (Rle_dec a b) as [D | D] end; [ reflexivity | ].
    exfalso. apply D. apply dev_iff. intro E. rewrite E in L. cbn in L. lia. intros x Hx. apply S4. apply (Permutation_in x P Hx).
  - destruct (Z.ltb_spec iter (s_start s)); [ reflexivity | ].
    destruct (Nat.leb_spec (s_window s) (List.length (CL :: l))) as [S2 | S2]; [ | reflexivity ].
    destruct (Nat.leb_spec (s_min s) (List.length (CL :: l))) as [S3 | S3]; [ | reflexivity ]. cbn [andb].
    pose proof (seen_perm _ _ _ Se' S2) as P. rewrite mean_eq, (average_perm _ _ P).
    match goal with |- context [Rle_dec ?a ?b] => destruct (Rle_dec a b) as [D | D] end; [ | reflexivity ].
    exfalso. apply NS. split; [ assumption | ]. split; [ assumption | ]. split; [ assumption | ]. intros w x Hx.
    assert (NE : c_hist (pushed s st CL) <> []) by (intro E; rewrite E in L; cbn in L; lia).
    exact (proj1 (dev_iff _ _ _ NE) D x (Permutation_in x (Permutation_sym P) Hx)).
Qed.
Lemma stepped_seen : forall s st l CL k, (0 < s_window s)%nat -> seen s (stepped s st l CL k) [].
Proof. intros. apply cleared_seen; auto. Qed.

Lemma update_cases : forall s st l iter CL st', (0 < s_window s)%nat -> seen s st l -> update s st iter CL = Ok st' ->
  (~ settled s (c_lastCL st) iter (CL :: l) /\ seen s st' (CL :: l) /\
   c_AOA st' = c_AOA st /\ c_lastAOA st' = c_lastAOA st /\ c_lastCL st' = c_lastCL st) \/
  (settled s (c_lastCL st) iter (CL :: l) /\ seen s st' [] /\
   c_lastAOA st' = c_AOA st /\ c_lastCL st' = average (firstn (s_window s) (CL :: l)) /\
   exists k, slope (c_lastCL st) CL (c_lastAOA st) (c_AOA st) = Ok k /\ 9/10 * slope_std <= k <= 10 * slope_std /\
     c_AOA st' = c_AOA st + s_relax s * ((s_target s - CL) / k)).
Proof.
  intros s st l iter CL st' W Se E. rewrite (update_eq s st l iter CL W Se) in E.
  destruct (settled_dec s (c_lastCL st) iter (CL :: l)) as [S | S].
  - right. destruct (slope (c_lastCL st) CL (c_lastAOA st) (c_AOA st)) as [k| |] eqn:K; cbn [bind] in E; try discriminate. injection E as <-.
    split; [ assumption | ]. split; [ apply stepped_seen; assumption | ]. split; [ reflexivity | ]. split; [ reflexivity | ].
    exists k. split; [ reflexivity | ]. split; [ exact (slope_in _ _ _ _ _ K) | ]. cbn [stepped c_AOA]. ring.
  - left. injection E as <-. split; [ assumption | ]. split; [ apply pushed_seen; assumption | ]. repeat split.
Qed.

(** *** every run has such a history *)
Lemma new_seen : forall s st, new_driver s = Ok st -> seen s st [] /\ (2 <= s_window s)%nat /\ c_AOA st = s_AOAInit s.
Proof.
  intros s st. unfold new_driver. destruct (is_axis (s_AOAAxis s)); cbn [assert_ bind]; [ | discriminate ].
  destruct (is_axis (s_CL0Axis s)); cbn [assert_ bind]; [ | discriminate ]. destruct (is_axis (s_CD0Axis s)); cbn [assert_ bind]; [ | discriminate ].
  destruct (Nat.leb_spec 2 (s_window s)); cbn [assert_ bind]; [ | discriminate ]. intro E; injection E as <-. split; [ apply cleared_seen; auto; lia | auto ].
Qed.
Lemma run_seen : forall s h st l st', (0 < s_window s)%nat -> seen s st l -> run s st h = Ok st' ->
  exists l', seen s st' l' /\ (exists old, rev (map snd h) ++ l = l' ++ old)%list.
Proof.
  induction h as [|[it CL] h IH]; intros st l st' W Se E; unfold run in E; cbn [foldM] in E.
  - injection E as <-. exists l. split; [ assumption | ]. exists []. rewrite app_nil_r. reflexivity.
  - cbn [fst snd] in E. destruct (update s st it CL) as [st1| |] eqn:U; cbn [bind] in E; try discriminate. fold (run s st1 h) in E.
    cbn [map rev snd]. rewrite <- app_assoc. cbn [app].
    destruct (update_cases s st l it CL st1 W Se U) as [(_ & Q & _) | (_ & Q & _)].
    + exact (IH st1 (CL :: l) st' W Q E).
    + destruct (IH st1 [] st' W Q E) as (l' & A & old & B). rewrite app_nil_r in B. exists l'. split; [ assumption | ].
      exists (old ++ CL :: l)%list. rewrite B, <- app_assoc. reflexivity.
Qed.

(** *** convergence *)
Lemma leading_iff : forall s l n, (n <= leading s l)%nat <-> (n <= List.length l)%nat /\ forall x, In x (firstn n l) -> on_target s x.
Proof.
  induction l as [|y l IH]; intros n; cbn [leading List.length].
  - split; [ intro; split; [ assumption | ] | tauto ]. replace n with 0%nat by lia. intros x [].
  - destruct n as [|n]; [ split; [ intro; split; [ lia | intros x [] ] | lia ] | ]. cbn [firstn In]. unfold on_target at 1.
    destruct (Rle_dec (Rabs (s_target s - y)) (IZR (s_longThreshold s))) as [H | H].
    + specialize (IH n). split.
      * intro Q. assert (Q' : (n <= leading s l)%nat) by lia. apply IH in Q'. destruct Q' as (Q1 & Q2). split; [ lia | ]. intros x [<- | Hx]; [ assumption | apply Q2; assumption ].
      * intros (Q1 & Q2). assert (n <= leading s l)%nat; [ | lia ]. apply IH. split; [ lia | intros; apply Q2; right; assumption ].
    + split; [ lia | ]. intros (_ & Q). exfalso. apply H. apply Q. left. reflexivity.
Qed.
Lemma converged_iff : forall s st l, seen s st l ->
  (ConvergedAtTarget s st = true <-> (s_longWindow s <= List.length l)%nat /\ forall x, In x (firstn (s_longWindow s) l) -> on_target s x).
Proof. intros s st l (_ & _ & _ & A & _). unfold ConvergedAtTarget. rewrite Nat.leb_le, A. apply leading_iff. Qed.

Lemma trunc_small : forall x, 0 <= x < 1 -> trunc x = 0%Z.
Proof.
  intros x H. unfold trunc. destruct (Rle_dec 0 x); [ | lra ]. destruct (base_Int_part x) as (A & B).
  assert (IZR (Int_part x) < 1) by lra. assert (-1 < IZR (Int_part x)) by lra. apply lt_IZR in H0. apply lt_IZR in H1. lia.
Qed.
Lemma default_long : s_longThreshold default_settings = 0%Z.
Proof. cbn [default_settings s_longThreshold]. apply trunc_small. split; lra. Qed.
Lemma run_never : forall s h st, (0 < s_longWindow s)%nat -> c_acc st = 0%nat -> (forall p, In p h -> ~ on_target s (snd p)) ->
  match run s st h with Ok st' => ConvergedAtTarget s st' = false | _ => True end.
Proof.
  induction h as [|[it CL] h IH]; intros st L A H; unfold run; cbn [foldM].
  - unfold ConvergedAtTarget. rewrite A. apply Nat.leb_gt. assumption.
  - destruct (update s st it CL) as [st1| |] eqn:U; cbn [fst snd]; rewrite U; cbn [bind]; auto. apply IH; auto.
    2:{ intros p Hp. apply H. right. assumption. }
    unfold update in U. destruct (Rle_dec (Rabs (s_target s - CL)) (IZR (s_longThreshold s))) as [Q | Q].
    { exfalso. apply (H (it, CL)). left; reflexivity. exact Q. }
    destruct (it <? s_start s)%Z; [ injection U as <-; reflexivity | ].
    match type of U with (if ?b then _ else _) = _ => destruct b end; [ | injection U as <-; reflexivity ].
    match type of U with (if ?b then _ else _) = _ => destruct b end; [ | injection U as <-; reflexivity ].
    match type of U with bind ?b _ = _ => destruct b end; cbn [bind] in U; try discriminate. injection U as <-. reflexivity.
Qed.

(** *** the loop with a flow that answers at once *)

Lemma fly_app : forall f s a b st, fly f s st (a ++ b) = do st' <- fly f s st a; fly f s st' b.
Proof.
  induction a as [|x a IH]; intros b st; unfold fly; cbn [app foldM]; [ reflexivity | ].
  destruct (update s st x (f (c_AOA st))) as [st1| |]; cbn [bind]; auto. apply IH.
Qed.
Lemma total_repeat : forall x n, total (repeat x n) = INR n * x.
Proof. induction n. cbn. ring. cbn [repeat total]. rewrite IHn, S_INR. ring. Qed.
Lemma average_repeat : forall x n, (0 < n)%nat -> average (repeat x n) = x.
Proof. intros. unfold average. rewrite total_repeat, repeat_length. field. apply not_0_INR. lia. Qed.
Lemma firstn_repeat : forall (A : Type) (x : A) n m, (n <= m)%nat -> firstn n (repeat x m) = repeat x n.
Proof. induction n; intros [|m] H; cbn; auto. lia. f_equal. apply IHn. lia. Qed.

Lemma fly_wait : forall f s its st l, (0 < s_window s)%nat -> seen s st l -> (List.length its + List.length l < cycle s)%nat ->
  exists st', fly f s st its = Ok st' /\ seen s st' (repeat (f (c_AOA st)) (List.length its) ++ l) /\
    c_AOA st' = c_AOA st /\ c_lastAOA st' = c_lastAOA st /\ c_lastCL st' = c_lastCL st.
Proof.
  induction its as [|it its IH]; intros st l W Se L; unfold fly; cbn [foldM List.length repeat app].
  - exists st. repeat split; auto; apply Se.
  - rewrite (update_eq s st l it _ W Se).
    destruct (settled_dec s (c_lastCL st) it (f (c_AOA st) :: l)) as [(_ & Q1 & Q2 & _) | _].
    { exfalso. unfold cycle in L. cbn [List.length] in *. lia. }
    cbn [bind]. destruct (IH (pushed s st (f (c_AOA st))) (f (c_AOA st) :: l) W (pushed_seen _ _ _ _ Se)) as (st' & E & S' & A1 & A2 & A3).
    { cbn [List.length] in *. lia. }
    exists st'. split; [ exact E | ]. cbn [pushed with_acc push c_AOA c_lastAOA c_lastCL] in *. split; [ | auto ].
    replace (f (c_AOA st) :: repeat (f (c_AOA st)) (List.length its) ++ l) with (repeat (f (c_AOA st)) (List.length its) ++ f (c_AOA st) :: l); [ exact S' | ].
    clear. generalize (List.length its). induction n; cbn; [ reflexivity | ]. f_equal. assumption.
Qed.

Lemma thr_nonneg : forall s x, 0 <= s_threshold s -> 0 <= s_ratio s -> 0 <= Rmin (s_threshold s) (Rabs (s_target s - x) * s_ratio s).
Proof. intros. apply Rmin_glb; [ assumption | ]. apply Rmult_le_pos; [ apply Rabs_pos | assumption ]. Qed.

Lemma fly_cycle : forall f s its st, (0 < s_window s)%nat -> 0 <= s_threshold s -> 0 <= s_ratio s -> seen s st [] ->
  List.length its = cycle s -> (forall it, In it its -> (s_start s <= it)%Z) ->
  fly f s st its =
  do k <- slope (c_lastCL st) (f (c_AOA st)) (c_lastAOA st) (c_AOA st);
  Ok (stepped s st (repeat (f (c_AOA st)) (cycle s)) (f (c_AOA st)) k).
Proof.
  intros f s its st W T Ra Se L Hs.
  destruct (exists_last (l := its)) as (a & x & ->). { intro E. rewrite E in L. unfold cycle in L. cbn in L. lia. }
  rewrite app_length in L. cbn [List.length] in L. rewrite fly_app.
  destruct (fly_wait f s a st [] W Se) as (st' & E & S' & A1 & A2 & A3). { cbn [List.length]. lia. }
  rewrite E. cbn [bind]. rewrite app_nil_r in S'. unfold fly. cbn [foldM]. rewrite A1.
  rewrite (update_eq s st' _ x (f (c_AOA st)) W S').
  replace (f (c_AOA st) :: repeat (f (c_AOA st)) (List.length a)) with (repeat (f (c_AOA st)) (cycle s)).
  2:{ rewrite <- L. rewrite Nat.add_1_r. reflexivity. }
  destruct (settled_dec s (c_lastCL st') x (repeat (f (c_AOA st)) (cycle s))) as [_ | N].
  - rewrite A1, A2, A3. destruct (slope (c_lastCL st) (f (c_AOA st)) (c_lastAOA st) (c_AOA st)); cbn [bind]; auto.
    unfold stepped. rewrite A1. reflexivity.
  - exfalso. apply N. split; [ apply Hs; apply in_or_app; right; left; reflexivity | ]. rewrite repeat_length. unfold cycle at 1 2.
    split; [ lia | ]. split; [ lia | ]. intros y Hy. rewrite firstn_repeat in * |- * by (unfold cycle; lia).
    rewrite average_repeat by assumption. apply repeat_spec in Hy. rewrite Hy, Rminus_diag_eq, Rabs_R0 by reflexivity. apply thr_nonneg; assumption.
Qed.
Lemma stepped_last : forall s st x CL k, (0 < s_window s)%nat -> c_lastCL (stepped s st (repeat x (cycle s)) CL k) = x.
Proof. intros. cbn [stepped c_lastCL]. rewrite firstn_repeat by (unfold cycle; lia). apply average_repeat. assumption. Qed.

Lemma on_target_UB : forall s st a b, new_driver s = Ok st -> 0 <= s_threshold s -> 0 <= s_ratio s ->
  s_target s <> veryLarge -> s_AOAInit s <> veryLarge ->
  List.length a = cycle s -> List.length b = cycle s -> (forall it, In it (a ++ b) -> (s_start s <= it)%Z) ->
  run s st (map (fun it => (it, s_target s)) (a ++ b)) = UB.
Proof.
  intros s st a b N T Ra V1 V2 La Lb Hs. destruct (new_seen s st N) as (Se & W & A). assert (W' : (0 < s_window s)%nat) by lia.
  assert (C : forall l st0, run s st0 (map (fun it => (it, s_target s)) l) = fly (fun _ => s_target s) s st0 l).
  { induction l as [|x l IH]; intros st0; unfold run, fly; cbn [map foldM fst snd]; [ reflexivity | ].
    destruct (update s st0 x (s_target s)); cbn [bind]; auto. apply IH. }
  rewrite C, fly_app. rewrite fly_cycle; auto. 2:{ intros; apply Hs; apply in_or_app; auto. }
  assert (K : exists k, slope (c_lastCL st) (s_target s) (c_lastAOA st) (c_AOA st) = Ok k /\ k <> 0).
  { assert (E : c_lastCL st = veryLarge).
    { revert N. unfold new_driver. repeat (match goal with |- context [assert_ ?b] => destruct b end; cbn [assert_ bind]; [ | discriminate ]).
      intro E; injection E as <-; reflexivity. }
    unfold slope. rewrite E. destruct (Req_EM_T veryLarge veryLarge); [ | congruence ]. eexists; split; [ reflexivity | ].
    pose proof (bound_slope_in slope_std). pose proof std_pos. lra. }
  destruct K as (k & -> & K0). cbn [bind]. rewrite fly_cycle; auto.
  2:{ apply stepped_seen; assumption. } 2:{ intros; apply Hs; apply in_or_app; auto. }
  rewrite stepped_last by assumption. cbn [stepped c_lastAOA c_AOA].
  replace (c_AOA st + (s_target s - s_target s) / k * s_relax s) with (c_AOA st) by (field; assumption).
  replace (slope (s_target s) (s_target s) (c_AOA st) (c_AOA st)) with (UB (A := R)); [ reflexivity | ].
  symmetry. apply slope_UB. rewrite A. auto.
Qed.

(** *** a linear answer *)
Lemma linear_slope : forall g a0 x y, 9/10 * slope_std <= g <= 10 * slope_std -> g * (x - a0) <> veryLarge -> x <> veryLarge -> x <> y ->
  slope (g * (x - a0)) (g * (y - a0)) x y = Ok g.
Proof.
  intros g a0 x y G V1 V2 N. unfold slope. destruct (Req_EM_T (g * (x - a0)) veryLarge); [ contradiction | ].
  destruct (Req_EM_T x veryLarge); [ contradiction | ]. destruct (Req_EM_T (x - y) 0); [ exfalso; apply N; lra | ]. f_equal.
  replace ((g * (x - a0) - g * (y - a0)) / (x - y)) with g by (field; assumption). pose proof std_pos.
  destruct (Rlt_dec g 0); [ lra | ]. apply bound_slope_id. assumption.
Qed.

Section Linear.
Variables (s : cl_settings) (g a0 B : R).
Let f (a : R) : R := g * (a - a0).
Let err (a : R) : R := s_target s - f a.
Hypothesis W : (0 < s_window s)%nat.
Hypothesis T : 0 <= s_threshold s.
Hypothesis Ra : 0 <= s_ratio s.
Hypothesis G : 9/10 * slope_std <= g <= 10 * slope_std.
Hypothesis Re : 0 < s_relax s < 1.
Hypothesis B1 : Rabs (s_target s) + B < veryLarge.
Hypothesis B2 : Rabs a0 + (Rabs (s_target s) + B) / g < veryLarge.

Lemma range_ok : forall a, Rabs (err a) <= B -> f a <> veryLarge /\ a <> veryLarge.
Proof.
  intros a H. pose proof std_pos. unfold err in H.
  assert (F : Rabs (f a) <= Rabs (s_target s) + B).
  { replace (f a) with (s_target s + - (s_target s - f a)) by ring. eapply Rle_trans; [ apply Rabs_triang | ]. rewrite Rabs_Ropp. lra. }
  split.
  - intro E. rewrite E in F. pose proof (Rle_abs veryLarge). lra.
  - intro E. assert (Q : Rabs a <= Rabs a0 + (Rabs (s_target s) + B) / g).
    { replace a with (a0 + f a / g) at 1 by (unfold f; field; lra). eapply Rle_trans; [ apply Rabs_triang | ]. apply Rplus_le_compat_l.
      unfold Rdiv. rewrite Rabs_mult. rewrite (Rabs_right (/ g)). apply Rmult_le_compat_r. left. apply Rinv_0_lt_compat. lra. assumption.
      apply Rle_ge. left. apply Rinv_0_lt_compat. lra. }
    rewrite E in Q at 1. pose proof (Rle_abs veryLarge). lra.
Qed.

Lemma fly_linear : forall m its st, seen s st [] -> c_lastCL st = f (c_lastAOA st) -> c_lastAOA st <> c_AOA st ->
  Rabs (err (c_lastAOA st)) <= B -> Rabs (err (c_AOA st)) <= B -> err (c_AOA st) <> 0 ->
  List.length its = (m * cycle s)%nat -> (forall it, In it its -> (s_start s <= it)%Z) ->
  exists st', fly f s st its = Ok st' /\ err (c_AOA st') = (1 - s_relax s) ^ m * err (c_AOA st).
Proof.
  pose proof std_pos as SP. induction m as [|m IH]; intros its st Se E1 N1 R1 R2 E0 L Hs.
  - destruct its; [ | discriminate ]. exists st. split; [ reflexivity | ]. cbn [pow]. ring.
  - rewrite <- (firstn_skipn (cycle s) its). rewrite fly_app.
    assert (L1 : List.length (firstn (cycle s) its) = cycle s) by (rewrite firstn_length; cbn [Nat.mul] in L; lia).
    assert (L2 : List.length (skipn (cycle s) its) = (m * cycle s)%nat) by (rewrite skipn_length; cbn [Nat.mul] in L; lia).
    rewrite fly_cycle; auto.
    2:{ intros it Hit. apply Hs. rewrite <- (firstn_skipn (cycle s) its). apply in_or_app. left. assumption. }
    destruct (range_ok _ R1) as (V1 & V2). rewrite E1. replace (slope (f (c_lastAOA st)) (f (c_AOA st)) (c_lastAOA st) (c_AOA st)) with (Ok g) by (symmetry; apply linear_slope; auto). cbn [bind].
    set (st1 := stepped s st (repeat (f (c_AOA st)) (cycle s)) (f (c_AOA st)) g).
    assert (A1 : err (c_AOA st1) = (1 - s_relax s) * err (c_AOA st)).
    { unfold st1. cbn [stepped c_AOA]. unfold err, f. field. lra. }
    destruct (IH (skipn (cycle s) its) st1) as (st' & Q1 & Q2).
    + apply stepped_seen; assumption.
    + unfold st1. rewrite stepped_last by assumption. reflexivity.
    + unfold st1. cbn [stepped c_AOA c_lastAOA]. fold (err (c_AOA st)). intro Q.
      assert (Z : err (c_AOA st) * s_relax s = 0).
      { replace (err (c_AOA st) * s_relax s) with (g * (err (c_AOA st) / g * s_relax s)) by (field; lra).
        replace (err (c_AOA st) / g * s_relax s) with 0 by lra. ring. }
      apply Rmult_integral in Z. destruct Z; [ contradiction | lra ].
    + exact R2.
    + rewrite A1, Rabs_mult. rewrite Rabs_right by lra. pose proof (Rabs_pos (err (c_AOA st))). nra.
    + rewrite A1. intro Q. apply Rmult_integral in Q. destruct Q; [ lra | contradiction ].
    + assumption.
    + intros it Hit. apply Hs. rewrite <- (firstn_skipn (cycle s) its). apply in_or_app. right. assumption.
    + exists st'. split; [ exact Q1 | ]. rewrite Q2, A1. cbn [pow]. ring.
Qed.

Lemma fly_from_start : forall m its st, new_driver s = Ok st -> s_relax s * g <> slope_std ->
  Rabs (err (s_AOAInit s)) * (1 + s_relax s * g / slope_std) <= B -> err (s_AOAInit s) <> 0 ->
  List.length its = (S m * cycle s)%nat -> (forall it, In it its -> (s_start s <= it)%Z) ->
  exists st', fly f s st its = Ok st' /\ err (c_AOA st') = (1 - s_relax s) ^ m * ((1 - s_relax s * g / slope_std) * err (s_AOAInit s)).
Proof.
  intros m its st N NG BB E0 L Hs. pose proof std_pos as SP. destruct (new_seen s st N) as (Se & _ & A).
  assert (E : c_lastCL st = veryLarge).
  { revert N. unfold new_driver. repeat (match goal with |- context [assert_ ?b] => destruct b end; cbn [assert_ bind]; [ | discriminate ]).
    intro E; injection E as <-; reflexivity. }
  rewrite <- (firstn_skipn (cycle s) its). rewrite fly_app.
  assert (L1 : List.length (firstn (cycle s) its) = cycle s) by (rewrite firstn_length; cbn [Nat.mul] in L; lia).
  assert (L2 : List.length (skipn (cycle s) its) = (m * cycle s)%nat) by (rewrite skipn_length; cbn [Nat.mul] in L; lia).
  rewrite fly_cycle; auto.
  2:{ intros it Hit. apply Hs. rewrite <- (firstn_skipn (cycle s) its). apply in_or_app. left. assumption. }
  assert (K : slope (c_lastCL st) (f (c_AOA st)) (c_lastAOA st) (c_AOA st) = Ok slope_std).
  { unfold slope. rewrite E. destruct (Req_EM_T veryLarge veryLarge); [ | congruence ]. rewrite bound_slope_id by lra. reflexivity. }
  rewrite K. cbn [bind]. set (st1 := stepped s st (repeat (f (c_AOA st)) (cycle s)) (f (c_AOA st)) slope_std).
  assert (A1 : err (c_AOA st1) = (1 - s_relax s * g / slope_std) * err (s_AOAInit s)).
  { unfold st1. cbn [stepped c_AOA]. rewrite A. unfold err, f. field. lra. }
  assert (P : 0 < s_relax s * g / slope_std) by (apply Rmult_lt_0_compat; [ nra | apply Rinv_0_lt_compat; assumption ]).
  pose proof (Rabs_pos (err (s_AOAInit s))).
  destruct (fly_linear m (skipn (cycle s) its) st1) as (st' & Q1 & Q2).
  - apply stepped_seen; assumption.
  - unfold st1. rewrite stepped_last by assumption. reflexivity.
  - unfold st1. cbn [stepped c_AOA c_lastAOA]. fold (err (c_AOA st)). rewrite A. intro Q.
    assert (Z : err (s_AOAInit s) * s_relax s = 0).
    { replace (err (s_AOAInit s) * s_relax s) with (slope_std * (err (s_AOAInit s) / slope_std * s_relax s)) by (field; lra).
      replace (err (s_AOAInit s) / slope_std * s_relax s) with 0 by lra. ring. }
    apply Rmult_integral in Z. destruct Z; [ contradiction | lra ].
  - unfold st1. cbn [stepped c_lastAOA]. rewrite A. nra.
  - rewrite A1, Rabs_mult. eapply Rle_trans; [ | exact BB ]. rewrite Rmult_comm. apply Rmult_le_compat_l; [ assumption | ].
    apply Rabs_le. lra.
  - rewrite A1. intro Q. apply Rmult_integral in Q. destruct Q as [Q | Q]; [ | contradiction ]. apply NG.
    replace (s_relax s * g) with (s_relax s * g / slope_std * slope_std) by (field; lra). replace (s_relax s * g / slope_std) with 1 by lra. ring.
  - assumption.
  - intros it Hit. apply Hs. rewrite <- (firstn_skipn (cycle s) its). apply in_or_app. right. assumption.
  - exists st'. split; [ exact Q1 | ]. rewrite Q2, A1. reflexivity.
Qed.
End Linear.

(** *** the force *)
Lemma sum_flux_cons : forall f b l i, sum_flux f (b :: l) i = (if f b then - bf_flux b i else 0) + sum_flux f l i.
Proof. intros. unfold sum_flux. cbn [filter]. destruct (f b); cbn [fold_right]; ring. Qed.
Lemma named_cons : forall ids b l i, named_force ids (b :: l) i = (if in_dec Z.eq_dec (bf_zone b) ids then - bf_flux b i else 0) + named_force ids l i.
Proof. reflexivity. Qed.
Lemma named_nil : forall l i, named_force [] l i = 0.
Proof. induction l as [|b l IH]; intro i; [ reflexivity | ]. rewrite named_cons, IH. destruct (in_dec Z.eq_dec (bf_zone b) []) as [[] | _]. ring. Qed.
Lemma named_add : forall id ids l i, ~ In id ids -> named_force (id :: ids) l i = sum_flux (fun b => (bf_zone b =? id)%Z) l i + named_force ids l i.
Proof.
  induction l as [|b l IH]; intros i N; [ cbn; ring | ]. rewrite !named_cons, sum_flux_cons, IH by assumption.
  destruct (Z.eqb_spec (bf_zone b) id) as [E | E]; destruct (in_dec Z.eq_dec (bf_zone b) (id :: ids)) as [Q | Q]; destruct (in_dec Z.eq_dec (bf_zone b) ids) as [P | P]; try ring; exfalso.
  - apply N. rewrite <- E. assumption.
  - apply N. rewrite <- E. assumption.
  - apply Q. left. auto.
  - destruct Q as [Q | Q]; [ apply E; auto | contradiction ].
  - apply Q. right. assumption.
Qed.
Lemma force_configured : forall inviscid ids l i, NoDup ids -> (forall id, In id ids -> (BC_ID_DEFAULT_MAX <= id)%Z) ->
  cl_force inviscid ids l i = named_force ids l i.
Proof.
  induction ids as [|id ids IH]; intros l i ND H; [ rewrite named_nil; reflexivity | ]. inversion ND as [|? ? N1 N2]; subst.
  rewrite named_add by assumption. unfold cl_force. cbn [fold_right]. fold (cl_force inviscid ids l).
  rewrite (proj2 (Z.leb_le _ _) (H id (or_introl eq_refl))). rewrite IH; auto. intros; apply H; right; assumption.
Qed.
Lemma force_default : forall inviscid id l i, (id < BC_ID_DEFAULT_MAX)%Z -> (forall b, In b l -> (in_wall_sum inviscid b = true <-> bf_zone b = id)) ->
  cl_force inviscid [id] l i = named_force [id] l i.
Proof.
  intros inviscid id l i L H. unfold cl_force. cbn [fold_right]. destruct (Z.leb_spec BC_ID_DEFAULT_MAX id); [ lia | ].
  rewrite named_add, named_nil by (intros []). f_equal. unfold fluxWallSum. clear L H0. induction l as [|b l IH]; [ reflexivity | ].
  rewrite !sum_flux_cons, IH by (intros; apply H; right; assumption). specialize (H b (or_introl eq_refl)). f_equal.
  destruct (in_wall_sum inviscid b), (Z.eqb_spec (bf_zone b) id) as [E | E]; try reflexivity; exfalso; [ apply E; apply H; reflexivity | ].
  assert (false = true) by (apply H; assumption). discriminate.
Qed.

(** *** lift and drag *)
Lemma coeff_eq : forall d s AOA F cl cd, (d = 2 \/ d = 3)%nat -> coefficients d s AOA F = Ok (cl, cd) ->
  forall M L D, GetAOARotation s AOA = Ok M -> GetCL0Direction s = Ok L -> GetCD0Direction s = Ok D ->
  s_area s * s_q s <> 0 /\
  cl = dot 3 (ToThreeDim d F) (mat_vec 3 M L) / (s_area s * s_q s) /\ cd = dot 3 (ToThreeDim d F) (mat_vec 3 M D) / (s_area s * s_q s).
Proof.
  intros d s AOA F cl cd Hd E M L D EM EL ED. unfold coefficients in E. rewrite EM, EL, ED in E. cbn [bind] in E. unfold GetForce2CoeffRatio, rdiv in E.
  destruct (Req_EM_T (s_area s * s_q s) 0) as [Z | Z]; cbn [bind] in E; [ discriminate | ]. injection E as <- <-. split; [ assumption | ].
  rewrite !dot3, !mv3. unfold transpose. split; field; split; intro Q; apply Z; rewrite Q; ring.
Qed.
Lemma rotation_dirs : forall s AOA M L D, (s_AOAAxis s = "z" /\ s_CL0Axis s = "y" \/ s_AOAAxis s = "y" /\ s_CL0Axis s = "z")%string ->
  GetAOARotation s AOA = Ok M -> GetCL0Direction s = Ok L -> GetCD0Direction s = Ok D ->
  dot 3 L L = 1 /\ dot 3 D D = 1 /\ dot 3 L D = 0 /\
  same_vec 3 (mat_vec 3 M D) (fun i => cos (rad AOA) * D i + sin (rad AOA) * L i) /\
  same_vec 3 (mat_vec 3 M L) (fun i => cos (rad AOA) * L i - sin (rad AOA) * D i).
Proof.
  intros s AOA M L D H. unfold GetAOARotation, GetCL0Direction, GetCD0Direction.
  assert (N : rad (- AOA) = - rad AOA) by (unfold rad; ring).
  destruct H as [(-> & ->) | (-> & ->)]; cbn [String.eqb Ascii.eqb Bool.eqb]; intros EM EL; destruct (String.eqb (s_CD0Axis s) "x"); intro ED; try discriminate;
    assert (M = M) by reflexivity; injection EM as <-; injection EL as <-; injection ED as <-; rewrite !dot3; cbn [v3];
    (split; [ ring | ]); (split; [ ring | ]); (split; [ ring | ]); split; intros i Hi; rewrite mv3;
    (destruct i as [|[|[|i]]]; [ | | | lia ]); unfold RotZ, RotY; cbn [m3 v3]; rewrite ?N, ?cos_neg, ?sin_neg; ring.
Qed.

(** *** refutations *)
Lemma two_d_y : exists s AOA M, new_driver s <> Abort /\ GetAOARotation s AOA = Ok M /\ sqnorm 2 (v3 1 0 0) = 1 /\
  sqnorm 2 (mat_vec 2 M (v3 1 0 0)) = 1/4.
Proof.
  exists {| s_AOAInit := 60; s_AOAAxis := "y"; s_CL0Axis := "y"; s_CD0Axis := "x"; s_area := 1; s_q := 1/2; s_target := 0;
     s_relax := 1/4; s_ratio := 1/2; s_start := 0; s_min := 50; s_threshold := / 10 ^ 3; s_window := 10; s_longWindow := 100; s_longThreshold := 0 |}, 60, (RotY (- 60)).
  split; [ unfold new_driver; cbn; discriminate | ]. split; [ reflexivity | ].
  assert (C : cos (rad (-60)) = 1/2).
  { replace (rad (-60)) with (- (PI / 3)) by (unfold rad; field). rewrite cos_neg. apply cos_PI3. }
  unfold sqnorm, dot, mat_vec. cbn [sumn RotY m3 v3]. rewrite C. split; field.
Qed.
Definition wall_face (z : Z) (x : R) : bface := {| bf_zone := z; bf_type := BCWall; bf_flux := v3 x 0 0 |}.
Lemma force_twice : exists ids l i, NoDup ids /\ (forall id, In id ids -> id = BC_ID_DEFAULT_WALL \/ id = BC_ID_DEFAULT_WALL_INVIS) /\
  named_force ids l i <> 0 /\ cl_force false ids l i = 2 * named_force ids l i.
Proof.
  exists [BC_ID_DEFAULT_WALL; BC_ID_DEFAULT_WALL_INVIS], [wall_face BC_ID_DEFAULT_WALL 1], 0%nat.
  split. { repeat constructor; cbn; intuition discriminate. } split. { intros id [<- | [<- | []]]; auto. }
  assert (E : named_force [BC_ID_DEFAULT_WALL; BC_ID_DEFAULT_WALL_INVIS] [wall_face BC_ID_DEFAULT_WALL 1] 0%nat = -1).
  { rewrite named_cons. cbn [bf_zone wall_face bf_flux v3 named_force fold_right].
    destruct (in_dec Z.eq_dec BC_ID_DEFAULT_WALL [BC_ID_DEFAULT_WALL; BC_ID_DEFAULT_WALL_INVIS]) as [_ | Q]; [ lra | exfalso; apply Q; left; reflexivity ]. }
  rewrite E. split; [ lra | ]. cbn. ring.
Qed.
Lemma force_other : exists l i, named_force [BC_ID_DEFAULT_WALL] l i = 0 /\ cl_force false [BC_ID_DEFAULT_WALL] l i <> 0.
Proof.
  exists [wall_face 20 1], 0%nat. split.
  - rewrite named_cons. cbn [bf_zone wall_face]. destruct (in_dec Z.eq_dec 20%Z [BC_ID_DEFAULT_WALL]) as [[Q | []] | _]; [ discriminate | ].
    cbn [named_force fold_right]. ring.
  - cbn. lra.
Qed.
Lemma default_never : exists CL, Rabs (s_target default_settings - CL) <= / 10 ^ 4 /\
  forall st its st', new_driver default_settings = Ok st -> run default_settings st (map (fun it => (it, CL)) its) = Ok st' ->
    ConvergedAtTarget default_settings st' = false.
Proof.
  exists (/ 20000). cbn [s_target default_settings]. split.
  { rewrite Rabs_left; lra. }
  intros st its st' N E. pose proof (run_never default_settings (map (fun it => (it, / 20000)) its) st) as Q. rewrite E in Q. apply Q.
  - cbn. lia.
  - destruct (new_seen _ _ N) as ((_ & _ & _ & A & _) & _). exact A.
  - intros p Hp. apply in_map_iff in Hp. destruct Hp as (it & <- & _). cbn [snd]. unfold on_target. rewrite default_long. cbn [s_target default_settings].
    rewrite Rabs_left by lra. lra.
Qed.

(** *** examples *)
Definition quick : cl_settings :=
  {| s_AOAInit := 1; s_AOAAxis := "z"; s_CL0Axis := "y"; s_CD0Axis := "x"; s_area := 2; s_q := 1/2; s_target := 1/2;
     s_relax := 1/4; s_ratio := 1/2; s_start := 5; s_min := 3; s_threshold := / 10 ^ 3; s_window := 2; s_longWindow := 2; s_longThreshold := 0 |}.
Definition quick0 : cl_state :=
  {| c_lastCL := veryLarge; c_lastAOA := veryLarge; c_hist := repeat veryLarge 2; c_size := 0; c_head := 0; c_acc := 0; c_AOA := 1 |}.
Lemma met_new : new_driver quick = Ok quick0 /\ seen quick quick0 [].
Proof. assert (E : new_driver quick = Ok quick0) by reflexivity. split; [ exact E | apply (new_seen quick quick0 E) ]. Qed.
Lemma met_run : exists st, run quick quick0 [(1%Z, 1/4); (2%Z, 1/2); (3%Z, 1/2)] = Ok st /\ seen quick st [1/2; 1/2; 1/4] /\ ConvergedAtTarget quick st = true.
Proof.
  destruct met_new as (_ & Se).
  set (s1 := pushed quick quick0 (1/4)). set (s2 := pushed quick s1 (1/2)). set (s3 := pushed quick s2 (1/2)).
  assert (Se3 : seen quick s3 [1/2; 1/2; 1/4]) by (unfold s3, s2, s1; repeat apply pushed_seen; exact Se).
  exists s3. split; [ reflexivity | ]. split; [ exact Se3 | ]. apply (converged_iff _ _ _ Se3). split; [ cbn; lia | ].
  intros x Hx. cbn in Hx. unfold on_target. cbn [quick s_target s_longThreshold]. destruct Hx as [<- | [<- | []]]; rewrite Rminus_diag_eq, Rabs_R0 by reflexivity; lra.
Qed.
Lemma met_settled : settled quick veryLarge 7 [1/4; 1/4; 1/8].
Proof.
  unfold settled. cbn [quick s_start s_window s_min firstn s_threshold s_target s_ratio List.length]. split; [ lia | ]. split; [ lia | ]. split; [ lia | ].
  intros x Hx. unfold average. cbn [total List.length INR].
  assert (x = 1/4) by (destruct Hx as [<- | [<- | []]]; reflexivity). subst x.
  replace (1/4 - (1/4 + (1/4 + 0)) / (1 + 1)) with 0 by field. rewrite Rabs_R0. apply Rmin_glb; [ lra | ]. apply Rmult_le_pos; [ apply Rabs_pos | lra ].
Qed.
Lemma big : 1000000 < veryLarge.
Proof.
  unfold veryLarge. replace 200%nat with (7 + 193)%nat by reflexivity. rewrite pow_add.
  assert (1 <= 10 ^ 193) by (apply pow_R1_Rle; lra). assert (10 ^ 7 = 10000000) by (cbn; ring). rewrite H0. lra.
Qed.
Lemma std_range : 1/12 < slope_std < 1/4.
Proof.
  unfold slope_std. pose proof PI_4. assert (3 < PI). { pose proof PI2_3_2. lra. } nra.
Qed.
Lemma met_linear : let g := 2 * slope_std in
  9/10 * slope_std <= g <= 10 * slope_std /\ 0 < s_relax quick < 1 /\ s_relax quick * g <> slope_std /\
  s_target quick - g * (s_AOAInit quick - 1) <> 0 /\ Rabs (s_target quick) + 10 < veryLarge /\ Rabs 1 + (Rabs (s_target quick) + 10) / g < veryLarge /\
  Rabs (s_target quick - g * (s_AOAInit quick - 1)) * (1 + s_relax quick * g / slope_std) <= 10.
Proof.
  intro g. unfold g. pose proof std_range. pose proof big. cbn [quick s_relax s_target s_AOAInit].
  replace (1 - 1) with 0 by ring. rewrite Rmult_0_r, Rminus_0_r. rewrite (Rabs_right (1/2)) by lra. rewrite Rabs_R1.
  split; [ lra | ]. split; [ lra | ]. split; [ lra | ]. split; [ lra | ]. split; [ lra | ]. split.
  - assert ((1/2 + 10) / (2 * slope_std) < 100); [ | lra ]. apply Rmult_lt_reg_r with (2 * slope_std); [ lra | ].
    unfold Rdiv. rewrite Rmult_assoc, Rinv_l by lra. lra.
  - replace (1/4 * (2 * slope_std) / slope_std) with (1/2) by (field; lra). lra.
Qed.
