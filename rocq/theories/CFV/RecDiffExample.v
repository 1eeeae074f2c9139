(** The two squares of RecExample.v for the linear problems. *)
From Coq Require Import List ZArith Reals Bool Lia Lra.
From Verif Require Import Base.Prelude Base.PreludeFacts Geom.AdjModel Geom.BoundaryModel Geom.PeriodicModel Geom.PeriodicSpec Geom.PeriodicProofs
  Geom.BaseFnModel Geom.BaseFnSpec Geom.DiffTensorSpec Geom.DiffTensorProofs
  CFV.RecModel CFV.RecDiffModel CFV.RecSpec CFV.RecDiffSpec CFV.RecPolyProofs CFV.RecMeanProofs CFV.RecCoefProofs CFV.RecIterProofs CFV.RecExactProofs CFV.RecExample CFV.RecDiffProofs CFV.RecDiffThmProofs.
Import ListNotations.
Local Open Scope R_scope.

(** Given values do not change; extrapolated ones change as the reconstruction does. *)
Definition ex_still (_ _ _ : vec) (_ _ : Z) (_ : nat) : vec := zero_vec.
Definition ex_follow (_ da _ : vec) (_ _ : Z) (_ : nat) : vec := da.
Lemma ex_along : forall s, along s ex_given ex_still /\ along s ex_extrapolate ex_follow.
Proof. intros s. split; intros a da ui i k g v; [unfold ex_still, ex_given, zero_vec; ring|reflexivity]. Qed.
Lemma ex_quiet : quiet_or_none ex_still 2 ex_cells ex_faces.
Proof. left. reflexivity. Qed.
Lemma ex_problem : forall sor,
  supported (ex_st sor) /\ known_scale (ex_st sor) /\ sound_periods (ex_st sor) /\ sound_mesh (ex_st sor) 2 ex_cells ex_faces /\
  (exists Ks, ConstructRecCoeff (ex_st sor) ex_inverse 2 ex_cells ex_faces = Ok Ks) /\ linear_change ex_same /\
  (forall s, along s ex_given ex_still /\ along s ex_extrapolate ex_follow) /\ quiet_or_none ex_still 2 ex_cells ex_faces.
Proof.
  intros sor. split; [apply ex_supported|]. split; [apply ex_scale|]. split; [apply ex_periods|]. split; [apply ex_mesh|]. split.
  - destruct (constructs (ex_st sor) ex_inverse 2 ex_cells ex_faces (ex_supported sor) (ex_scale sor) (ex_periods sor) (ex_mesh sor)) as [Ks [E _]]. exists Ks. exact E.
  - split; [apply ex_linear|]. split; [apply ex_along|apply ex_quiet].
Qed.

(** Relaxation by one half. *)
Definition half_cells : list cell :=
  [Cell (at_ (1 / 2) (1 / 2)) ones ones ident ex_moment (1 / 2) [0; 1]%Z; Cell (at_ (3 / 2) (1 / 2)) ones ones ident ex_moment (1 / 2) [0; 2]%Z].
Lemma half_mesh : forall sor, sound_mesh (ex_st sor) 2 half_cells ex_faces.
Proof.
  intros sor. split; [cbn; lia|]. split.
  - repeat constructor; cbn; intros; try discriminate; try lra; unfold own_length; cbn; unfold ones; lra.
  - intros i c k Hi Hc Hk. assert (E : i = 0%Z \/ i = 1%Z) by lia.
    destruct E as [-> | ->]; cbn in Hc; injection Hc as <-; cbn in Hk; destruct Hk as [<-|[<-|[]]]; eexists; (split; [reflexivity|]); unfold joins; cbn; repeat split; try lia; auto.
Qed.
Definition first_of (r : res (list mat)) : R := match r with Ok c => get zero_mat c 0 0%nat 0%nat | _ => 0 end.
Lemma half_value : forall Ks, ConstructRecCoeff (ex_st false) ex_inverse 2 half_cells ex_faces = Ok Ks ->
  first_of (DoReconstructionIterDiff (ex_st false) ex_still ex_same ex_same 2 half_cells ex_faces Ks ex_u ex_uRec ex_uRec ex_uRec) = 1.
Proof.
  intros Ks E. transitivity (match ConstructRecCoeff (ex_st false) ex_inverse 2 half_cells ex_faces with
    | Ok Ks => first_of (DoReconstructionIterDiff (ex_st false) ex_still ex_same ex_same 2 half_cells ex_faces Ks ex_u ex_uRec ex_uRec ex_uRec) | _ => 0 end).
  - rewrite E. reflexivity.
  - clear E. cbv -[Rplus Rmult Rminus Ropp Rdiv Rinv IZR pow sqrt]. field.
Qed.
Lemma half_not_solved : ~ (forall st inverse nCell cells faces Ks u uRec inc x FBD FT FTB (reverse : bool) New x' Nd,
  supported st -> known_scale st -> sound_periods st -> sound_mesh st nCell cells faces ->
  ConstructRecCoeff st inverse nCell cells faces = Ok Ks ->
  zlen u = zlen cells -> zlen uRec = zlen cells -> zlen inc = zlen cells -> zlen x = zlen cells -> zlen New = zlen cells ->
  linear_change FT -> linear_change FTB -> quiet_or_none FBD nCell cells faces -> (forall c, In c cells -> 0 < relax c) ->
  DoReconstructionIterSOR st FBD FT FTB nCell cells faces Ks u reverse uRec inc x = Ok x' ->
  DoReconstructionIterDiff st FBD FT FTB nCell cells faces Ks u uRec x New = Ok Nd ->
  same_coefficients st nCell x' x -> same_coefficients st nCell Nd inc).
Proof.
  intros H. set (st := ex_st false). pose proof (ex_supported false) as S. pose proof (ex_scale false) as K. pose proof (ex_periods false) as P. pose proof (half_mesh false) as M.
  destruct (constructs st ex_inverse 2 half_cells ex_faces S K P M) as [Ks [EK _]].
  pose proof (the_coeffs st ex_inverse 2 half_cells ex_faces Ks S K P M EK) as HK.
  destruct (diff_ok st half_cells ex_faces ex_inverse 2 ex_u ex_still ex_same ex_same ex_uRec S K P M eq_refl eq_refl ex_linear ex_linear Ks ex_uRec ex_uRec HK eq_refl eq_refl) as (Nd & ED & LN & _).
  set (inc := map (fun m : mat => (fun l v => 1 / 2 * m l v) : mat) Nd). assert (LI : zlen inc = zlen half_cells) by (unfold inc, zlen in *; rewrite map_length; exact LN).
  destruct (relaxation_fixed st ex_inverse 2 half_cells ex_faces Ks ex_u ex_uRec inc ex_uRec ex_still ex_same ex_same false ex_uRec S K P M EK eq_refl eq_refl LI eq_refl eq_refl ex_linear ex_linear) as (x' & Nd' & ES & ED' & F).
  { left. reflexivity. }
  rewrite ED in ED'. injection ED' as <-. change (zlen half_cells) with 2%Z in *.
  assert (G : forall i a, vget Nd i = Ok a -> vget inc i = Ok (fun l v => 1 / 2 * a l v)).
  { intros i a E. apply vget_Ok in E. apply vget_Ok. split; [lia|]. unfold inc. rewrite nth_error_map. rewrite (proj2 E). reflexivity. }
  assert (SC : same_coefficients st 2 x' ex_uRec).
  { apply F. intros i c a b l v Ec Hi Ea Eb Hl. rewrite (G i a Ea) in Eb. injection Eb as <-. assert (R : relax c = 1 / 2); [|rewrite R; reflexivity].
    apply vget_Ok in Ec. destruct Ec as [Hp Ec]. apply nth_error_In in Ec. destruct Ec as [<-|[<-|[]]]; reflexivity. }
  assert (Q : same_coefficients st 2 Nd inc).
  { apply (H st ex_inverse 2%Z half_cells ex_faces Ks ex_u ex_uRec inc ex_uRec ex_still ex_same ex_same false ex_uRec x' Nd S K P M EK eq_refl eq_refl LI eq_refl eq_refl ex_linear ex_linear); auto.
    - left. reflexivity.
    - intros c [<-|[<-|[]]]; cbn; lra. }
  destruct (Q 0%Z ltac:(lia)) as (a & b & Ea & Eb & V). rewrite (G _ _ Ea) in Eb. injection Eb as <-. specialize (V 0%nat 0%nat ltac:(cbn; lia)).
  pose proof (half_value Ks EK) as W. fold st in W. rewrite ED in W. cbn [first_of] in W. rewrite (vget_get _ zero_mat _ _ _ Ea) in W. rewrite W in V. lra.
Qed.

(** Walls that follow, relaxation one. *)
Definition follow_pair (Ks : list coeff) : R :=
  match DoReconstructionIterDiff (ex_st false) ex_follow ex_same ex_same 2 ex_cells ex_faces Ks ex_u ex_uRec ex_uRec ex_uRec with
  | Ok Nd => first_of (DoReconstructionIterSOR (ex_st false) ex_follow ex_same ex_same 2 ex_cells ex_faces Ks ex_u false ex_uRec Nd ex_uRec)
  | _ => 0
  end.
Lemma follow_value : forall Ks, ConstructRecCoeff (ex_st false) ex_inverse 2 ex_cells ex_faces = Ok Ks -> follow_pair Ks <> 2.
Proof.
  intros Ks E. assert (V : follow_pair Ks = 35 / 18); [|rewrite V; lra].
  transitivity (match ConstructRecCoeff (ex_st false) ex_inverse 2 ex_cells ex_faces with Ok Ks => follow_pair Ks | _ => 0 end).
  - rewrite E. reflexivity.
  - clear E. cbv -[Rplus Rmult Rminus Ropp Rdiv Rinv IZR pow sqrt]. field.
Qed.
Lemma follow_not_fixed : ~ (forall st inverse nCell cells faces Ks u uRec x FBD FT FTB (reverse : bool) New Nd,
  supported st -> known_scale st -> sound_periods st -> sound_mesh st nCell cells faces ->
  ConstructRecCoeff st inverse nCell cells faces = Ok Ks ->
  zlen u = zlen cells -> zlen uRec = zlen cells -> zlen x = zlen cells -> zlen New = zlen cells ->
  linear_change FT -> linear_change FTB -> (forall c, In c cells -> relax c = 1) ->
  DoReconstructionIterDiff st FBD FT FTB nCell cells faces Ks u uRec x New = Ok Nd ->
  exists x', DoReconstructionIterSOR st FBD FT FTB nCell cells faces Ks u reverse uRec Nd x = Ok x' /\ same_coefficients st nCell x' x).
Proof.
  intros H. set (st := ex_st false). pose proof (ex_supported false) as S. pose proof (ex_scale false) as K. pose proof (ex_periods false) as P. pose proof (ex_mesh false) as M.
  destruct (constructs st ex_inverse 2 ex_cells ex_faces S K P M) as [Ks [EK _]].
  pose proof (the_coeffs st ex_inverse 2 ex_cells ex_faces Ks S K P M EK) as HK.
  destruct (diff_ok st ex_cells ex_faces ex_inverse 2 ex_u ex_follow ex_same ex_same ex_uRec S K P M eq_refl eq_refl ex_linear ex_linear Ks ex_uRec ex_uRec HK eq_refl eq_refl) as (Nd & ED & _).
  assert (RX : forall c, In c ex_cells -> relax c = 1) by (intros c [<-|[<-|[]]]; reflexivity).
  destruct (H st ex_inverse 2%Z ex_cells ex_faces Ks ex_u ex_uRec ex_uRec ex_follow ex_same ex_same false ex_uRec Nd S K P M EK eq_refl eq_refl eq_refl eq_refl ex_linear ex_linear RX ED) as (x' & ES & Q).
  destruct (Q 0%Z ltac:(lia)) as (a & b & Ea & Eb & V). specialize (V 0%nat 0%nat ltac:(cbn; lia)).
  apply (follow_value Ks EK). unfold follow_pair. fold st. rewrite ED, ES. cbn [first_of]. rewrite (vget_get _ zero_mat _ _ _ Ea), V.
  cbn in Eb. injection Eb as <-. cbn. reflexivity.
Qed.
