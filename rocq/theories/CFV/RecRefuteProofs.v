(** What the iteration does not keep, on the two squares. *)
From Coq Require Import List ZArith Reals Bool Lia Lra.
From Verif Require Import Base.Prelude Base.PreludeFacts Geom.AdjModel Geom.BoundaryModel Geom.PeriodicModel Geom.PeriodicSpec Geom.PeriodicProofs
  Geom.BaseFnModel Geom.BaseFnSpec Geom.DiffTensorSpec Geom.DiffTensorProofs
  CFV.RecModel CFV.RecSpec CFV.RecPolyProofs CFV.RecMeanProofs CFV.RecCoefProofs CFV.RecIterProofs CFV.RecExactProofs CFV.RecExample.
Import ListNotations.
Local Open Scope R_scope.

Ltac own_two i H := assert (i = 0%Z \/ i = 1%Z) as [-> | ->] by lia.

Lemma first_of_same : forall r c, same_coefficients (ex_st true) 2 r c -> get zero_mat r 0 0%nat 0%nat = get zero_mat c 0 0%nat 0%nat.
Proof.
  intros r c H. destruct (H 0%Z ltac:(lia)) as (x & y & Ex & Ey & V). rewrite (vget_get _ zero_mat _ _ _ Ex), (vget_get _ zero_mat _ _ _ Ey). apply V. cbn. lia.
Qed.
Lemma extrapolated_held : held_outside (ex_st true) ex_extrapolate 2 ex_cells ex_faces ex_u ex_poly.
Proof.
  intros i k f [Hi [c [Hc [Hk Hf]]]] HE. own_two i Hi; cbn in Hc; injection Hc as <-; cbn in Hk; destruct Hk as [<-|[<-|[]]]; cbn in Hf; injection Hf as <-; cbn in HE; try discriminate;
  (split; [intros r Hr; cbn in *; destruct r; [lia|reflexivity]|]); intros; reflexivity.
Qed.
Lemma extrapolated_not_fixed : ~ (forall st inverse nCell cells faces Ks u uRec prescribed forth back P New,
  supported st -> known_scale st -> isPeriodic st = false -> sound_mesh st nCell cells faces ->
  ConstructRecCoeff st inverse nCell cells faces = Ok Ks -> (forall K, In K Ks -> inverted st K) ->
  zlen u = zlen cells -> reproduces st cells u uRec P -> held_outside st prescribed nCell cells faces u P ->
  zlen New = zlen cells ->
  fixed_point st nCell uRec (fun into record => DoReconstructionIter st prescribed forth back nCell cells faces Ks u into record false uRec New)).
Proof.
  intros H. destruct (ex_all true) as (S & K & NP & M & [Ks [EK HI]] & _ & _ & RP & _ & _).
  destruct (H (ex_st true) ex_inverse 2%Z ex_cells ex_faces Ks ex_u ex_uRec ex_extrapolate ex_same ex_same ex_poly ex_uRec S K NP M EK HI eq_refl RP extrapolated_held eq_refl) as [F _].
  destruct (F false) as (r & N & E & SC). pose proof (ex_extrapolated Ks EK) as V. cbv beta in E. rewrite E in V. cbn [first_coefficient] in V.
  apply first_of_same in SC. rewrite V in SC. cbv -[Rdiv IZR] in SC. lra.
Qed.

(** Derivatives with weight at the walls. *)
Definition weighed_faces : list face :=
  [Face 0 1 0 ones ones ident [(1, 1, at_ 1 (1 / 2))];
   Face 0 UnInitIndex 2 ones ones ident [(1, 1, at_ 0 (1 / 2))];
   Face 1 UnInitIndex 2 ones ones ident [(1, 1, at_ 2 (1 / 2))]].
Definition weighed_inverse (_ : mat) : mat := fun i j => match i, j with O, O => 2 / 5 | 1%nat, 1%nat => 1 / 2 | _, _ => 0 end.
Lemma weighed_mesh : forall sor, sound_mesh (ex_st sor) 2 ex_cells weighed_faces.
Proof.
  intros sor. destruct (ex_mesh sor) as (A & B & _). split; [exact A|]. split; [exact B|].
  intros i c k Hi Hc Hk. own_two i Hi; cbn in Hc; injection Hc as <-; cbn in Hk; destruct Hk as [<-|[<-|[]]]; eexists; (split; [reflexivity|]); unfold joins; cbn; repeat split; try lia; auto.
Qed.
Lemma weighed_inverted : forall sor Ks, ConstructRecCoeff (ex_st sor) weighed_inverse 2 ex_cells weighed_faces = Ok Ks -> forall K, In K Ks -> inverted (ex_st sor) K.
Proof.
  intros sor Ks E K HK. destruct (the_coeffs _ _ _ _ _ _ (ex_supported sor) (ex_scale sor) (ex_periods sor) (weighed_mesh sor) E) as [L C].
  apply In_nth_error in HK. destruct HK as [m Hm].
  assert (Hi : (0 <= Z.of_nat m < 2)%Z) by (assert (m < length Ks)%nat by (apply nth_error_Some; congruence); unfold zlen in L; lia).
  destruct (C (Z.of_nat m) Hi) as [K' [G [HA [HI _]]]]. apply vget_Ok in G. rewrite Nat2Z.id in G. destruct G as [_ G]. rewrite Hm in G. injection G as <-.
  intros l q Hl Hq. change (rows_up_to (dim (ex_st sor)) (maxOrder (ex_st sor)) - 1)%nat with 2%nat in *.
  unfold mmul. cbn [sumn]. rewrite !HI, !HA by (split; cbn; lia).
  assert (Em : m = 0%nat \/ m = 1%nat) by lia. destruct Em as [-> | ->];
  (assert (El : l = 0%nat \/ l = 1%nat) by lia; destruct El as [-> | ->]); (assert (Eq : q = 0%nat \/ q = 1%nat) by lia; destruct Eq as [-> | ->]);
  cbv -[Rplus Rmult Rminus Ropp Rdiv Rinv IZR pow UnInitIndex]; field.
Qed.
Definition second_coefficient (r : res (list mat * list mat)) : R := match r with Ok (c, _) => get zero_mat c 0 1%nat 0%nat | _ => 0 end.
Lemma weighed_value : forall Ks, ConstructRecCoeff (ex_st false) weighed_inverse 2 ex_cells weighed_faces = Ok Ks ->
  second_coefficient (DoReconstructionIter (ex_st false) ex_walls ex_same ex_same 2 ex_cells weighed_faces Ks ex_u false false false ex_uRec ex_uRec) = 3 / 2.
Proof.
  intros Ks E. transitivity (match ConstructRecCoeff (ex_st false) weighed_inverse 2 ex_cells weighed_faces with
    | Ok Ks => second_coefficient (DoReconstructionIter (ex_st false) ex_walls ex_same ex_same 2 ex_cells weighed_faces Ks ex_u false false false ex_uRec ex_uRec) | _ => 0 end).
  - rewrite E. reflexivity.
  - clear E. cbv -[Rplus Rmult Rminus Ropp Rdiv Rinv IZR pow sqrt]. field.
Qed.
Lemma weighed_held : forall i iFace f, face_of 2 ex_cells weighed_faces i iFace f -> FaceIDIsExternalBC (zone f) = true ->
    forall g w J x ui v, nth_error (points f) g = Some (w, J, x) -> vget ex_u i = Ok ui ->
      ex_walls (fun v => value_at (ex_poly v) x) ui i iFace g v = value_at (ex_poly v) x.
Proof.
  intros i k f [Hi [c [Hc [Hk Hf]]]] HE. own_two i Hi; cbn in Hc; injection Hc as <-; cbn in Hk; destruct Hk as [<-|[<-|[]]]; cbn in Hf; injection Hf as <-; cbn in HE; try discriminate;
  intros g w J x ui v Hn _;
  (destruct g as [|g]; [|destruct g; discriminate]); cbn in Hn; injection Hn as <- <- <-; destruct v; cbv -[Rplus Rmult Rminus Ropp Rdiv Rinv IZR pow]; field.
Qed.
Lemma weighed_not_fixed : ~ (forall st inverse nCell cells faces Ks u uRec prescribed forth back P New,
  supported st -> known_scale st -> isPeriodic st = false -> SORInstead st = false -> sound_mesh st nCell cells faces ->
  ConstructRecCoeff st inverse nCell cells faces = Ok Ks -> (forall K, In K Ks -> inverted st K) ->
  zlen u = zlen cells -> reproduces st cells u uRec P ->
  (forall i iFace f, face_of nCell cells faces i iFace f -> FaceIDIsExternalBC (zone f) = true ->
    forall g w J x ui v, nth_error (points f) g = Some (w, J, x) -> vget u i = Ok ui ->
      prescribed (fun v => value_at (P v) x) ui i iFace g v = value_at (P v) x) ->
  zlen New = zlen cells ->
  fixed_point st nCell uRec (fun into record => DoReconstructionIter st prescribed forth back nCell cells faces Ks u into record false uRec New)).
Proof.
  intros H. destruct (ex_all false) as (S & K & NP & _ & _ & _ & _ & RP & _ & _).
  destruct (constructs (ex_st false) weighed_inverse 2 ex_cells weighed_faces S K (ex_periods false) (weighed_mesh false)) as [Ks [EK _]].
  destruct (H (ex_st false) weighed_inverse 2%Z ex_cells weighed_faces Ks ex_u ex_uRec ex_walls ex_same ex_same ex_poly ex_uRec S K NP eq_refl (weighed_mesh false) EK (weighed_inverted false Ks EK) eq_refl RP weighed_held eq_refl) as [F _].
  destruct (F false) as (r & N & E & SC). pose proof (weighed_value Ks EK) as V. cbv beta in E. rewrite E in V. cbn [second_coefficient] in V.
  destruct (SC 0%Z ltac:(lia)) as (x & y & Ex & Ey & W). rewrite (vget_get _ zero_mat _ _ _ Ex) in V. rewrite (W 1%nat 0%nat) in V by (cbn; lia).
  cbn in Ey. injection Ey as <-. cbn in V. lra.
Qed.

(** Recording from coefficients that are zero. *)
Definition ex_zero : list mat := [zero_mat; zero_mat].
Definition recorded (r : res (list mat * list mat)) : R := match r with Ok (_, c) => get zero_mat c 0 0%nat 0%nat | _ => 0 end.
Lemma zero_values : forall Ks, ConstructRecCoeff (ex_st false) ex_inverse 2 ex_cells ex_faces = Ok Ks ->
  recorded (DoReconstructionIter (ex_st false) ex_walls ex_same ex_same 2 ex_cells ex_faces Ks ex_u true true true ex_zero ex_zero) = - 2 / 3 /\
  recorded (DoReconstructionIter (ex_st false) ex_walls ex_same ex_same 2 ex_cells ex_faces Ks ex_u true true false ex_zero ex_zero) = - 1.
Proof.
  intros Ks E. split.
  - transitivity (match ConstructRecCoeff (ex_st false) ex_inverse 2 ex_cells ex_faces with
      | Ok Ks => recorded (DoReconstructionIter (ex_st false) ex_walls ex_same ex_same 2 ex_cells ex_faces Ks ex_u true true true ex_zero ex_zero) | _ => 0 end).
    + rewrite E. reflexivity.
    + clear E. cbv -[Rplus Rmult Rminus Ropp Rdiv Rinv IZR pow sqrt]. field.
  - transitivity (match ConstructRecCoeff (ex_st false) ex_inverse 2 ex_cells ex_faces with
      | Ok Ks => recorded (DoReconstructionIter (ex_st false) ex_walls ex_same ex_same 2 ex_cells ex_faces Ks ex_u true true false ex_zero ex_zero) | _ => 0 end).
    + rewrite E. reflexivity.
    + clear E. cbv -[Rplus Rmult Rminus Ropp Rdiv Rinv IZR pow sqrt]. field.
Qed.
Lemma zero_flag_differs : ~ (forall st inverse nCell cells faces Ks u uRec prescribed forth back New,
  supported st -> known_scale st -> isPeriodic st = false -> sound_mesh st nCell cells faces ->
  ConstructRecCoeff st inverse nCell cells faces = Ok Ks -> (forall K, In K Ks -> inverted st K) ->
  zlen u = zlen cells -> zlen uRec = zlen cells -> (forall m, In m uRec -> m = fun _ _ => 0) -> zlen New = zlen cells ->
  exists N N', DoReconstructionIter st prescribed forth back nCell cells faces Ks u true true true uRec New = Ok (uRec, N) /\
    DoReconstructionIter st prescribed forth back nCell cells faces Ks u true true false uRec New = Ok (uRec, N') /\ same_coefficients st nCell N N').
Proof.
  intros H. destruct (ex_all false) as (S & K & NP & M & [Ks [EK HI]] & _).
  destruct (H (ex_st false) ex_inverse 2%Z ex_cells ex_faces Ks ex_u ex_zero ex_walls ex_same ex_same ex_zero S K NP M EK HI eq_refl eq_refl) as (N & N' & E & E' & SC); [|reflexivity|].
  { intros m [<-|[<-|[]]]; reflexivity. }
  destruct (zero_values Ks EK) as [V V']. rewrite E in V. rewrite E' in V'. cbn [recorded] in V, V'.
  destruct (SC 0%Z ltac:(lia)) as (x & y & Ex & Ey & W). rewrite (vget_get _ zero_mat _ _ _ Ex) in V. rewrite (vget_get _ zero_mat _ _ _ Ey) in V'.
  rewrite (W 0%nat 0%nat) in V by (cbn; lia). lra.
Qed.
