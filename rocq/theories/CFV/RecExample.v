(** Two unit squares side by side, with walls at the left and the right, for C56. *)
From Coq Require Import List ZArith Reals Bool Lia Lra.
From Verif Require Import Base.Prelude Base.PreludeFacts Geom.AdjModel Geom.BoundaryModel Geom.PeriodicModel Geom.PeriodicSpec Geom.PeriodicProofs
  Geom.BaseFnModel Geom.BaseFnSpec Geom.DiffTensorSpec Geom.DiffTensorProofs
  CFV.RecModel CFV.RecSpec CFV.RecPolyProofs CFV.RecMeanProofs CFV.RecCoefProofs CFV.RecIterProofs CFV.RecExactProofs.
Import ListNotations.
Local Open Scope R_scope.

Definition at_ (a b : R) : vec := fun i => match i with O => a | 1%nat => b | _ => 0 end.
Definition ones : vec := fun _ => 1.
Definition ex_st (sor : bool) : settings := Settings 2 1 false true MeanAACBB 1 true sor false turned.
Definition ex_moment : vec := fun j => match j with O => 1 | _ => 0 end.
Definition ex_cells : list cell :=
  [Cell (at_ (1 / 2) (1 / 2)) ones ones ident ex_moment 1 [0; 1]%Z; Cell (at_ (3 / 2) (1 / 2)) ones ones ident ex_moment 1 [0; 2]%Z].
(** Derivatives have no weight at the walls. *)
Definition ex_faces : list face :=
  [Face 0 1 0 ones ones ident [(1, 1, at_ 1 (1 / 2))];
   Face 0 UnInitIndex 2 (fun r => match r with O => 1 | _ => 0 end) ones ident [(1, 1, at_ 0 (1 / 2))];
   Face 1 UnInitIndex 2 (fun r => match r with O => 1 | _ => 0 end) ones ident [(1, 1, at_ 2 (1 / 2))]].
Definition ex_inverse (_ : mat) : mat := fun i j => match i, j with O, O => 2 / 3 | 1%nat, 1%nat => 1 | _, _ => 0 end.
(** The polynomial 1 + 2x + 3y, its means, its coefficients and its values at the walls. *)
Definition ex_poly (v : nat) : fn := fun X Y Z => match v with O => 1 + 2 * X + 3 * Y | _ => 0 end.
Definition ex_rule (i : Z) : list (R * R * vec) := [(1, 1, if (i =? 0)%Z then at_ (1 / 2) (1 / 2) else at_ (3 / 2) (1 / 2))].
Definition ex_u : list vec := [fun v => match v with O => 7 / 2 | _ => 0 end; fun v => match v with O => 11 / 2 | _ => 0 end].
Definition ex_coef : mat := fun l v => match v, l with O, O => 2 | O, 1%nat => 3 | _, _ => 0 end.
Definition ex_uRec : list mat := [ex_coef; ex_coef].
Definition ex_walls (uBL ui : vec) (i k : Z) (g : nat) : vec := fun v => match v with O => if (i =? 0)%Z then 5 / 2 else 13 / 2 | _ => 0 end.
Definition ex_same (w : vec) (_ : Z) : vec := w.

Lemma ex_supported : forall sor, supported (ex_st sor).
Proof. intros. split; cbn; [left; reflexivity|lia]. Qed.
Lemma ex_scale : forall sor, known_scale (ex_st sor).
Proof. intros. discriminate. Qed.
Lemma ex_mesh : forall sor, sound_mesh (ex_st sor) 2 ex_cells ex_faces.
Proof.
  intros sor. split; [cbn; lia|]. split.
  - repeat constructor; cbn; intros; try discriminate; try lra; unfold own_length; cbn; unfold ones; lra.
  - intros i c k Hi Hc Hk. assert (E : i = 0%Z \/ i = 1%Z) by lia.
    destruct E as [-> | ->]; cbn in Hc; injection Hc as <-; cbn in Hk; destruct Hk as [<-|[<-|[]]]; eexists; (split; [reflexivity|]); unfold joins; cbn; repeat split; try lia; auto.
Qed.
Lemma ex_periods : forall sor, sound_periods (ex_st sor).
Proof. intros sor E. discriminate. Qed.
Lemma ex_inverted : forall sor Ks, ConstructRecCoeff (ex_st sor) ex_inverse 2 ex_cells ex_faces = Ok Ks -> forall K, In K Ks -> inverted (ex_st sor) K.
Proof.
  intros sor Ks E K HK. destruct (the_coeffs _ _ _ _ _ _ (ex_supported sor) (ex_scale sor) (ex_periods sor) (ex_mesh sor) E) as [L C].
  apply In_nth_error in HK. destruct HK as [m Hm].
  assert (Hi : (0 <= Z.of_nat m < 2)%Z) by (assert (m < length Ks)%nat by (apply nth_error_Some; congruence); unfold zlen in L; lia).
  destruct (C (Z.of_nat m) Hi) as [K' [G [HA [HI _]]]]. apply vget_Ok in G. rewrite Nat2Z.id in G. destruct G as [_ G]. rewrite Hm in G. injection G as <-.
  intros l q Hl Hq. change (rows_up_to (dim (ex_st sor)) (maxOrder (ex_st sor)) - 1)%nat with 2%nat in *.
  unfold mmul. cbn [sumn]. rewrite !HI, !HA by (split; cbn; lia).
  assert (Em : m = 0%nat \/ m = 1%nat) by lia. destruct Em as [-> | ->];
  (assert (El : l = 0%nat \/ l = 1%nat) by lia; destruct El as [-> | ->]); (assert (Eq : q = 0%nat \/ q = 1%nat) by lia; destruct Eq as [-> | ->]);
  cbv -[Rplus Rmult Rminus Ropp Rdiv Rinv IZR pow UnInitIndex]; field.
Qed.
Lemma ex_means : forall sor, means_of (ex_st sor) ex_cells ex_rule ex_poly ex_u.
Proof.
  intros sor. split; [reflexivity|]. intros i c ui Hc Hu. apply vget_Ok in Hc. destruct Hc as [Hi Hc]. apply vget_Ok in Hu. destruct Hu as [_ Hu].
  assert (Li : (Z.to_nat i < 2)%nat) by (apply (proj1 (nth_error_Some ex_cells (Z.to_nat i))); congruence).
  assert (E : i = 0%Z \/ i = 1%Z) by lia. destruct E as [-> | ->]; cbn in Hc, Hu; injection Hc as <-; injection Hu as <-.
  - split; [split|].
    + unfold measure, over_rule. cbn. lra.
    + intros j Hj. change (j < 3)%nat in Hj. assert (Ej : j = 0%nat \/ j = 1%nat \/ j = 2%nat) by lia.
      destruct Ej as [-> |[-> | ->]]; cbv -[Rplus Rmult Rminus Ropp Rdiv Rinv IZR pow]; field.
    + intros [|v]; cbv -[Rplus Rmult Rminus Ropp Rdiv Rinv IZR pow]; field.
  - split; [split|].
    + unfold measure, over_rule. cbn. lra.
    + intros j Hj. change (j < 3)%nat in Hj. assert (Ej : j = 0%nat \/ j = 1%nat \/ j = 2%nat) by lia.
      destruct Ej as [-> |[-> | ->]]; cbv -[Rplus Rmult Rminus Ropp Rdiv Rinv IZR pow]; field.
    + intros [|v]; cbv -[Rplus Rmult Rminus Ropp Rdiv Rinv IZR pow]; field.
Qed.
Lemma ex_polynomial : forall sor v, polynomial (dim (ex_st sor)) (maxOrder (ex_st sor)) (ex_poly v).
Proof.
  intros sor v. exists (match v with O => [(1, (0, 0, 0)%nat); (2, (1, 0, 0)%nat); (3, (0, 1, 0)%nat)] | _ => [] end). split.
  - destruct v; repeat constructor; cbn; auto.
  - intros X Y Z. destruct v; cbv -[Rplus Rmult Rminus Ropp Rdiv Rinv IZR pow]; ring.
Qed.
Lemma ex_reproduces : forall sor, reproduces (ex_st sor) ex_cells ex_u ex_uRec ex_poly.
Proof.
  intros sor. split; [reflexivity|]. intros i v x Hi. change (zlen ex_cells) with 2%Z in Hi.
  assert (E : i = 0%Z \/ i = 1%Z) by lia. destruct E as [-> | ->]; destruct v as [|v]; cbv -[Rplus Rmult Rminus Ropp Rdiv Rinv IZR pow]; field.
Qed.
Lemma ex_held : forall sor, held_outside (ex_st sor) ex_walls 2 ex_cells ex_faces ex_u ex_poly.
Proof.
  intros sor i k f [Hi [c [Hc [Hk Hf]]]] HE. assert (E : i = 0%Z \/ i = 1%Z) by lia.
  destruct E as [-> | ->]; cbn in Hc; injection Hc as <-; cbn in Hk; destruct Hk as [<-|[<-|[]]]; cbn in Hf; injection Hf as <-; cbn in HE; try discriminate;
  (split; [intros r Hr; cbn in *; destruct r; [lia|reflexivity]|]); intros g w J x ui v Hn _ _;
  (destruct g as [|g]; [|destruct g; discriminate]); cbn in Hn; injection Hn as <- <- <-; destruct v; cbv -[Rplus Rmult Rminus Ropp Rdiv Rinv IZR pow]; field.
Qed.
Lemma ex_free : forall sor, SORInstead (ex_st sor) = true -> prescribed_or_none ex_walls 2 ex_cells ex_faces.
Proof. intros. left. reflexivity. Qed.
Lemma ex_all : forall sor,
  supported (ex_st sor) /\ known_scale (ex_st sor) /\ isPeriodic (ex_st sor) = false /\ sound_mesh (ex_st sor) 2 ex_cells ex_faces /\
  (exists Ks, ConstructRecCoeff (ex_st sor) ex_inverse 2 ex_cells ex_faces = Ok Ks /\ forall K, In K Ks -> inverted (ex_st sor) K) /\
  (forall v, polynomial (dim (ex_st sor)) (maxOrder (ex_st sor)) (ex_poly v)) /\ means_of (ex_st sor) ex_cells ex_rule ex_poly ex_u /\
  reproduces (ex_st sor) ex_cells ex_u ex_uRec ex_poly /\ held_outside (ex_st sor) ex_walls 2 ex_cells ex_faces ex_u ex_poly /\
  (SORInstead (ex_st sor) = true -> prescribed_or_none ex_walls 2 ex_cells ex_faces).
Proof.
  intros sor. split; [apply ex_supported|]. split; [apply ex_scale|]. split; [reflexivity|]. split; [apply ex_mesh|]. split.
  - destruct (constructs (ex_st sor) ex_inverse 2 ex_cells ex_faces (ex_supported sor) (ex_scale sor) (ex_periods sor) (ex_mesh sor)) as [Ks [E _]].
    exists Ks. split; [exact E|]. apply ex_inverted; auto.
  - split; [apply ex_polynomial|]. split; [apply ex_means|]. split; [apply ex_reproduces|]. split; [apply ex_held|apply ex_free].
Qed.

(** *** the jumps *)
Lemma ex_whole : whole_mesh ex_cells ex_faces.
Proof.
  assert (F : forall k f, vget ex_faces k = Ok f -> k = 0%Z \/ k = 1%Z \/ k = 2%Z).
  { intros k f E. apply vget_Ok in E. destruct E as [H E]. assert (L : (Z.to_nat k < 3)%nat) by (apply (proj1 (nth_error_Some ex_faces (Z.to_nat k))); congruence). lia. }
  split.
  - intros k f E. destruct (F k f E) as [-> |[-> | ->]]; cbn in E; injection E as <-; cbn; split; try lia; intros X; try discriminate; lia.
  - intros i c E. apply vget_Ok in E. destruct E as [H E]. assert (L : (Z.to_nat i < 2)%nat) by (apply (proj1 (nth_error_Some ex_cells (Z.to_nat i))); congruence).
    assert (Ei : i = 0%Z \/ i = 1%Z) by lia. destruct Ei as [-> | ->]; cbn in E; injection E as <-; cbn [cell2face].
    + split; [repeat constructor; cbn; intuition lia|]. intros k. cbn [In]. split.
      * intros [<-|[<-|[]]]; eexists; (split; [reflexivity|]); cbn; auto.
      * intros [f [Ef S]]. destruct (F k f Ef) as [-> |[-> | ->]]; cbn in Ef; injection Ef as <-; cbn in S; destruct S as [S|[S1 S2]]; auto; try discriminate.
    + split; [repeat constructor; cbn; intuition lia|]. intros k. cbn [In]. split.
      * intros [<-|[<-|[]]]; eexists; (split; [reflexivity|]); cbn; auto.
      * intros [f [Ef S]]. destruct (F k f Ef) as [-> |[-> | ->]]; cbn in Ef; injection Ef as <-; cbn in S; destruct S as [S|[S1 S2]]; auto; try discriminate.
Qed.
Lemma ex_positive : positive_rules ex_faces.
Proof. intros f w J x Hf Hx. cbn in Hf. destruct Hf as [<-|[<-|[<-|[]]]]; cbn in Hx; destruct Hx as [E|[]]; injection E as <- <- <-; lra. Qed.
Lemma ex_inverted_right : forall sor Ks, ConstructRecCoeff (ex_st sor) ex_inverse 2 ex_cells ex_faces = Ok Ks -> forall K, In K Ks -> inverted_right (ex_st sor) K.
Proof.
  intros sor Ks E K HK. destruct (the_coeffs _ _ _ _ _ _ (ex_supported sor) (ex_scale sor) (ex_periods sor) (ex_mesh sor) E) as [L C].
  apply In_nth_error in HK. destruct HK as [m Hm].
  assert (Hi : (0 <= Z.of_nat m < 2)%Z) by (assert (m < length Ks)%nat by (apply nth_error_Some; congruence); unfold zlen in L; lia).
  destruct (C (Z.of_nat m) Hi) as [K' [G [HA [HI _]]]]. apply vget_Ok in G. rewrite Nat2Z.id in G. destruct G as [_ G]. rewrite Hm in G. injection G as <-.
  intros l q Hl Hq. change (rows_up_to (dim (ex_st sor)) (maxOrder (ex_st sor)) - 1)%nat with 2%nat in *.
  unfold mmul. cbn [sumn]. rewrite !HI, !HA by (split; cbn; lia).
  assert (Em : m = 0%nat \/ m = 1%nat) by lia. destruct Em as [-> | ->];
  (assert (El : l = 0%nat \/ l = 1%nat) by lia; destruct El as [-> | ->]); (assert (Eq : q = 0%nat \/ q = 1%nat) by lia; destruct Eq as [-> | ->]);
  cbv -[Rplus Rmult Rminus Ropp Rdiv Rinv IZR pow UnInitIndex]; field.
Qed.
Definition ex_wall (k : Z) (_ : nat) : vec := fun v => match v with O => if (k =? 1)%Z then 5 / 2 else 13 / 2 | _ => 0 end.
Definition ex_given (_ _ : vec) (_ k : Z) (g : nat) : vec := ex_wall k g.
Lemma ex_given_ok : given ex_given ex_wall.
Proof. intros a ui i k g v. reflexivity. Qed.
Lemma ex_relaxed : forall c, In c ex_cells -> relax c <> 0 /\ 0 <= relax c <= 2.
Proof. intros c [<-|[<-|[]]]; cbn; lra. Qed.
Lemma ex_jumps : forall sor,
  supported (ex_st sor) /\ known_scale (ex_st sor) /\ isPeriodic (ex_st sor) = false /\ sound_mesh (ex_st sor) (zlen ex_cells) ex_cells ex_faces /\
  whole_mesh ex_cells ex_faces /\ positive_rules ex_faces /\
  (exists Ks, ConstructRecCoeff (ex_st sor) ex_inverse (zlen ex_cells) ex_cells ex_faces = Ok Ks /\ forall K, In K Ks -> inverted (ex_st sor) K /\ inverted_right (ex_st sor) K) /\
  given ex_given ex_wall /\ (forall c, In c ex_cells -> relax c <> 0 /\ 0 <= relax c <= 2).
Proof.
  intros sor. split; [apply ex_supported|]. split; [apply ex_scale|]. split; [reflexivity|]. split; [apply ex_mesh|]. split; [apply ex_whole|]. split; [apply ex_positive|]. split.
  - destruct (constructs (ex_st sor) ex_inverse 2 ex_cells ex_faces (ex_supported sor) (ex_scale sor) (ex_periods sor) (ex_mesh sor)) as [Ks [E _]].
    exists Ks. split; [exact E|]. intros K HK. split; [eapply ex_inverted; eauto|eapply ex_inverted_right; eauto].
  - split; [apply ex_given_ok|apply ex_relaxed].
Qed.

(** *** walls that take the value of the cell, in place *)
Definition ex_extrapolate (uBL _ : vec) (_ _ : Z) (_ : nat) : vec := uBL.
Definition first_coefficient (r : res (list mat * list mat)) : R := match r with Ok (c, _) => get zero_mat c 0 0%nat 0%nat | _ => 0 end.
Lemma ex_extrapolated : forall Ks, ConstructRecCoeff (ex_st true) ex_inverse 2 ex_cells ex_faces = Ok Ks ->
  first_coefficient (DoReconstructionIter (ex_st true) ex_extrapolate ex_same ex_same 2 ex_cells ex_faces Ks ex_u false false false ex_uRec ex_uRec) = 35 / 18.
Proof.
  intros Ks E. transitivity (match ConstructRecCoeff (ex_st true) ex_inverse 2 ex_cells ex_faces with
    | Ok Ks => first_coefficient (DoReconstructionIter (ex_st true) ex_extrapolate ex_same ex_same 2 ex_cells ex_faces Ks ex_u false false false ex_uRec ex_uRec) | _ => 0 end).
  - rewrite E. reflexivity.
  - clear E. cbv -[Rplus Rmult Rminus Ropp Rdiv Rinv IZR pow sqrt]. field.
Qed.
Lemma ex_linear : linear_change ex_same.
Proof. intros a b x y z v. reflexivity. Qed.
