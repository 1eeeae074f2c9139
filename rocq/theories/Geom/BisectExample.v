(** Meshes that can be bisected. *)
From Coq Require Import Reals List ZArith Bool Lia Lra Arith.
From Verif Require Import Base.Prelude Base.PreludeFacts Geom.ElemModel Geom.ElemSpec Geom.PeriodicModel Geom.PeriodicSpec
  Geom.ElevModel Geom.ElevSpec Geom.ElevExample Geom.BisectModel Geom.BisectSpec Geom.BisectProofs Geom.BisectDone Geom.BisectElev.
Import ListNotations.
Local Open Scope Z_scope.

Definition point (x y z : Z) : vec := fun i => match i with 0%nat => IZR x | 1%nat => IZR y | 2%nat => IZR z | _ => 0%R end.
(** two tetrahedra with a face in common, on two ranks *)
Definition tet_a : cell := {| c_type := Tet10; c_nodes := [0; 1; 2; 3; 4; 5; 6; 7; 8; 9]; c_bits := []; c_nb := [1] |}.
Definition tet_b : cell := {| c_type := Tet10; c_nodes := [1; 2; 3; 10; 5; 9; 8; 11; 12; 13]; c_bits := []; c_nb := [0] |}.
Definition tri_b : bnd := {| b_type := Tri6; b_nodes := [0; 2; 1; 6; 5; 4]; b_cell := 0 |}.
Definition tets : mesh := {| periodic := false; info := shift 0; parts :=
  [{| p_coords := [point 0 0 0; point 2 0 0; point 0 2 0; point 0 0 2; point 1 0 0; point 1 1 0; point 0 1 0; point 0 0 1; point 1 0 1; point 0 1 1]; p_cells := [tet_a]; p_bnds := [tri_b] |};
   {| p_coords := [point 2 2 2; point 2 1 1; point 1 2 1; point 1 1 2]; p_cells := [tet_b]; p_bnds := [] |}] |}.
Lemma tets_cells i c : is_cell tets i c -> i = 0%nat /\ c = tet_a \/ i = 1%nat /\ c = tet_b.
Proof. unfold is_cell. cbn. destruct i as [|[|[|i]]]; cbn; intro H; try discriminate; injection H as <-; auto. Qed.
Lemma tets_good : second_order tets /\ sound_cells tets /\ (forall i c, is_cell tets i c -> flat (c_type c) = true) /\ bnds_on_faces tets.
Proof.
  split.
  { intros i c C. apply tets_cells in C. destruct C as [[_ ->]|[_ ->]]; (split; [reflexivity|]; split; [reflexivity|]; split; [|discriminate]); cbn; unfold zlen; cbn; intuition lia. }
  split; [now apply sound_b_ok|]. split; [intros i c C; apply tets_cells in C; destruct C as [[_ ->]|[_ ->]]; reflexivity|].
  intros lo hi b (l & p & r & E & -> & -> & I). destruct l as [|q [|q' l]]; cbn in E.
  - injection E as <- <-. cbn in I. destruct I as [<-|[]]. cbn. split; [lia|]. exists tet_a, 0%nat. split; [reflexivity|]. split; [cbn; lia|]. split; reflexivity.
  - injection E as <- <- <-. destruct I.
  - destruct l; discriminate.
Qed.
Lemma tets_bisected : exists r, bisect tets = Ok r.
Proof. destruct tets_good as (A & _ & B & C). now apply success. Qed.
Lemma tets_piece : exists r s, bisect tets = Ok r /\ piece tets r 1 3 s.
Proof. destruct tets_bisected as (r & H). destruct (piece_exists tets r 1 tet_b 3 H) as (s & S); [reflexivity|cbn; lia|]. eauto. Qed.
Lemma tets_bnd_piece : exists r s, bisect tets = Ok r /\ bnd_piece tets r 0 3 s.
Proof.
  destruct tets_bisected as (r & H). destruct (bisect_facts _ _ H) as (cs & bs & F). destruct (nth_error (concat (map q_bnds r)) 3) as [s|] eqn:S.
  - exists r, s. split; auto. exists tri_b. split; [reflexivity|]. split; [cbn; lia|exact S].
  - exfalso. apply nth_error_None in S. pose proof (f_sizes _ _ _ _ F) as FS. cbn in FS. inversion FS as [|p q ps qs Q1 FS']; subst. cbn in S. rewrite app_length in S. destruct Q1 as (_ & _ & Q1). cbn in Q1. lia.
Qed.
Lemma tets_coords : exists xs, coords_on_cell tets tet_b = Ok xs /\ straight_edges Tet4 xs.
Proof.
  eexists. split; [reflexivity|]. intros k a b x E X. do 7 (destruct k as [|k]; [try (cbn in E; injection E as <- <-; cbn in X; injection X as <-; intros [|[|[|z]]] Z; [cbn; lra..|lia]); cbn in E; discriminate|]). destruct k; cbn in X; discriminate.
Qed.
Lemma two_refined : exists o m2 r, elevate two = Ok o /\ made_of two o m2 /\ bisect m2 = Ok r.
Proof.
  destruct two_good as (A & B & C & D & E & F & G). destruct two_elevates as (o & O). destruct (made_exists _ _ O B) as (m2 & M). destruct (refine _ _ _ M O B A G) as (r & H); [|now exists o, m2, r].
  intros i c K. unfold is_cell in K. destruct i as [|[|i]]; cbn in K; try (injection K as <-; reflexivity). destruct i; discriminate.
Qed.
Lemma ring3_refined : exists o m2 r, elevate ring3 = Ok o /\ made_of ring3 o m2 /\ bisect m2 = Ok r.
Proof.
  destruct ring3_good as (A & B & C & D & E & F & G). destruct ring3_elevates as (o & O). destruct (made_exists _ _ O B) as (m2 & M). destruct (refine _ _ _ M O B A G) as (r & H); [|now exists o, m2, r].
  intros i c K. unfold is_cell in K. destruct i as [|[|[|i]]]; cbn in K; try (injection K as <-; reflexivity). destruct i; discriminate.
Qed.
