(** Property C62. *)
From Coq Require Import Reals Arith Lra Lia.
From Verif Require Import Base.Prelude Euler.GasModel Euler.CompressModel Geom.RotationModel Geom.RotationSpec Geom.RotationProofs.
Local Open Scope R_scope.

(** *** turns about the coordinate axes, in degrees *)
Theorem C62_axis_turns_are_rotations : forall t, is_rotation (RotX t) /\ is_rotation (RotY t) /\ is_rotation (RotZ t).
Proof. exact rot_axes. Qed.
Print Assumptions C62_axis_turns_are_rotations.

Theorem C62_axis_turns_add : forall s t u,
  same_vec 3 (mat_vec 3 (RotX s) (mat_vec 3 (RotX t) u)) (mat_vec 3 (RotX (s + t)) u) /\
  same_vec 3 (mat_vec 3 (RotY s) (mat_vec 3 (RotY t) u)) (mat_vec 3 (RotY (s + t)) u) /\
  same_vec 3 (mat_vec 3 (RotZ s) (mat_vec 3 (RotZ t) u)) (mat_vec 3 (RotZ (s + t)) u).
Proof. exact rot_add. Qed.
Print Assumptions C62_axis_turns_add.

Theorem C62_zero_turn_is_identity : forall u,
  same_vec 3 (mat_vec 3 (RotX 0) u) u /\ same_vec 3 (mat_vec 3 (RotY 0) u) u /\ same_vec 3 (mat_vec 3 (RotZ 0) u) u.
Proof. exact rot_zero. Qed.
Print Assumptions C62_zero_turn_is_identity.

(** a quarter turn takes each axis to the next one and leaves its own *)
Theorem C62_quarter_turns :
  same_vec 3 (mat_vec 3 (RotX 90) axis_y) axis_z /\ same_vec 3 (mat_vec 3 (RotX 90) axis_x) axis_x /\
  same_vec 3 (mat_vec 3 (RotY 90) axis_z) axis_x /\ same_vec 3 (mat_vec 3 (RotY 90) axis_y) axis_y /\
  same_vec 3 (mat_vec 3 (RotZ 90) axis_x) axis_y /\ same_vec 3 (mat_vec 3 (RotZ 90) axis_z) axis_z.
Proof. exact rot_quarter. Qed.
Print Assumptions C62_quarter_turns.

(** *** turns about any axis, in radians *)
Theorem C62_any_axis_is_rotation : forall a, is_rotation (RotateAxis a) /\ same_vec 3 (mat_vec 3 (RotateAxis a) a) a.
Proof. exact (fun a => conj (RotateAxis_rotation a) (RotateAxis_axis a)). Qed.
Print Assumptions C62_any_axis_is_rotation.

Theorem C62_opposite_axis_undoes : forall a u, same_vec 3 (mat_vec 3 (RotateAxis (fun i => - a i)) (mat_vec 3 (RotateAxis a) u)) u.
Proof. exact RotateAxis_back. Qed.
Print Assumptions C62_opposite_axis_undoes.

(** the right-handed turn by the length of the vector: a direction at right angles to
    the unit axis [n] goes to cos t times itself plus sin t times the cross product *)
Theorem C62_any_axis_angle : forall t n u i, dot 3 n n = 1 -> smallR <= Rabs t -> (i < 3)%nat -> dot 3 n u = 0 ->
  mat_vec 3 (RotateAxis (fun k => t * n k)) u i = cos t * u i + sin t * cross n u i.
Proof. exact RotateAxis_angle. Qed.
Print Assumptions C62_any_axis_angle.

Theorem C62_agrees_with_axis_turn : forall t u, smallR <= Rabs (rad t) ->
  same_vec 3 (mat_vec 3 (RotateAxis (v3 0 0 (rad t))) u) (mat_vec 3 (RotZ t) u).
Proof. exact RotateAxis_Z. Qed.
Print Assumptions C62_agrees_with_axis_turn.

Theorem C62_any_axis_adds_partial : forall s t n u, dot 3 n n = 1 ->
  smallR <= Rabs s -> smallR <= Rabs t -> smallR <= Rabs (s + t) ->
  same_vec 3 (mat_vec 3 (RotateAxis (fun i => s * n i)) (mat_vec 3 (RotateAxis (fun i => t * n i)) u))
             (mat_vec 3 (RotateAxis (fun i => (s + t) * n i)) u).
Proof. exact RotateAxis_add. Qed.
Print Assumptions C62_any_axis_adds_partial.

(** turns below the threshold are dropped, so two of them are lost *)
Theorem C62_any_axis_adds_refuted : exists s t n u, dot 3 n n = 1 /\ 0 < s /\ 0 < t /\
  ~ same_vec 3 (mat_vec 3 (RotateAxis (fun i => s * n i)) (mat_vec 3 (RotateAxis (fun i => t * n i)) u))
               (mat_vec 3 (RotateAxis (fun i => (s + t) * n i)) u).
Proof. exact small_lost. Qed.
Print Assumptions C62_any_axis_adds_refuted.

(** *** cross products as matrices *)
Theorem C62_cross_matrix : forall a u,
  same_vec 3 (mat_vec 3 (CrossVecToMat a) u) (cross a u) /\ same_vec 3 (CrossMatToVec (CrossVecToMat a)) a.
Proof. exact (fun a u => conj (cross_mat a u) (cross_back a)). Qed.
Print Assumptions C62_cross_matrix.
Theorem C62_cross_matrix_back : forall M i j, (i < 3)%nat -> (j < 3)%nat -> (forall k l, M k l = - M l k) ->
  CrossVecToMat (CrossMatToVec M) i j = M i j.
Proof. exact cross_forth. Qed.
Print Assumptions C62_cross_matrix_back.

(** *** local bases of a face: orthonormal, right-handed, first the normal *)
Theorem C62_local_base3 : forall n, dot 3 n n = 1 -> orthonormal 3 (local_base3 n) /\ local_base3 n 0%nat = n /\
  same_vec 3 (cross (local_base3 n 0%nat) (local_base3 n 1%nat)) (local_base3 n 2%nat).
Proof. exact base3_ok. Qed.
Print Assumptions C62_local_base3.
Theorem C62_local_base2 : forall n, dot 2 n n = 1 -> orthonormal 2 (local_base2 n) /\ local_base2 n 0%nat = n /\
  local_base2 n 0%nat 0%nat * local_base2 n 1%nat 1%nat - local_base2 n 0%nat 1%nat * local_base2 n 1%nat 0%nat = 1.
Proof. exact base2_ok. Qed.
Print Assumptions C62_local_base2.

(** *** normals of faces from their Jacobian: at right angles to the face, as long as
    the area element, on the side of the cross product (right of the line) *)
Theorem C62_face_normal3 : forall J n, face_normal3 J = Ok n ->
  dot 3 n (J 0%nat) = 0 /\ dot 3 n (J 1%nat) = 0 /\
  sqnorm 3 n = sqnorm 3 (J 0%nat) * sqnorm 3 (J 1%nat) - dot 3 (J 0%nat) (J 1%nat) * dot 3 (J 0%nat) (J 1%nat) /\
  dot 3 n (cross (J 0%nat) (J 1%nat)) = sqnorm 3 n.
Proof. exact normal3_ok. Qed.
Print Assumptions C62_face_normal3.
Theorem C62_face_normal3_accepts : forall J, (exists n, face_normal3 J = Ok n) <-> same_vec 3 (J 2%nat) (fun _ => 0).
Proof. exact normal3_iff. Qed.
Print Assumptions C62_face_normal3_accepts.
Theorem C62_face_normal2 : forall J n, face_normal2 J = Ok n ->
  n 2%nat = 0 /\ dot 3 n (J 0%nat) = 0 /\ sqnorm 3 n = sqnorm 3 (J 0%nat) /\
  J 0%nat 0%nat * n 1%nat - J 0%nat 1%nat * n 0%nat = - sqnorm 3 n.
Proof. exact normal2_ok. Qed.
Print Assumptions C62_face_normal2.
Theorem C62_face_normal2_accepts : forall J, (exists n, face_normal2 J = Ok n) <->
  J 0%nat 2%nat = 0 /\ same_vec 3 (J 1%nat) (fun _ => 0) /\ same_vec 3 (J 2%nat) (fun _ => 0).
Proof. exact normal2_iff. Qed.
Print Assumptions C62_face_normal2_accepts.

(** *** the hypotheses are met *)
Example C62_met_unit : dot 3 (v3 (2/3) (1/3) (2/3)) (v3 (2/3) (1/3) (2/3)) = 1 /\ dot 2 (v3 (3/5) (4/5) 0) (v3 (3/5) (4/5) 0) = 1.
Proof. exact met_unit. Qed.
Example C62_met_angle : smallR <= Rabs 1 /\ dot 3 axis_z axis_x = 0 /\ smallR <= Rabs (rad 90).
Proof. exact met_angle. Qed.
Example C62_met_normal : face_normal3 (fun j => match j with 0%nat => v3 1 2 0 | 1%nat => v3 0 1 3 | _ => v3 0 0 0 end) = Ok (v3 (2 * 3 - 0 * 1) (0 * 0 - 1 * 3) (1 * 1 - 2 * 0)) /\
  face_normal2 (fun j => match j with 0%nat => v3 1 2 0 | _ => v3 0 0 0 end) = Ok (v3 2 (-1) 0).
Proof. exact met_normal. Qed.
