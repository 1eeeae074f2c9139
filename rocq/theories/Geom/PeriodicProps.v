(** C32: periodic transformations. *)
From Coq Require Import Reals ZArith List Bool.
From Verif Require Import Base.Prelude Geom.BoundaryModel Geom.PeriodicModel Geom.PeriodicSpec
  Geom.PeriodicProofs.
Import ListNotations.
Open Scope R_scope.

(** A point through a periodic boundary (main or donor id) and back, both ways. *)
Theorem C32_point_there_and_back p id c :
  well_formed 3 p -> FaceIDIsPeriodic id = true ->
  yields (do q <- TransCoord p c id; TransCoordBack p q id) (fun r => same_vec 3 r c) /\
  yields (do q <- TransCoordBack p c id; TransCoord p q id) (fun r => same_vec 3 r c).
Proof. exact (coord_roundtrip p id c). Qed.
Print Assumptions C32_point_there_and_back.

(** An id that is not periodic is refused. *)
Theorem C32_other_ids_refused p id c : FaceIDIsPeriodic id = false ->
  TransCoord p c id = Abort /\ TransCoordBack p c id = Abort.
Proof. exact (coord_not_periodic p id c). Qed.
Print Assumptions C32_other_ids_refused.

Theorem C32_vectors_there_and_back dim nVec p id v : dim = 2%nat \/ dim = 3%nat ->
  well_formed dim p -> FaceIDIsPeriodic id = true ->
  yields (do w <- TransVector dim p v id; TransVectorBack dim p w id)
    (fun r => same_mat dim nVec r v) /\
  yields (do w <- TransVectorBack dim p v id; TransVector dim p w id)
    (fun r => same_mat dim nVec r v).
Proof. exact (vector_roundtrip dim nVec p id v). Qed.
Print Assumptions C32_vectors_there_and_back.

Theorem C32_tensor_there_and_back dim p id m : dim = 2%nat \/ dim = 3%nat ->
  well_formed dim p -> FaceIDIsPeriodic id = true ->
  yields (do w <- TransMat dim p m id; TransMatBack dim p w id)
    (fun r => same_mat dim dim r m) /\
  yields (do w <- TransMatBack dim p m id; TransMat dim p w id)
    (fun r => same_mat dim dim r m).
Proof. exact (tensor_roundtrip dim p id m). Qed.
Print Assumptions C32_tensor_there_and_back.

(** Vectors move as differences of points do. *)
Theorem C32_vector_is_difference_of_points p id a b :
  well_formed 3 p -> FaceIDIsPeriodic id = true ->
  exists a' b' w, TransCoord p a id = Ok a' /\ TransCoord p b id = Ok b' /\
    TransVector 3 p (fun i _ => a i - b i) id = Ok w /\
    forall i, (i < 3)%nat -> w i 0%nat = a' i - b' i.
Proof. exact (vector_is_difference p id a b). Qed.
Print Assumptions C32_vector_is_difference_of_points.

(** A transformed tensor acts on transformed vectors as the tensor on vectors. *)
Theorem C32_tensor_acts_equivariantly dim nVec p id m v : dim = 2%nat \/ dim = 3%nat ->
  well_formed dim p -> FaceIDIsPeriodic id = true ->
  exists m' v' w', TransMat dim p m id = Ok m' /\ TransVector dim p v id = Ok v' /\
    TransVector dim p (mmul dim m v) id = Ok w' /\
    same_mat dim nVec (mmul dim m' v') w'.
Proof. exact (tensor_equivariant dim nVec p id m v). Qed.
Print Assumptions C32_tensor_acts_equivariantly.

(** The transformation preserves distances. *)
Theorem C32_distances_preserved p id a b a' b' : well_formed 3 p ->
  TransCoord p a id = Ok a' -> TransCoord p b id = Ok b' -> dist2 a' b' = dist2 a b.
Proof. exact (isometry p id a b a' b'). Qed.
Print Assumptions C32_distances_preserved.

(** The two sides of any face see each other through inverse maps, whether the
    face carries the main or the donor id, or none. *)
Theorem C32_two_sides_are_inverse p id c s : well_formed 3 p -> s = 0%Z \/ s = 1%Z ->
  yields (do q <- GetOtherCellPointFromCell p id s c; GetOtherCellPointFromCell p id (1 - s) q)
    (fun r => same_vec 3 r c).
Proof. exact (two_sides p id c s). Qed.
Print Assumptions C32_two_sides_are_inverse.

(** A point of the face keeps its coordinates on side 0; on side 1 it moves as
    any point of the side-0 cell does. *)
Theorem C32_face_points_move_with_the_side0_cell p id c :
  GetFacePointFromCell p id 0 c = Ok c /\
  GetFacePointFromCell p id 1 c = GetOtherCellPointFromCell p id 1 c.
Proof. exact (face_and_cell_frames p id c). Qed.
Print Assumptions C32_face_points_move_with_the_side0_cell.

(** Applying and un-applying the bits of a node, both ways, for every byte. *)
Theorem C32_bits_apply_unapply_points p b c : well_formed 3 p ->
  yields (do q <- GetCoordByBits p c b; GetCoordBackByBits p q b) (fun r => same_vec 3 r c) /\
  yields (do q <- GetCoordBackByBits p c b; GetCoordByBits p q b) (fun r => same_vec 3 r c).
Proof. exact (bits_coord p b c). Qed.
Print Assumptions C32_bits_apply_unapply_points.

Theorem C32_bits_apply_unapply_vectors dim n p b c : dim = 2%nat \/ dim = 3%nat ->
  well_formed dim p ->
  yields (do q <- GetVectorByBits dim p c b; GetVectorBackByBits dim p q b)
    (fun r => same_mat dim n r c) /\
  yields (do q <- GetVectorBackByBits dim p c b; GetVectorByBits dim p q b)
    (fun r => same_mat dim n r c).
Proof. exact (bits_vector dim n p b c). Qed.
Print Assumptions C32_bits_apply_unapply_vectors.

(** Reducing a row of bits keeps exactly the bits every node has. *)
Theorem C32_bit_reduction row :
  (getP1 (bitandReduce row) = forallb getP1 row) /\
  (getP2 (bitandReduce row) = forallb getP2 row) /\
  (getP3 (bitandReduce row) = forallb getP3 row).
Proof. exact (reduce_spec row). Qed.
Print Assumptions C32_bit_reduction.

(** Two rows collaborate exactly when their bits differ in the same way at
    every position; rows of different lengths are refused. *)
Theorem C32_collaborative_bits a b :
  (isCollaborativeNodePeriodicBits a b = Ok true <->
   length a = length b /\
   exists v, forall i x y, nth_error a i = Some x -> nth_error b i = Some y -> Z.lxor x y = v) /\
  (isCollaborativeNodePeriodicBits a b = Abort <-> length a <> length b).
Proof. exact (collaborative_spec a b). Qed.
Print Assumptions C32_collaborative_bits.

(** The default data and a quarter turn with centre and translation meet the
    hypotheses, and the latter moves the origin. *)
Example C32_default_well_formed n : well_formed n default_periodicity.
Proof. exact (default_well_formed n). Qed.
Example C32_turned_well_formed n : n = 2%nat \/ n = 3%nat -> well_formed n turned.
Proof. exact (turned_well_formed n). Qed.
Example C32_turned_moves : exists q, TransCoord turned vzero BC_ID_PERIODIC_1_DONOR = Ok q /\
  q 0%nat = 1 /\ q 1%nat = 1 /\ q 2%nat = 1.
Proof. exact turned_moves. Qed.
