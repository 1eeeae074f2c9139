(** C68: a polyMesh becomes hexahedra and boundary elements. *)
From Coq Require Import List ZArith Bool String Permutation.
From Verif Require Import Base.Prelude Geom.ElemModel Geom.BoundaryModel Geom.BisectSpec Geom.FoamModel Geom.FoamSpec Geom.FoamProofs Geom.FoamMore Geom.FoamExample.
Import ListNotations.
Local Open Scope list_scope.
Local Open Scope Z_scope.

(** A mesh of hexahedra whose boundary is divided into patches known by name is converted. *)
Theorem C68_hexahedra_converted : forall rename code d, hexahedral d -> patched rename code d -> exists m, convert rename code d = Ok m.
Proof. exact converts. Qed.
Print Assumptions C68_hexahedra_converted.

(** The points are kept and every cell becomes one hexahedron. *)
Theorem C68_counts : forall rename code d m, convert rename code d = Ok m ->
  s_coords m = points d /\ zlen (s_cells m) = num_cells d /\ forall t n, In (t, n) (s_cells m) -> t = Hex8.
Proof. exact count_ok. Qed.
Print Assumptions C68_counts.

(** Whatever the order of a cell's faces and wherever each of them starts, the eight nodes
    come out in an order in which the faces of the hexahedron are the cell's faces seen
    from outside. *)
Theorem C68_cell_recovered : forall rename code d m c h, convert rename code d = Ok m -> (forall f x, In f (faces d) -> In x f -> 0 <= x) ->
  0 <= c < num_cells d -> NoDup h -> bounds (outside d c) h ->
  exists n, nth_error (s_cells m) (Z.to_nat c) = Some (Hex8, n) /\ NoDup n /\ bounds (outside d c) n /\ Permutation n h.
Proof. exact cells_ok. Qed.
Print Assumptions C68_cell_recovered.

(** An inner face is a face of both its cells, in opposite senses. *)
Theorem C68_inner_face_shared : forall rename code d m k a b x, convert rename code d = Ok m -> hexahedral d ->
  nth_error (faces d) k = Some x -> nth_error (owner d) k = Some a -> nth_error (neighbour d) k = Some b ->
  exists na nb f g y z, nth_error (s_cells m) (Z.to_nat a) = Some (Hex8, na) /\ nth_error (s_cells m) (Z.to_nat b) = Some (Hex8, nb) /\
    ExtractFaceNodes Hex8 f na = Ok y /\ ExtractFaceNodes Hex8 g nb = Ok z /\ turned x y /\ turned (rev x) z.
Proof. exact between. Qed.
Print Assumptions C68_inner_face_shared.

(** The boundary elements are the faces without neighbour, in their order; each has the
    zone of the last patch that has it, and every one has a zone. *)
Theorem C68_boundary : forall rename code d m, convert rename code d = Ok m ->
  List.length (s_bnds m) = (List.length (owner d) - List.length (neighbour d))%nat /\
  forall i b, nth_error (s_bnds m) i = Some b ->
    nth_error (faces d) (List.length (neighbour d) + i) = Some (f_nodes b) /\ nth_error (owner d) (List.length (neighbour d) + i) = Some (f_cell b) /\
    List.length (f_nodes b) = GetNumNodes (f_type b) /\ GetDim (f_type b) = Some 2%nat /\
    f_zone b <> BC_ID_NULL /\ exists l name p r, patches d = l ++ (name, p) :: r /\ has d p i /\ (forall name' p', In (name', p') r -> ~ has d p' i) /\ f_zone b = zone_of rename code name.
Proof. exact bnds_ok. Qed.
Print Assumptions C68_boundary.

Theorem C68_boundary_faces_its_cell : forall rename code d m i b, convert rename code d = Ok m -> hexahedral d -> nth_error (s_bnds m) i = Some b ->
  exists n f y, nth_error (s_cells m) (Z.to_nat (f_cell b)) = Some (Hex8, n) /\ ExtractFaceNodes Hex8 f n = Ok y /\ turned (f_nodes b) y.
Proof. exact on_boundary. Qed.
Print Assumptions C68_boundary_faces_its_cell.

(** Cells with other faces than six quadrilaterals are refused. *)
Theorem C68_only_six_quadrilaterals : forall rename code d m c, convert rename code d = Ok m -> 0 <= c < num_cells d ->
  List.length (outside d c) = 6%nat /\ forall f, In f (outside d c) -> List.length f = 4%nat.
Proof. exact six_quads. Qed.
Print Assumptions C68_only_six_quadrilaterals.

(** But six quadrilaterals need not close a hexahedron: a square six times over is taken,
    and so is a box with a face turned the wrong way, whose boundary element then faces
    inwards. *)
Theorem C68_broken_cell_refused_refuted : exists d m n, convert no_rename codes d = Ok m /\ s_cells m = [(Hex8, n)] /\ ~ NoDup n.
Proof. exact (ex_intro _ six_squares six_squares_taken). Qed.
Print Assumptions C68_broken_cell_refused_refuted.

Theorem C68_wrong_face_refused_refuted : exists d m n b, convert no_rename codes d = Ok m /\ s_cells m = [(Hex8, n)] /\ In b (s_bnds m) /\
  forall f y, ExtractFaceNodes Hex8 f n = Ok y -> ~ turned (f_nodes b) y.
Proof. exact (ex_intro _ one_wrong one_wrong_taken). Qed.
Print Assumptions C68_wrong_face_refused_refuted.

(** The hypotheses are met by two boxes with a face in common. *)
Example C68_met : hexahedral boxes /\ patched no_rename codes boxes.
Proof. exact (conj boxes_hex boxes_patched). Qed.
Example C68_met_out : exists m, convert no_rename codes boxes = Ok m /\
  s_cells m = [(Hex8, [4; 7; 6; 5; 0; 3; 2; 1]); (Hex8, [5; 4; 8; 9; 6; 7; 11; 10])] /\ map f_zone (s_bnds m) = [20; 4; 4; 4; 4; 4; 4; 4; 4; 21].
Proof. exact boxes_out. Qed.
