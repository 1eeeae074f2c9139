(** Model of the export of a distributed mesh to a VTK file:
    src/Geom/Mesh_Serial_BuildCell2Cell.cpp 480-598 RecreatePeriodicNodes and 600-664
    BuildVTKConnectivity, src/Geom/Elements.hpp 2537-2640 ToVTKVertsAndData and
    src/Geom/Mesh_Plts.cpp 1228-1466 H5_WriteDataset and PrintParallelVTKHDFDataArray.

    The model is at the level of the whole communicator.  Cells name nodes by local
    numbers: the rank's own nodes, then its ghosts, which are given by their global numbers.
    The pull of ghost rows and its reverse are stated by what they deliver (C01 - C05);
    64-bit overflow is not modelled.  [P]: the points of space, [turn x b]: GetCoordByBits. *)
From Coq Require Import List ZArith Bool Arith.
From Verif Require Import Base.Prelude Base.MPIModel Geom.ElemModel Geom.AdjModel.
Import ListNotations.
Local Open Scope Z_scope.

(** Elements.hpp 2537-2640: the VTK type and the positions in the cell of the nodes listed. *)
Definition vtk_row (t : ElemType) : res (Z * list Z) :=
  match t with
  | Line2 => Ok (3, [0; 1])
  | Line3 => Ok (4, [0; 2; 1])
  | Tri3 => Ok (5, [0; 1; 2])
  | Tri6 => Ok (22, [0; 1; 2; 3; 4; 5])
  | Quad4 => Ok (9, [0; 1; 2; 3])
  | Quad9 => Ok (23, [0; 1; 2; 3; 4; 5; 6; 7])
  | Tet4 => Ok (10, [0; 1; 2; 3])
  | Tet10 => Ok (24, [0; 1; 2; 3; 4; 5; 6; 7; 8; 9])
  | Hex8 => Ok (12, [0; 1; 2; 3; 4; 5; 6; 7])
  | Hex27 => Ok (25, [0; 1; 2; 3; 4; 5; 6; 7; 8; 9; 10; 11; 16; 17; 18; 19; 12; 13; 14; 15])
  | Prism6 => Ok (13, [0; 1; 2; 3; 4; 5])
  | Prism18 => Ok (26, [0; 1; 2; 3; 4; 5; 6; 7; 8; 12; 13; 14; 9; 10; 11])
  | Pyramid5 => Ok (14, [0; 1; 2; 3; 4])
  | Pyramid14 => Ok (27, [0; 1; 2; 3; 4; 5; 6; 7; 8; 9; 10; 11; 12])
  | UnknownElem => Abort
  end.
Definition ToVTKVertsAndData (t : ElemType) (vin : list Z) : res (Z * list Z) :=
  do q <- vtk_row t; do l <- mapM (vget vin) (snd q); Ok (fst q, l).

(** cell2node and cell2nodePbi of a cell *)
Record cell := { c_type : ElemType; c_nodes : list Z; c_bits : list Z }.

Section Vtk.
Variable P : Type.
Variable turn : P -> Z -> res P.

(** What one rank holds: coords.father, the global numbers of coords.son, its cells. *)
Record part := { p_nodes : list P; p_ghosts : list Z; p_cells : list cell }.
Definition mesh := list part.
Definition nOwn (p : part) : Z := zlen (p_nodes p).

(** The first global number of each rank (C01). *)
Definition starts (sizes : list Z) : list Z := psums 0 sizes.

(** ** RecreatePeriodicNodes *)

(** cell2node(iC, ic2n) with cell2nodePbi(iC, ic2n) *)
Fixpoint zip (ns bs : list Z) : res (list (Z * Z)) :=
  match ns, bs with
  | [], _ => Ok []
  | n :: ns, b :: bs => do t <- zip ns bs; Ok ((n, b) :: t)
  | _ :: _, [] => UB
  end.
Definition corners (c : cell) : res (list (Z * Z)) := zip (c_nodes c) (c_bits c).

(** [0x01U << uint8_t(bits)] *)
Definition shl1 (b : Z) : res Z := if (0 <=? b) && (b <? 32) then Ok (2 ^ b) else UB.

(** 497-501: nodeNeedCreate, own nodes then ghosts *)
Definition mark_node (fl : list Z) (q : Z * Z) : res (list Z) :=
  do v <- vget fl (fst q); do s <- shl1 (snd q); vset fl (fst q) (Z.lor v s).
Definition mark_cell (fl : list Z) (c : cell) : res (list Z) :=
  do qs <- corners c; foldM mark_node fl qs.
Definition mark_part (p : part) : res (list Z) :=
  foldM mark_cell (repeat 1 (length (p_nodes p) + length (p_ghosts p))) (p_cells p).

(** 502-520: the flags of the ghosts go to the owners of the nodes, which add them to theirs.
    [msgs]: the flags of all ghosts of all ranks with the numbers of the nodes. *)
Definition sent (q : part * list Z) : list (Z * Z) :=
  combine (p_ghosts (fst q)) (skipn (length (p_nodes (fst q))) (snd q)).
Definition merge_one (start n : Z) (fl : list Z) (msg : Z * Z) : res (list Z) :=
  if (start <=? fst msg) && (fst msg <? start + n) then
    do v <- vget fl (fst msg - start); vset fl (fst msg - start) (Z.lor v (snd msg))
  else Ok fl.
Definition merge (msgs : list (Z * Z)) (start : Z) (q : part * list Z) : res (list Z) :=
  foldM (merge_one start (nOwn (fst q))) (firstn (length (p_nodes (fst q))) (snd q)) msgs.

(** 523-543: node2recreatedNodes, local numbers; [None] is UnInitIndex.  The second result is
    the size of coordsPeriodicRecreated. *)
Definition periods : list Z := [1; 2; 3; 4; 5; 6; 7].
Fixpoint number_bits (next flag : Z) (bs : list Z) : list (option Z) * Z :=
  match bs with
  | [] => ([], next)
  | b :: bs =>
      if Z.testbit flag b then let (r, n) := number_bits (next + 1) flag bs in (Some next :: r, n)
      else let (r, n) := number_bits next flag bs in (None :: r, n)
  end.
Fixpoint number_rows (i next : Z) (flags : list Z) : res (list (list (option Z)) * Z) :=
  match flags with
  | [] => Ok ([], next)
  | f :: fs =>
      do _ <- assert_ (Z.testbit f 0);
      let (r, n) := number_bits next f periods in
      do t <- number_rows (i + 1) n fs;
      Ok ((Some i :: r) :: fst t, snd t)
  end.

(** 546-566: coordsPeriodicRecreated and nodeRecreated2nodeLocal, as one vector of pairs; a
    point not yet written is [None]. *)
Definition slots := list (option P * Z).
Definition fill_bit (i : Z) (x : P) (st : slots) (q : Z * option Z) : res slots :=
  match snd q with
  | None => Ok st
  | Some k => do y <- turn x (fst q); vset st k (Some y, i)
  end.
Definition fill_node (st : slots) (q : Z * (P * list (option Z))) : res slots :=
  let '(i, (x, row)) := q in
  do st <- vset st i (Some x, i);
  foldM (fill_bit i x) st (combine periods (tl row)).
Definition fill (p : part) (rows : list (list (option Z))) (size : Z) : res slots :=
  foldM fill_node (repeat (None, 0) (Z.to_nat size))
    (combine (map Z.of_nat (seq 0 (length (p_nodes p)))) (combine (p_nodes p) rows)).

(** 567-572: global numbers, pulled for the ghosts *)
Definition shift (start : Z) (rows : list (list (option Z))) : list (list (option Z)) :=
  map (map (option_map (Z.add start))) rows.
Definition row_of (p : part) (own all : list (list (option Z))) (l : Z) : res (list (option Z)) :=
  if l <? nOwn p then vget own l else do g <- vget (p_ghosts p) (l - nOwn p); vget all g.
(** 579-592 *)
Definition corner (p : part) (own all : list (list (option Z))) (q : Z * Z) : res Z :=
  do row <- row_of p own all (fst q);
  do e0 <- vget row 0;
  if snd q =? 0 then Ok (match e0 with Some k => k | None => UnInitIndex end)
  else do e <- vget row (snd q); match e with Some k => Ok k | None => Abort end.
Definition recreate_cell (p : part) (own all : list (list (option Z))) (c : cell) : res (list Z) :=
  do qs <- corners c; mapM (corner p own all) qs.

(** coordsPeriodicRecreated with nodeRecreated2nodeLocal, and cell2nodePeriodicRecreated *)
Record newpart := { n_slots : slots; n_cells : list (list Z) }.

Definition flags (m : mesh) : res (list (list Z)) :=
  do fls <- mapM mark_part m;
  let msgs := concat (map sent (combine m fls)) in
  mapM (fun q => merge msgs (fst q) (snd q)) (combine (starts (map nOwn m)) (combine m fls)).

Definition recreate (m : mesh) : res (list newpart) :=
  do fls <- flags m;
  do nums <- mapM (fun q => number_rows 0 (nOwn (fst q)) (snd q)) (combine m fls);
  do sl <- mapM (fun q => fill (fst q) (fst (snd q)) (snd (snd q))) (combine m nums);
  let own := map (fun q => shift (fst q) (fst (snd q))) (combine (starts (map snd nums)) nums) in
  let all := concat own in
  do cs <- mapM (fun q => mapM (recreate_cell (fst q) (snd q) all) (p_cells (fst q))) (combine m own);
  Ok (map (fun q => {| n_slots := fst q; n_cells := snd q |}) (combine sl cs)).

(** ** BuildVTKConnectivity *)

(** Mesh.hpp 190-198 NodeIndexLocal2Global *)
Definition local2global (start : Z) (p : part) (l : Z) : res Z :=
  if l =? UnInitIndex then Ok l else
  if l <? 0 then Ok (-1 - l) else
  if l <? nOwn p then Ok (start + l) else vat (p_ghosts p) (l - nOwn p).

(** vtkCell2nodeOffsets, vtkCellType, vtkCell2node, vtkNodeOffset, vtkCellOffset,
    vtkCell2NodeGlobalSiz, vtkNCellGlobal, vtkNNodeGlobal *)
Record vtk := { v_off : list Z; v_type : list Z; v_conn : list Z; v_node_off : Z; v_cell_off : Z;
                v_conn_size : Z; v_ncell : Z; v_nnode : Z }.

(** 610-635 on one rank: types, numbers of nodes, and the connectivity, appended to what the
    vector held.  [new]: the recreated rows of a periodic mesh. *)
Definition conn_cell (start : Z) (p : part) (q : cell * option (list Z)) : res (list Z) :=
  match snd q with
  | None => do v <- ToVTKVertsAndData (c_type (fst q)) (c_nodes (fst q)); mapM (local2global start p) (snd v)
  | Some row => do v <- ToVTKVertsAndData (c_type (fst q)) row; Ok (snd v)
  end.
Definition conn_part (start : Z) (p : part) (new : option newpart) (old : list Z) : res (list Z * list Z * list Z) :=
  do heads <- mapM (fun c => ToVTKVertsAndData (c_type c) (c_nodes c)) (p_cells p);
  let rows := match new with
              | None => map (fun _ => None) (p_cells p)
              | Some n => map (fun r => Some r) (n_cells n)
              end in
  do conn <- mapM (conn_cell start p) (combine (p_cells p) rows);
  Ok (map fst heads, map (fun h => zlen (snd h)) heads, old ++ concat conn).

(** the size of the vector of coordinates written *)
Definition out_size (q : part * option newpart) : Z :=
  match snd q with None => nOwn (fst q) | Some n => zlen (n_slots n) end.

(** MPI::Scan followed by the subtraction of the own value (637-638, 646-650) *)
Definition exclusive (l : list Z) : list Z := map (fun q => fst q - snd q) (combine (scan_sum l) l).

(** [news]: what RecreatePeriodicNodes made, [None] if the mesh is not periodic *)
Definition build (m : mesh) (news : list (option newpart)) (olds : list (list Z)) : res (list vtk) :=
  do loc <- mapM (fun q => let '(s, (p, (n, o))) := q in conn_part s p n o)
              (combine (starts (map nOwn m)) (combine m (combine news olds)));
  let sizes := map (fun t => zsum (snd (fst t))) loc in
  let nodes := map out_size (combine m news) in
  let cells := map (fun p => zlen (p_cells p)) m in
  let conns := map (fun t => zlen (snd t)) loc in
  Ok (map (fun q => let '(t, (so, (no, co))) := q in
        {| v_off := map (fun v => v + so) (psums 0 (snd (fst t))); v_type := fst (fst t); v_conn := snd t;
           v_node_off := no; v_cell_off := co;
           v_conn_size := zsum conns; v_ncell := zsum cells; v_nnode := zsum nodes |})
      (combine loc (combine (exclusive sizes) (combine (exclusive nodes) (exclusive cells))))).

(** ** PrintParallelVTKHDFDataArray *)

(** Mesh_Plts.cpp 1228-1254 on all ranks: a dataset of [n] elements, nothing in it, into which
    the ranks write their slabs in the order [sched]; a slab outside is an HDF5 error. *)
Definition put {A} (n : Z) (calls : list (Z * list (option A))) (sched : list nat) : res (list (option A)) :=
  do _ <- assert_ ((0 <=? n) && forallb (fun c => 0 <=? fst c) calls);
  foldM (fun d r => match nth_error calls r with
                    | None => UB
                    | Some c => match write_at d (fst c) (snd c) with Ok d' => Ok d' | _ => Abort end
                    end) (repeat None (Z.to_nat n)) sched.

Definition out_points (q : part * option newpart) : list (option P) :=
  match snd q with None => map Some (p_nodes (fst q)) | Some n => map fst (n_slots n) end.

Record grid := { f_ncells : Z; f_npoints : Z; f_nconn : Z;
                 f_points : list (option P); f_offsets : list (option Z);
                 f_types : list (option Z); f_conn : list (option Z) }.

(** 1278-1304, 1370-1395.  [s1] - [s4]: the orders of the writes into the four datasets. *)
Definition print_grid (m : mesh) (news : list (option newpart)) (vs : list vtk) (s1 s2 s3 s4 : list nat) : res grid :=
  match vs with
  | [] => UB
  | v0 :: _ =>
    let last_ := (length vs - 1)%nat in
    do _ <- assert_ (zsum (map out_size (combine m news)) =? v_nnode v0);
    do _ <- assert_ (zsum (map (fun p => zlen (p_cells p)) m) =? v_ncell v0);
    do pts <- put (v_nnode v0) (map (fun q => (v_node_off (fst q), out_points (snd q))) (combine vs (combine m news))) s1;
    do _ <- assert_ (forallb (fun q => zlen (v_off (fst q)) =? zlen (p_cells (snd q)) + 1) (combine vs m));
    do offs <- put (v_ncell v0 + 1)
      (map (fun q => let '(r, (v, p)) := q in
         (v_cell_off v, map Some (firstn (length (p_cells p) + (if Nat.eqb r last_ then 1 else 0)) (v_off v))))
         (combine (seq 0 (length vs)) (combine vs m))) s2;
    do types <- put (v_ncell v0) (map (fun v => (v_cell_off v, map Some (v_type v))) vs) s3;
    do conn <- put (v_conn_size v0) (map (fun v => (hd 0 (v_off v), map Some (v_conn v))) vs) s4;
    Ok {| f_ncells := v_ncell v0; f_npoints := v_nnode v0; f_nconn := v_conn_size v0;
          f_points := pts; f_offsets := offs; f_types := types; f_conn := conn |}
  end.

(** 1399-1423: an array on the cells; [data r]: what the caller gives for the cells of rank [r],
    all components of a vector at once. *)
Definition print_cells {D} (m : mesh) (vs : list vtk) (data : nat -> Z -> D) (s : list nat) : res (list (option D)) :=
  match vs with
  | [] => UB
  | v0 :: _ =>
    put (v_ncell v0)
      (map (fun q => let '(r, (v, p)) := q in
         (v_cell_off v, map (fun i => Some (data r (Z.of_nat i))) (seq 0 (length (p_cells p)))))
         (combine (seq 0 (length vs)) (combine vs m))) s
  end.

(** 1424-1458: an array on the points; the caller gives values for the nodes of the mesh. *)
Definition point_values {D} (data : Z -> D) (q : part * option newpart) : list (option D) :=
  match snd q with
  | None => map (fun i => Some (data (Z.of_nat i))) (seq 0 (length (p_nodes (fst q))))
  | Some n => map (fun s => Some (data (snd s))) (n_slots n)
  end.
Definition print_points {D} (m : mesh) (news : list (option newpart)) (vs : list vtk) (data : nat -> Z -> D)
    (s : list nat) : res (list (option D)) :=
  match vs with
  | [] => UB
  | v0 :: _ =>
    put (v_nnode v0)
      (map (fun q => let '(r, (v, pn)) := q in (v_node_off v, point_values (data r) pn))
         (combine (seq 0 (length vs)) (combine vs (combine m news)))) s
  end.

(** The calls in their order (EulerSolver_Init.hxx 336-337, then the output). *)
Definition prepare (periodic : bool) (m : mesh) : res (list (option newpart) * list vtk) :=
  do news <- (if periodic then do n <- recreate m; Ok (map (fun x => Some x) n) else Ok (map (fun _ => None) m));
  do vs <- build m news (map (fun _ => []) m);
  Ok (news, vs).
Definition export_grid (periodic : bool) (m : mesh) (s1 s2 s3 s4 : list nat) : res grid :=
  do q <- prepare periodic m; print_grid m (fst q) (snd q) s1 s2 s3 s4.
Definition export_cells {D} (periodic : bool) (m : mesh) (data : nat -> Z -> D) (s : list nat) : res (list (option D)) :=
  do q <- prepare periodic m; print_cells m (snd q) data s.
Definition export_points {D} (periodic : bool) (m : mesh) (data : nat -> Z -> D) (s : list nat) : res (list (option D)) :=
  do q <- prepare periodic m; print_points m (fst q) (snd q) data s.
End Vtk.
Arguments p_nodes {P}. Arguments p_ghosts {P}. Arguments p_cells {P}. Arguments Build_part {P}.
Arguments nOwn {P}. Arguments n_slots {P}. Arguments n_cells {P}. Arguments Build_newpart {P}.
Arguments mark_part {P}. Arguments sent {P}. Arguments merge {P}. Arguments flags {P}.
Arguments fill_bit {P}. Arguments fill_node {P}. Arguments fill {P}.
Arguments row_of {P}. Arguments corner {P}. Arguments recreate_cell {P}. Arguments recreate {P}.
Arguments local2global {P}. Arguments conn_cell {P}. Arguments conn_part {P}. Arguments out_size {P}.
Arguments build {P}. Arguments out_points {P}. Arguments print_grid {P}. Arguments print_cells {P D}.
Arguments point_values {P D}. Arguments print_points {P D}. Arguments prepare {P}.
Arguments export_grid {P}. Arguments export_cells {P} turn {D}. Arguments export_points {P} turn {D}.
Arguments f_ncells {P}. Arguments f_npoints {P}. Arguments f_nconn {P}. Arguments f_points {P}.
Arguments f_offsets {P}. Arguments f_types {P}. Arguments f_conn {P}. Arguments Build_grid {P}.
