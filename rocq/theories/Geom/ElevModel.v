(** Model of src/Geom/Mesh_Elevation.cpp 22-437 BuildO2FromO1Elevation: a mesh of
    first-order cells gets a node in the middle of every edge, quadrilateral and
    hexahedron, on all ranks together and over the real numbers.

    Cells and nodes are named by their global numbers (the position in the list over
    all ranks); that the local numbers, the ghost layer and the pulls give the
    same is C01 - C05 and C35.  IsO1 (C41) is taken to hold: a cell of
    another type is [Abort].  Element infos other than the type are only copied. *)
From Coq Require Import Reals List ZArith Bool.
From Verif Require Import Base.Prelude Geom.ElemModel Geom.PeriodicModel.
Import ListNotations.
Local Open Scope Z_scope.

(** cell2node, cell2nodePbi and cell2cell of a cell *)
Record cell := { c_type : ElemType; c_nodes : list Z; c_bits : list Z; c_nb : list Z }.
(** bnd2node and bnd2cell(., 0) *)
Record bnd := { b_type : ElemType; b_nodes : list Z; b_cell : Z }.
(** what one rank holds *)
Record part := { p_coords : list vec; p_cells : list cell; p_bnds : list bnd }.
Record mesh := { periodic : bool; info : Periodicity; parts : list part }.

Definition all_coords (m : mesh) : list vec := concat (map p_coords (parts m)).
Definition all_cells (m : mesh) : list cell := concat (map p_cells (parts m)).

(** std::includes on sorted ranges *)
Fixpoint includes (a b : list Z) : bool :=
  match b with
  | [] => true
  | y :: b' =>
      match a with
      | [] => false
      | x :: a' => if y <? x then false else if x <? y then includes a' b else includes a' b'
      end
  end.

(** Mesh.hpp GetCoordsOnCell *)
Definition coords_on_cell (m : mesh) (c : cell) : res (list vec) :=
  if periodic m then
    if Nat.eqb (length (c_bits c)) (length (c_nodes c)) then
      mapM (fun q => do x <- vget (all_coords m) (fst q); GetCoordByBits (info m) x (snd q)) (combine (c_nodes c) (c_bits c))
    else UB
  else mapM (vget (all_coords m)) (c_nodes c).

Definition mean (l : list vec) : vec := fun i => (fold_right (fun v s => v i + s) 0 l / INR (length l))%R.

(** 67-84, 264-289: the place of a new node, moved back by the periods common to its
    span, and these periods *)
Definition place (m : mesh) (c : cell) (k : nat) : res (vec * Z) :=
  do cs <- coords_on_cell m c;
  do sp <- ExtractElevNodeSpanNodes (c_type c) k cs;
  if periodic m then
    do bs <- ExtractElevNodeSpanNodes (c_type c) k (c_bits c);
    let b := bitandReduce bs in
    do y <- GetCoordBackByBits (info m) (mean sp) b; Ok (y, b)
  else Ok (mean sp, 0).

(** 86-103: the neighbour with the least number below the cell's own that holds all
    nodes of the span; its position in cell2cell *)
Definition owner_step (cells : list cell) (me : Z) (sp : list Z) (st : Z * option nat) (q : nat * Z) : res (Z * option nat) :=
  if snd q =? me then Ok st else
  do c <- vget cells (snd q);
  Ok (if (snd q <? fst st) && includes (zsort (c_nodes c)) (zsort sp) then (snd q, Some (fst q)) else st).
Definition owner (cells : list cell) (me : Z) (sp : list Z) (nb : list Z) : res (option nat) :=
  do st <- foldM (owner_step cells me sp) (me, None) (combine (seq 0 (length nb)) nb);
  Ok (snd st).

(** 49-119 for one cell: for each span the place, and [None] when the node is the cell's
    own.  The numbers are given out in a second pass, below. *)
Definition answer := (vec * option nat)%type.
Definition ask_span (m : mesh) (i : Z) (c : cell) (k : nat) : res answer :=
  do sp <- ExtractElevNodeSpanNodes (c_type c) k (c_nodes c);
  do x <- place m c k;
  do o <- owner (all_cells m) i sp (c_nb c);
  Ok (fst x, o).
Definition num_spans (t : ElemType) : res nat :=
  match GetElemElevation_O1O2_NumNode t with Some n => Ok n | None => Abort end.
Definition ask_cell (m : mesh) (i : Z) (c : cell) : res (list answer) :=
  do n <- num_spans (c_type c); mapM (ask_span m i c) (seq 0 n).
Fixpoint ask_cells (m : mesh) (i : Z) (cs : list cell) : res (list (list answer)) :=
  match cs with
  | [] => Ok []
  | c :: cs => do r <- ask_cell m i c; do rs <- ask_cells m (i + 1) cs; Ok (r :: rs)
  end.
Fixpoint ask_parts (m : mesh) (i : Z) (ps : list part) : res (list (list vec * list (list answer))) :=
  match ps with
  | [] => Ok []
  | p :: ps => do rows <- ask_cells m i (p_cells p);
               do t <- ask_parts m (i + zlen (p_cells p)) ps;
               Ok ((p_coords p, rows) :: t)
  end.

(** 104-112, 128-163: cellNewNodes; new nodes are numbered behind the old ones of the
    rank, in the order in which they are met.  A negative entry is [Ask]. *)
Inductive entry := Node (g : Z) | Ask (p : nat).
Fixpoint number (b : Z) (l : list answer) : list entry :=
  match l with
  | [] => []
  | (_, None) :: l => Node b :: number (b + 1) l
  | (_, Some p) :: l => Ask p :: number b l
  end.
Definition news (l : list answer) : list vec := flat_map (fun q : answer => match snd q with None => [fst q] | Some _ => [] end) l.
Fixpoint number_rows (b : Z) (rows : list (list answer)) : list (list entry) :=
  match rows with
  | [] => []
  | r :: rows => number b r :: number_rows (b + zlen (news r)) rows
  end.
Fixpoint number_parts (start : Z) (ps : list (list vec * list (list answer))) : list (list entry) :=
  match ps with
  | [] => []
  | (X, rows) :: ps =>
      number_rows (start + zlen X) rows ++ number_parts (start + zlen X + zlen (news (concat rows))) ps
  end.
(** 128-137 coords of each rank *)
Definition new_coords (ps : list (list vec * list (list answer))) : list (list vec) :=
  map (fun p => fst p ++ news (concat (snd p))) ps.

(** 223-231: the number of an old node: rank and position stay.  [ps]: how many old
    and how many new nodes each rank holds. *)
Fixpoint renumber_from (ps : list (Z * Z)) (start g : Z) : res Z :=
  match ps with
  | [] => Abort
  | (o, n) :: ps => if g <? o then Ok (start + g) else renumber_from ps (start + n) (g - o)
  end.
Definition renumber (ps : list (Z * Z)) (g : Z) : res Z := if g <? 0 then Abort else renumber_from ps 0 g.
Definition sizes (ps : list (list vec * list (list answer))) : list (Z * Z) :=
  map (fun p => (zlen (fst p), zlen (fst p) + zlen (news (concat (snd p))))) ps.

(** 300-324: the search among the nodes the owner has given out *)
Definition near (x y : vec) : bool := if Rlt_dec (sumn 3 (fun i => (x i - y i) * (x i - y i)))%R (/ 10 ^ 20)%R then true else false.
Definition look_step (X2 : list vec) (x : vec) (st : nat * Z) (e : entry) : res (nat * Z) :=
  match e with
  | Ask _ => Ok st
  | Node g => do y <- vget X2 g; Ok (if near y x then (S (fst st), g) else st)
  end.
Definition look (X2 : list vec) (row : list entry) (x : vec) : res Z :=
  do st <- foldM (look_step X2 x) (0%nat, -1) row;
  if Nat.eqb (fst st) 1 then Ok (snd st) else Abort.
(** 254-329: one new entry of cell2node and cell2nodePbi *)
Definition fill_span (m : mesh) (X2 : list vec) (rows : list (list entry)) (c : cell) (q : nat * entry) : res (Z * Z) :=
  do x <- place m c (fst q);
  match snd q with
  | Node g => Ok (g, snd x)
  | Ask p => do o <- vget (c_nb c) (Z.of_nat p); do row <- vget rows o; do g <- look X2 row (fst x); Ok (g, snd x)
  end.
(** 208-247, 250-329 *)
Definition fill_cell (m : mesh) (ps : list (Z * Z)) (X2 : list vec) (rows : list (list entry)) (q : cell * list entry) : res cell :=
  let c := fst q in
  do old <- mapM (renumber ps) (c_nodes c);
  do new <- mapM (fill_span m X2 rows c) (combine (seq 0 (length (snd q))) (snd q));
  Ok {| c_type := GetElemElevation_O1O2_ElevatedType (c_type c); c_nodes := old ++ map fst new;
        c_bits := if periodic m then c_bits c ++ map snd new else c_bits c; c_nb := c_nb c |}.

(** 363-410: a boundary element becomes the only face of its cell that holds its nodes;
    the cell must be on the same rank, numbers [lo] to [hi - 1] *)
Definition face_step (c2 : cell) (b2n : list Z) (st : nat * (list Z * ElemType)) (f : nat) : res (nat * (list Z * ElemType)) :=
  do ft <- ObtainFace (c_type c2) f;
  do fn <- ExtractFaceNodes (c_type c2) f (c_nodes c2);
  Ok (if includes (zsort fn) (zsort b2n) then (S (fst st), (fn, ft)) else st).
Definition fill_bnd (ps : list (Z * Z)) (cells2 : list cell) (lo hi : Z) (b : bnd) : res bnd :=
  if (lo <=? b_cell b) && (b_cell b <? hi) then
    do c2 <- vget cells2 (b_cell b);
    do b2n <- mapM (renumber ps) (b_nodes b);
    do st <- foldM (face_step c2 b2n) (0%nat, ([], UnknownElem)) (seq 0 (GetNumFaces (c_type c2)));
    if Nat.eqb (fst st) 1 then Ok {| b_type := snd (snd st); b_nodes := fst (snd st); b_cell := b_cell b |} else Abort
  else UB.
Fixpoint fill_bnds (ps : list (Z * Z)) (cells2 : list cell) (lo : Z) (l : list part) : res (list bnd) :=
  match l with
  | [] => Ok []
  | p :: l => let hi := lo + zlen (p_cells p) in
              do bs <- mapM (fill_bnd ps cells2 lo hi) (p_bnds p);
              do t <- fill_bnds ps cells2 hi l; Ok (bs ++ t)
  end.

(** 22-437: the new coordinates by rank; cells and boundary elements stay where they are *)
Record elevated := { o_coords : list (list vec); o_cells : list cell; o_bnds : list bnd }.
Definition elevate (m : mesh) : res elevated :=
  do ps <- ask_parts m 0 (parts m);
  let rows := number_parts 0 ps in
  do cells2 <- mapM (fill_cell m (sizes ps) (concat (new_coords ps)) rows) (combine (all_cells m) rows);
  do bs <- fill_bnds (sizes ps) cells2 0 (parts m);
  Ok {| o_coords := new_coords ps; o_cells := cells2; o_bnds := bs |}.

(** *** 584-611: where a new node on a smooth boundary is moved to.  [n0], [n1]: the
    normals at the ends, zero when there is none. *)
Definition vcross (u v : vec) : vec := fun i => match i with
  | 0%nat => u 1%nat * v 2%nat - u 2%nat * v 1%nat | 1%nat => u 2%nat * v 0%nat - u 0%nat * v 2%nat
  | _ => u 0%nat * v 1%nat - u 1%nat * v 0%nat end%R.
Definition vnorm (u : vec) : R := sqrt (sumn 3 (fun i => u i * u i)%R).
(** Eigen stableNormalized: a zero vector is left alone *)
Definition vunit (u : vec) : vec := if Rlt_dec 0 (vnorm u) then (fun i => u i / vnorm u)%R else u.
Definition tangent (c01 n : vec) : vec :=
  let t := (fun i => - vcross (vcross (vunit c01) n) n i)%R in (fun i => vunit t i * vnorm c01)%R.
Definition line_mid (c0 c1 n0 n1 : vec) : vec :=
  let c01 := (fun i => c1 i - c0 i)%R in
  let t0 := tangent c01 n0 in
  let t1 := tangent c01 n1 in
  let z0 := if Req_EM_T (vnorm n0) 0 then true else false in
  let z1 := if Req_EM_T (vnorm n1) 0 then true else false in
  match z0, z1 with
  | true, false => fun i => (1/4 * c0 i + 3/4 * c1 i - 1/4 * t1 i)%R
  | false, true => fun i => (3/4 * c0 i + 1/4 * c1 i + 1/4 * t0 i)%R
  | true, true => fun i => (1/2 * (c0 i + c1 i))%R
  | false, false => fun i => (1/2 * (c0 i + c1 i) + 1/8 * (t0 i - t1 i))%R
  end.
Definition quad_mid (c0 c1 c2 c3 n0 n1 n2 n3 : vec) : vec :=
  let c01 := line_mid c0 c1 n0 n1 in let c12 := line_mid c1 c2 n1 n2 in
  let c23 := line_mid c2 c3 n2 n3 in let c30 := line_mid c3 c0 n3 n0 in
  fun i => (1/2 * (c01 i + c12 i + c23 i + c30 i) - 1/4 * (c0 i + c1 i + c2 i + c3 i))%R.
