(** Model of src/Geom/Mesh_Elevation.cpp 439-582 BuildBisectO1FormO2: the cells and
    boundary elements of a second-order mesh are cut into first-order ones on the same
    nodes, on all ranks together and over the real numbers.

    Cells and nodes are named by their global numbers, as in Geom/ElevModel.  That every
    rank finds its cells to be of second order (IsO2, C41) is the assertion of 442.
    Element infos other than the type are only copied. *)
From Coq Require Import Reals List ZArith Bool.
From Verif Require Import Base.Prelude Geom.ElemModel Geom.PeriodicModel Geom.OrderModel Geom.ElevModel.
Import ListNotations.
Local Open Scope Z_scope.

(** Eigen minCoeff(&i): the first place of the least entry *)
Fixpoint minCoeff_from (i best : nat) (v : R) (l : list R) : nat :=
  match l with
  | [] => best
  | x :: l => if Rlt_dec x v then minCoeff_from (S i) i x l else minCoeff_from (S i) best v l
  end.
Definition minCoeff (l : list R) : nat := match l with [] => 0%nat | x :: l => minCoeff_from 1 0 x l end.

Definition distance (xs : list vec) (i j : Z) : res R :=
  do a <- vget xs i; do b <- vget xs j; Ok (vnorm (fun k => a k - b k)%R).
(** src/Geom/Elements.hpp 2503-2534 GetO2ElemBisectVariant: the shortest diagonal *)
Definition bisect_variant (t : ElemType) (xs : list vec) : res nat :=
  do _ <- assert_ (match GetOrder t with Some o => Nat.eqb o 2 | None => false end);
  match t with
  | Tet10 => do ls <- mapM (fun q : Z * Z => distance xs (fst q - 1) (snd q - 1)) [(5, 10); (6, 8); (7, 9)]; Ok (minCoeff ls)
  | Pyramid14 => do ls <- mapM (fun q : Z * Z => distance xs (fst q - 1) (snd q - 1)) [(10, 12); (11, 13)]; Ok (minCoeff ls)
  | _ => Ok 0%nat
  end.

(** 463-486; cell2cell is left empty, 578-581 *)
Definition bisect_cell (m : mesh) (c : cell) : res (list cell) :=
  do xs <- coords_on_cell m c;
  do v <- bisect_variant (c_type c) xs;
  mapM (fun k =>
    do ns <- ExtractO2BisectElemNodes (c_type c) k v (c_nodes c);
    do bs <- (if periodic m then ExtractO2BisectElemNodes (c_type c) k v (c_bits c) else Ok []);
    Ok {| c_type := GetO2ElemBisectElem (c_type c) k; c_nodes := ns; c_bits := bs; c_nb := [] |})
  (seq 0 (GetO2ElemBisectNum (c_type c))).

(** 537-544: the last node of the cell with the number [g] *)
Fixpoint coord_of (g : Z) (l : list (Z * vec)) (acc : option vec) : option vec :=
  match l with [] => acc | (h, x) :: l => coord_of g l (if h =? g then Some x else acc) end.
(** 522-560; the main cell must be on the same rank, numbers [lo] to [hi - 1] *)
Definition bisect_bnd (m : mesh) (lo hi : Z) (b : bnd) : res (list (ElemType * list Z)) :=
  do _ <- assert_ ((lo <=? b_cell b) && (b_cell b <? hi));
  do c <- vget (all_cells m) (b_cell b);
  do xs <- coords_on_cell m c;
  do ys <- mapM (fun g => match coord_of g (combine (c_nodes c) xs) None with Some x => Ok x | None => Abort end) (b_nodes b);
  do v <- bisect_variant (b_type b) ys;
  mapM (fun k => do ns <- ExtractO2BisectElemNodes (b_type b) k v (b_nodes b); Ok (GetO2ElemBisectElem (b_type b) k, ns))
    (seq 0 (GetO2ElemBisectNum (b_type b))).

(** what one rank holds afterwards; bnd2cell is left empty, 578-579 *)
Record bpart := { q_coords : list vec; q_cells : list cell; q_bnds : list (ElemType * list Z) }.
Fixpoint bisect_parts (m : mesh) (lo : Z) (ps : list part) : res (list bpart) :=
  match ps with
  | [] => Ok []
  | p :: ps =>
      let hi := lo + zlen (p_cells p) in
      do cs <- mapM (bisect_cell m) (p_cells p);
      do bs <- mapM (bisect_bnd m lo hi) (p_bnds p);
      do t <- bisect_parts m hi ps;
      Ok ({| q_coords := p_coords p; q_cells := concat cs; q_bnds := concat bs |} :: t)
  end.
Definition bisect (m : mesh) : res (list bpart) :=
  do _ <- assert_ (forallb (fun b => b) (IsO2 (map (fun p => map c_type (p_cells p)) (parts m))));
  bisect_parts m 0 (parts m).
