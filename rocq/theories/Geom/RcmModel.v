(** Graph check and Cuthill-McKee ordering (src/Geom/CorrectRCM.hpp), and the
    wrapper that reorders a serial adjacency
    (src/Geom/SerialAdjReordering.hpp 126-177). *)
From Coq Require Import List ZArith Bool.
From Verif Require Import Base.Prelude Base.MPIModel.
Import ListNotations.
Local Open Scope Z_scope.

(** The adjacency lists; [graphFunctor(i)] is [cell2cellFaceV.at(i)]
    (SerialAdjReordering.hpp 148-149). *)
Definition graph := list (list Z).
Definition nvert (g : graph) : Z := zlen g.

Definition edge_eqb (a b : Z * Z) : bool := (fst a =? fst b) && (snd a =? snd b).
(** multiset::count *)
Definition ecount (e : Z * Z) (l : list (Z * Z)) : nat := length (filter (edge_eqb e) l).

(** CorrectRCM.hpp 54-65: the two multisets, as lists. *)
Definition edges_of (g : graph) : list (Z * Z) :=
  concat (map (fun ia => map (fun j => (Z.min j (fst ia), Z.max j (fst ia)))
                           (filter (fun j => negb (fst ia =? j)) (snd ia)))
            (combine (ranks (length g)) g)).
Definition directed_of (g : graph) : list (Z * Z) :=
  concat (map (fun ia => map (fun j => (fst ia, j))
                           (filter (fun j => negb (fst ia =? j)) (snd ia)))
            (combine (ranks (length g)) g)).

(** CorrectRCM.hpp 47-75 CheckAdj: raises, or returns 0. *)
Definition CheckAdj (checkParallel checkSymmetry : bool) (g : graph) : res Z :=
  do _ <- assert_ (negb checkParallel ||
                   forallb (fun e => Nat.eqb (ecount e (directed_of g)) 1) (directed_of g));
  do _ <- assert_ (negb checkSymmetry ||
                   forallb (fun e => Nat.eqb (ecount e (edges_of g)) 2) (edges_of g));
  Ok 0.

(** [v.at(i) = x]. *)
Definition vat_set {A} (l : list A) (i : Z) (x : A) : res (list A) :=
  if (0 <=? i) && (i <? zlen l) then Ok (upd (Z.to_nat i) x l) else Abort.

Section BFS.
  Context {St : Type}.
  (** [FNode(i, iLayer)] and the in-layer sort, which may look at the state and
      at the layers. *)
  Variable fnode : St -> Z -> Z -> res St.
  Variable inlayer : St -> list Z -> list Z -> res (list Z).
  Variable g : graph.

  (** CorrectRCM.hpp 114-118: queue the neighbours without a layer. *)
  Definition push_next (iLayer : Z) (x : list Z * list Z) (j : Z) : res (list Z * list Z) :=
    let (layer, new) := x in
    do lj <- vat layer j;
    if lj =? -1 then do layer' <- vat_set layer j (iLayer + 1); Ok (layer', new ++ [j])
    else Ok (layer, new).

  (** CorrectRCM.hpp 110-122: one vertex of the current layer; the vertices it
      adds to the next queue are sorted among themselves. *)
  Definition visit (iLayer : Z) (x : (list Z * list Z) * St) (i : Z)
    : res ((list Z * list Z) * St) :=
    let '((layer, next), s) := x in
    do s' <- fnode s i iLayer;
    do a <- vat g i;
    do r <- foldM (push_next iLayer) (layer, []) a;
    let (layer', new) := r in
    do new' <- inlayer s' layer' new;
    Ok ((layer', next ++ new'), s').

  (** CorrectRCM.hpp 106-125: at most nVertices layers ([k] of them left). *)
  Fixpoint layers (k : nat) (iLayer : Z) (layer cur : list Z) (s : St) : res (list Z * St) :=
    match k with
    | O => Ok (layer, s)
    | S k' =>
      match cur with
      | [] => Ok (layer, s)
      | _ =>
        do r <- foldM (visit iLayer) ((layer, []), s) cur;
        let '((layer', next), s') := r in
        layers k' (iLayer + 1) layer' next s'
      end
    end.

  (** CorrectRCM.hpp 96-126 BreadthFirstSearch. *)
  Definition bfs (root : Z) (s : St) : res (list Z * St) :=
    if (nvert g <=? root) || (root <? 0) then Abort
    else
      do layer <- vat_set (repeat (-1) (length g)) root 0;
      layers (length g) 0 layer [root] s.
End BFS.

(** CorrectRCM.hpp 149-157: the vertex of least degree in the last layer.
    State: cRootDegree, cRootLayer, nextRoot. *)
Definition pick_root (g : graph) (s : Z * Z * Z) (i iLayer : Z) : res (Z * Z * Z) :=
  let '(deg, lay, root) := s in
  do s1 <- (if lay <? iLayer then do a <- vat g i; Ok (zlen a, iLayer, i) else Ok (deg, lay, root));
  let '(deg1, lay1, root1) := s1 in
  if iLayer =? lay1 then
    do a <- vat g i;
    if zlen a <? deg1 then Ok (zlen a, lay1, i) else Ok (deg1, lay1, root1)
  else Ok (deg1, lay1, root1).

(** CorrectRCM.hpp 136, 140-142, 161-166: the numbers given so far, the next
    one, the unvisited set in increasing order. *)
Record cmk := { c_fill : list Z; c_top : Z; c_unv : list Z }.
Definition number (s : cmk) (i : Z) (_ : Z) : res cmk :=
  do f <- vat_set (c_fill s) i (c_top s);
  if existsb (Z.eqb i) (c_unv s) then
    Ok {| c_fill := f; c_top := c_top s + 1;
          c_unv := filter (fun j => negb (Z.eqb i j)) (c_unv s) |}
  else Abort.

(** CorrectRCM.hpp 168-180: the order inside a layer, by the least number among
    the neighbours that have a layer, then by degree.  (Both are fixed during
    the sort, so the comparison is that of a key.) *)
Definition pred_key (g : graph) (s : cmk) (layer : list Z) (i : Z) : res (Z * Z) :=
  do a <- vat g i;
  do m <- foldM (fun m k => do lk <- vat layer k;
                            if 0 <=? lk then do v <- vat (c_fill s) k; Ok (Z.min m v) else Ok m)
            (nvert g) a;
  Ok (m, zlen a).
Definition key_lt (a b : Z * Z) : bool :=
  if fst a =? fst b then snd a <? snd b else fst a <? fst b.
(** std::stable_sort of keyed elements: each is inserted after its equals. *)
Fixpoint insert_stable (x : (Z * Z) * Z) (l : list ((Z * Z) * Z)) : list ((Z * Z) * Z) :=
  match l with
  | [] => [x]
  | y :: t => if key_lt (fst x) (fst y) then x :: l else y :: insert_stable x t
  end.
Definition stable_sort (l : list ((Z * Z) * Z)) : list ((Z * Z) * Z) :=
  fold_left (fun acc x => insert_stable x acc) l [].
Definition by_pred (g : graph) (s : cmk) (layer : list Z) (new : list Z) : res (list Z) :=
  do ks <- mapM (fun i => do k <- pred_key g s layer i; Ok (k, i)) new;
  Ok (map snd (stable_sort ks)).
(** CorrectRCM.hpp 79-84: without a comparison the queue is left as it is. *)
Definition no_sort {St : Type} (_ : St) (_ : list Z) (new : list Z) : res (list Z) := Ok new.

(** The roots are passed through [std::forward<int>] (the wrapper's root is the
    literal 0), hence converted to [int]. *)
Definition to_int (x : Z) : Z := (x + 2 ^ 31) mod 2 ^ 32 - 2 ^ 31.

(** CorrectRCM.hpp 145-185: at most nVertices parts ([k] of them left). *)
Fixpoint parts_loop (g : graph) (k : nat) (nextRoot : Z) (s : cmk) : res cmk :=
  match k with
  | O => Ok s
  | S k' =>
    do a <- vat g nextRoot;
    do r <- bfs (pick_root g) no_sort g (to_int nextRoot) (zlen a, 0, nextRoot);
    let '(_, (_, _, root)) := r in
    do r2 <- bfs number (by_pred g) g (to_int root) s;
    let s' := snd r2 in
    match c_unv s' with
    | [] => Ok s'
    | u :: _ => parts_loop g k' u s'
    end
  end.

(** CorrectRCM.hpp 129-188 CuthillMcKeeOrdering, on a zero-filled vector. *)
Definition CuthillMcKee (g : graph) (root : Z) : res (list Z) :=
  do s <- parts_loop g (length g) root
            {| c_fill := repeat 0 (length g); c_top := 0; c_unv := ranks (length g) |};
  Ok (c_fill s).

(** SerialAdjReordering.hpp 141-143 and 171-174: the bandwidth under a
    numbering. *)
Definition bandwidth (g : graph) (num : Z -> res Z) : res Z :=
  foldM (fun b ia => foldM (fun b j => do x <- num (fst ia); do y <- num j;
                                       Ok (Z.max b (Z.abs (x - y)))) b (snd ia))
    0 (combine (ranks (length g)) g).

(** SerialAdjReordering.hpp 126-177 ReorderSerialAdj_CorrectRCM: new-to-old,
    old-to-new, the bandwidths before and after. *)
Definition Reorder (g : graph) : res ((list Z * list Z) * (Z * Z)) :=
  let n := nvert g in
  do bwOld <- bandwidth g (fun i => Ok i);
  do _ <- CheckAdj true true g;
  do fill <- CuthillMcKee g 0;
  let o2n := map (fun v => n - 1 - v) fill in
  do _ <- assert_ (forallb (fun v => (v <? n) && (0 <=? v)) o2n);
  do _ <- assert_ (Nat.eqb (length (nodup Z.eq_dec o2n)) (length o2n));
  do n2o <- foldM (fun acc iv => vset acc (snd iv) (fst iv)) (repeat 0 (length g))
              (combine (ranks (length g)) o2n);
  do _ <- assert_ (forallb (fun v => (v <? n) && (0 <=? v)) n2o);
  do bwNew <- bandwidth g (vget o2n);
  Ok ((n2o, o2n), (bwOld, bwNew)).
