(** What the interpolation of faces is meant to do. *)
From Coq Require Import List ZArith Bool Arith Permutation.
From Verif Require Import Base.Prelude DNDS.IndexMappingModel DNDS.IndexMappingSpec
  Geom.ElemModel Geom.AdjModel Geom.AdjSpec Geom.NodeCellModel Geom.FaceModel.
Import ListNotations.
Local Open Scope Z_scope.

(** Two sides belong to the same face: same type and same vertices; on a periodic mesh one
    lies on the other after one and the same periodic shift of all nodes. *)
Definition same_face (isPeriodic : bool) (s o : side) : Prop :=
  s_type s = s_type o /\ Permutation (s_verts s) (s_verts o) /\
  (isPeriodic = true -> exists v, forall n b b',
     In (n, b) (combine (s_nodes s) (s_bits s)) -> In (n, b') (combine (s_nodes o) (s_bits o)) ->
     Z.lxor b b' = v).

(** The sides of the cells, a list for each cell, are usable: nodes exist; on a periodic
    mesh a side does not use a node twice and sides of the same type with the same vertices
    have the same nodes. *)
Definition side_ok (isPeriodic : bool) (nNode : nat) (s : side) : Prop :=
  s_verts s <> [] /\ Forall (fun v => 0 <= v < Z.of_nat nNode) (s_verts s) /\
  (isPeriodic = true -> NoDup (s_nodes s) /\ length (s_bits s) = length (s_nodes s)).
Definition sides_ok (isPeriodic : bool) (nNode : nat) (css : list (list side)) : Prop :=
  Forall (side_ok isPeriodic nNode) (concat css) /\
  (isPeriodic = true -> forall s o, In s (concat css) -> In o (concat css) ->
     s_type s = s_type o -> Permutation (s_verts s) (s_verts o) -> Permutation (s_nodes s) (s_nodes o)).

(** Side [k] of cell [c]; face of side [k] of cell [c]. *)
Definition at_ {A} (rows : list (list A)) (c k : nat) (x : A) : Prop :=
  exists row, nth_error rows c = Some row /\ nth_error row k = Some x.

(** No three sides belong to the same face. *)
Definition two_at_most (isPeriodic : bool) (css : list (list side)) : Prop :=
  forall i j k si sj sk, (i < j < k)%nat ->
    nth_error (concat css) i = Some si -> nth_error (concat css) j = Some sj -> nth_error (concat css) k = Some sk ->
    same_face isPeriodic si sj -> same_face isPeriodic si sk -> False.

(** The cells which have face [f], in ascending order, once for each side. *)
Definition cells_of (c2f : list (list Z)) (f : Z) : list Z :=
  concat (map (fun ir => map (fun _ => fst ir) (filter (Z.eqb f) (snd ir))) (indexed c2f)).

(** What the faces [fs] and the faces [rows] of the cells must be: every side of a cell has
    a face, two sides have the same face exactly when they are the same face, every face is
    made from a side of its first cell, and its one or two cells are those that have it. *)
Definition faces_spec (isPeriodic : bool) (css : list (list side)) (fs : list face) (rows : list (list Z)) : Prop :=
  Forall2 (fun ss row => length ss = length row) css rows /\
  (forall c k s f, at_ css c k s -> at_ rows c k f -> 0 <= f < zlen fs) /\
  (forall c k s f c' k' s' f', at_ css c k s -> at_ rows c k f -> at_ css c' k' s' -> at_ rows c' k' f' ->
     (f = f' <-> same_face isPeriodic s s')) /\
  (forall i fc, nth_error fs i = Some fc ->
     (exists c k, f_first fc = Z.of_nat c /\ at_ css c k (f_side fc) /\ at_ rows c k (Z.of_nat i)) /\
     cells_of rows (Z.of_nat i)
       = if f_second fc =? UnInitIndex then [f_first fc] else [f_first fc; f_second fc]).

(** The rank that owns the cell at local place [x] of rank [r]. *)
Definition cell_rank (lens : list nat) (r : nat) (m : ghostmap) (x : Z) : option nat :=
  match local_item lens r m (Z.to_nat x) with
  | Some q => match item_at lens q with Some (s, _) => Some s | None => None end
  | None => None
  end.

(** Rank [r] has the first cell of the face, rank [s] the second. *)
Definition between (lens : list nat) (r : nat) (m : ghostmap) (s : nat) (f : face) : Prop :=
  f_first f < Z.of_nat (nth r lens 0%nat) <= f_second f /\ cell_rank lens r m (f_second f) = Some s.

(** The numbers [nums] that rank [r] gives to its faces: a face of own cells only is
    numbered, a face of ghost cells only is discarded, a face between two ranks is numbered
    by the lower one, which sends it to the other.  The [n] numbers are consecutive. *)
Definition numbers_spec (lens : list nat) (r : nat) (m : ghostmap) (fs : list face)
  (nums : list Z) (send : list (list Z)) (n : nat) : Prop :=
  let own := Z.of_nat (nth r lens 0%nat) in
  length nums = length fs /\ length send = length lens /\
  (forall i f k, nth_error fs i = Some f -> nth_error nums i = Some k ->
     (f_first f < own -> f_second f < own -> 0 <= k) /\
     (own <= f_first f -> k = UnInitIndex) /\
     (forall s, between lens r m s f -> (r < s)%nat -> 0 <= k) /\
     (forall s, between lens r m s f -> (s < r)%nat -> k = -1)) /\
  filter (fun k => 0 <=? k) nums = map Z.of_nat (seq 0 n) /\
  (forall s row, nth_error send s = Some row -> NoDup row /\ forall k, In k row <->
     exists i f, nth_error nums i = Some k /\ nth_error fs i = Some f /\ between lens r m s f /\ (r < s)%nat).
