(** C39: merging of periodic nodes. *)
From Coq Require Import List ZArith Bool Arith.
From Verif Require Import Base.Prelude Geom.BoundaryModel Geom.PeriodicModel Geom.PeriodicSpec
  Geom.DedupModel Geom.DedupSpec Geom.DedupProofs Geom.DedupBitProofs Geom.DedupExamples.
Import ListNotations.
Local Open Scope Z_scope.

(** For all acyclic donor-to-main maps the merging succeeds and renumbers the nodes by a
    function [f]: the survivors get 0, 1, 2, ... in their order and keep their coordinates,
    every node gets the number of a survivor it leads to, a donor gets the number of the
    main it has in the last map it is in, and if the two ways from a donor of two
    directions meet, it gets the number of all its mains. *)
Theorem C39_merge C (blank : C) dm1 dm2 dm3 coords :
  let n := length coords in let dms := [dm1; dm2; dm3] in
  map_ok n dm1 -> map_ok n dm2 -> map_ok n dm3 -> acyclic dms ->
  exists f : Z -> Z,
    (forall i, 0 <= i < Z.of_nat n -> exists k s, nth_error (survivors n dms) k = Some s /\
        f i = Z.of_nat k /\ leads_to dms i (Z.of_nat s)) /\
    (forall k s, nth_error (survivors n dms) k = Some s -> f (Z.of_nat s) = Z.of_nat k) /\
    (forall d m, In (d, m) dm3 \/ (In (d, m) dm2 /\ ~ donor_in dm3 d) \/
                 (In (d, m) dm1 /\ ~ donor_in dm2 d /\ ~ donor_in dm3 d) -> f d = f m) /\
    (square dm1 dm2 -> square dm1 dm3 -> square dm2 dm3 ->
     forall dm d m, In dm dms -> In (d, m) dm -> f d = f m) /\
    forall cells bnds, in_nodes n cells -> in_nodes n bnds ->
      exists coords', Deduplicate blank dm1 dm2 dm3 coords cells bnds
          = Ok (coords', map (map f) cells, map (map f) bnds) /\
        length coords' = length (survivors n dms) /\
        forall k s, nth_error (survivors n dms) k = Some s -> nth_error coords' k = nth_error coords s.
Proof. exact (merge_spec C blank dm1 dm2 dm3 coords). Qed.
Print Assumptions C39_merge.

(** A node of a cell has the bit of a direction exactly when it lies on a donor boundary of
    that direction on which the cell has a vertex. *)
Theorem C39_bits dms cells bnds bs : periodic_bits dms cells bnds = Ok bs ->
  length bs = length cells /\
  forall c cell row, nth_error cells c = Some cell -> nth_error bs c = Some row ->
    length row = length (snd cell) /\
    forall pos q b, nth_error (snd cell) pos = Some q -> nth_error row pos = Some b ->
      let on zone := exists nodes, In (zone, nodes) bnds /\ In q nodes /\ touching cells nodes c in
      (getP1 b = true <-> on BC_ID_PERIODIC_1_DONOR) /\
      (getP2 b = true <-> on BC_ID_PERIODIC_2_DONOR) /\
      (getP3 b = true <-> on BC_ID_PERIODIC_3_DONOR).
Proof. exact (bits_three dms cells bnds bs). Qed.
Print Assumptions C39_bits.

(** In exact arithmetic the merged mesh describes the same cells: the coordinates of a
    node of a cell are those of the merged node, moved by the bits of that node of the cell. *)
Theorem C39_geometry p dm1 dm2 dm3 coords (cells : list (nat * list Z)) (bnds : list (Z * list Z)) coords' c2n b2n bs :
  let n := length coords in let dms := [dm1; dm2; dm3] in
  well_formed 3 p ->
  map_ok n dm1 -> map_ok n dm2 -> map_ok n dm3 -> acyclic dms ->
  square dm1 dm2 -> square dm1 dm3 -> square dm2 dm3 -> straight dms -> images p coords dms ->
  in_nodes n (map snd cells) -> in_nodes n (map snd bnds) ->
  (forall k dm q, nth_error dms k = Some dm ->
     (donor_in dm q <-> exists nodes, In (- Z.of_nat (k + 4), nodes) bnds /\ In q nodes)) ->
  (forall z nodes c cell q, In (z, nodes) bnds -> FaceIDIsPeriodicDonor z = true -> In q nodes ->
     nth_error cells c = Some cell -> In q (snd cell) -> touching cells nodes c) ->
  periodic_bits dms cells bnds = Ok bs ->
  Deduplicate vzero dm1 dm2 dm3 coords (map snd cells) (map snd bnds) = Ok (coords', c2n, b2n) ->
  forall c cell pos q, nth_error cells c = Some cell -> nth_error (snd cell) pos = Some q ->
    exists row q' bits b x x', nth_error c2n c = Some row /\ nth_error row pos = Some q' /\
      nth_error bs c = Some bits /\ nth_error bits pos = Some b /\
      at_node coords q x /\ at_node coords' q' x' /\
      yields (GetCoordByBits p x' b) (fun r => same_vec 3 r x).
Proof. exact (geometry_spec p dm1 dm2 dm3 coords cells bnds coords' c2n b2n bs). Qed.
Print Assumptions C39_geometry.

(** The boundaries of a mesh of quadratic elements have nodes which are vertices of no
    cell: the bits are refused as soon as a donor boundary has one. *)
Theorem C39_quadratic_donors_refused dms cells bnds zone nodes v :
  In (zone, nodes) bnds -> FaceIDIsPeriodicDonor zone = true -> In v nodes ->
  (forall c cell, nth_error cells c = Some cell -> ~ In v (firstn (fst cell) (snd cell))) ->
  forall bs, periodic_bits dms cells bnds <> Ok bs.
Proof. exact (quadratic_refused dms cells bnds zone nodes v). Qed.
Print Assumptions C39_quadratic_donors_refused.

(** A grid of three by three nodes, periodic in both directions: four nodes survive. *)
Example C39_grid :
  map_ok 9 grid1 /\ map_ok 9 grid2 /\ map_ok 9 [] /\ acyclic [grid1; grid2; []] /\
  square grid1 grid2 /\ square grid1 [] /\ square grid2 [] /\
  Deduplicate 0 grid1 grid2 [] [10; 11; 12; 13; 14; 15; 16; 17; 18] grid_cells grid_bnds
  = Ok ([10; 11; 13; 14], [[0; 1; 3; 2]; [1; 0; 2; 3]; [2; 3; 1; 0]; [3; 2; 0; 1]],
        [[0; 2]; [2; 0]; [0; 2]; [2; 0]; [0; 1]; [1; 0]; [0; 1]; [1; 0]]).
Proof. exact grid_ok. Qed.

(** Where the ways do not meet, a donor of two directions follows its second main only. *)
Example C39_ways_that_do_not_meet :
  map_ok 3 [(2, 0)] /\ map_ok 3 [(2, 1)] /\ acyclic [[(2, 0)]; [(2, 1)]; []] /\
  Deduplicate 0 [(2, 0)] [(2, 1)] [] [10; 11; 12] [[0; 1; 2]] [] = Ok ([10; 11], [[0; 1; 1]], []).
Proof. exact not_meeting. Qed.

(** Donors in a circle are never resolved. *)
Example C39_circle :
  Deduplicate 0 [(0, 1); (1, 0)] [] [] [10; 11] [[0; 1]] [] = UB.
Proof. exact circle. Qed.

(** One square cell whose sides are all periodic meets the hypotheses of the theorem on the geometry. *)
Example C39_one_cell :
  map_ok 4 [(1, 0); (2, 3)] /\ map_ok 4 [(3, 0); (2, 1)] /\ map_ok 4 [] /\
  acyclic [[(1, 0); (2, 3)]; [(3, 0); (2, 1)]; []] /\
  square [(1, 0); (2, 3)] [(3, 0); (2, 1)] /\ square [(1, 0); (2, 3)] [] /\ square [(3, 0); (2, 1)] [] /\
  straight [[(1, 0); (2, 3)]; [(3, 0); (2, 1)]; []] /\
  images default_periodicity cell_points [[(1, 0); (2, 3)]; [(3, 0); (2, 1)]; []] /\
  periodic_bits [[(1, 0); (2, 3)]; [(3, 0); (2, 1)]; []] [(4%nat, [0; 1; 2; 3])]
    [(-1, [0; 3]); (-4, [1; 2]); (-2, [0; 1]); (-5, [3; 2])] = Ok [[0; 1; 3; 2]] /\
  Deduplicate vzero [(1, 0); (2, 3)] [(3, 0); (2, 1)] [] cell_points [[0; 1; 2; 3]]
    [[0; 3]; [1; 2]; [0; 1]; [3; 2]]
  = Ok ([vzero], [[0; 0; 0; 0]], [[0; 0]; [0; 0]; [0; 0]; [0; 0]]).
Proof. exact one_cell. Qed.
