(** C36 and C37: the relations from nodes to cells, between cells, and from
    boundaries to cells, on all ranks. *)
From Coq Require Import List ZArith Lia.
From Verif Require Import Base.Prelude DNDS.DefinesModel DNDS.IndexMappingProofs DNDS.IndexMappingSpec Geom.AdjModel.
From Verif Require Import Geom.NodeCellModel Geom.NodeCellSpec Geom.NodeCellProofs Geom.NeighbourProofs Geom.NodeCellTotal.
Import ListNotations.
Local Open Scope Z_scope.

(** Whatever the distribution and whatever the order of the unordered sets, the row
    of each node lists exactly the cells that have it, each once.  The same function
    serves the boundaries. *)
Theorem C36_inverse ord nlens c2n n2c : any_order ord -> length nlens = length c2n ->
  GeneralCell2NodeToNode2Cell ord (map Z.of_nat nlens) c2n = Ok n2c ->
  inverse_of c2n n2c nlens.
Proof. exact (inversion_spec ord nlens c2n n2c). Qed.
Print Assumptions C36_inverse.

(** Three ranks; rank 1 has cells but no nodes, rank 2 has a node of no cell. *)
Definition ex_c2n := [[[0; 1; 3]]; [[1; 3; 4]; [0; 3; 0]]; [[3; 4]]].
Example C36_example :
  GeneralCell2NodeToNode2Cell (fun _ _ _ l => rev l) [2; 0; 4] ex_c2n
  = Ok [[[2; 0]; [1; 0]]; []; [[]; [1; 2; 0; 3]; [1; 3]; []]].
Proof. vm_compute. reflexivity. Qed.

(** It succeeds on every mesh whose cells have nodes that exist, within the ranges of the
    integers used. *)
Theorem C36_total ord nlens c2n : length nlens = length c2n ->
  Z.of_nat (list_sum nlens) <= int64_max -> zlen (concat c2n) <= int64_max -> zlen (concat (concat c2n)) <= int32_max ->
  (forall cell, In cell (concat c2n) -> Forall (fun q => 0 <= q < Z.of_nat (list_sum nlens)) cell) ->
  exists n2c, GeneralCell2NodeToNode2Cell ord (map Z.of_nat nlens) c2n = Ok n2c.
Proof. exact (inversion_total ord nlens c2n). Qed.
Print Assumptions C36_total.

Example C36_total_example : forall cell, In cell (concat ex_c2n) ->
  Forall (fun q => 0 <= q < Z.of_nat (list_sum [2; 0; 4]%nat)) cell.
Proof. cbn. intros cell H. repeat (destruct H as [<-|H]; [repeat constructor; lia|]). contradiction. Qed.

Theorem C37_recovered c2n n2c bnds out :
  let nlens := map (@length (list Z)) n2c in
  inverse_of c2n n2c nlens -> length n2c = length c2n -> length bnds = length c2n ->
  RecoverCell2CellAndBnd2Cell (map Z.of_nat nlens) c2n bnds n2c = Ok out ->
  (* the row of each cell lists exactly the other cells with a common node *)
  (map (@length (list Z)) (map fst out) = map (@length (list Z)) c2n /\
   forall c row, row_of (map fst out) c = Some row ->
     ascending row /\ forall d, In d row <-> neighbours c2n c d) /\
  (* a boundary belongs to the cell with all its nodes, and there is no other; a
     periodic one to the two cells with all its nodes *)
  (map (@length (Z * Z)) (map snd out) = map (@length (bool * list Z)) bnds /\
   forall b p bnd ab, row_of bnds b = Some (p, bnd) -> row_of (map snd out) b = Some ab ->
     bnd <> [] /\
     if p then fst ab < snd ab /\ forall c, has_all c2n bnd c <-> c = fst ab \/ c = snd ab
     else snd ab = UnInitIndex /\ forall c, has_all c2n bnd c <-> c = fst ab).
Proof. exact (recover_spec c2n n2c bnds out). Qed.
Print Assumptions C37_recovered.

Theorem C37_symmetric c2n n2c bnds out :
  let nlens := map (@length (list Z)) n2c in
  inverse_of c2n n2c nlens -> length n2c = length c2n -> length bnds = length c2n ->
  RecoverCell2CellAndBnd2Cell (map Z.of_nat nlens) c2n bnds n2c = Ok out ->
  forall c d, (exists row, row_of (map fst out) c = Some row /\ In d row) <->
              (exists row, row_of (map fst out) d = Some row /\ In c row).
Proof. exact (recover_symmetric c2n n2c bnds out). Qed.
Print Assumptions C37_symmetric.

(** The chain 0 - 1 - 2 - 3 of cells with nodes 0 .. 4, on two ranks; its two ends,
    and a periodic boundary at node 2.  A boundary at node 2 that is not periodic has
    two cells and is refused. *)
Definition ex_chain := [[[0; 1]; [1; 2]]; [[2; 3]; [3; 4]]].
Definition ex_n2c := GeneralCell2NodeToNode2Cell (fun _ _ _ l => l) [2; 3] ex_chain.
Example C37_example : match ex_n2c with Ok n2c =>
  RecoverCell2CellAndBnd2Cell [2; 3] ex_chain [[(false, [0]); (true, [2])]; [(false, [4])]] n2c
  = Ok [([[1]; [0; 2]], [(0, UnInitIndex); (1, 2)]); ([[1; 3]; [2]], [(3, UnInitIndex)])] /\
  RecoverCell2CellAndBnd2Cell [2; 3] ex_chain [[(false, [0]); (false, [2])]; [(false, [4])]] n2c = Abort
  | _ => False end.
Proof. vm_compute. split; reflexivity. Qed.

(** It succeeds if every cell has a node and every boundary its cell or its two cells. *)
Theorem C37_total c2n n2c bnds :
  let nlens := map (@length (list Z)) n2c in
  inverse_of c2n n2c nlens -> length n2c = length c2n -> length bnds = length c2n ->
  Z.of_nat (list_sum nlens) <= int64_max -> zlen (concat c2n) <= int64_max ->
  zlen (concat (concat c2n)) + zlen (concat (map snd (concat bnds))) <= int32_max ->
  (forall cell, In cell (concat c2n) -> cell <> [] /\ Forall (fun q => 0 <= q < Z.of_nat (list_sum nlens)) cell) ->
  (forall p bnd, In (p, bnd) (concat bnds) -> two_or_one c2n p bnd) ->
  exists out, RecoverCell2CellAndBnd2Cell (map Z.of_nat nlens) c2n bnds n2c = Ok out.
Proof. exact (recover_total c2n n2c bnds). Qed.
Print Assumptions C37_total.

Example C37_total_example : two_or_one ex_chain false [0] /\ two_or_one ex_chain true [2].
Proof.
  assert (R : forall c, match row_of ex_chain c with
    | Some cell => (c = 0 /\ cell = [0; 1]) \/ (c = 1 /\ cell = [1; 2]) \/ (c = 2 /\ cell = [2; 3]) \/ (c = 3 /\ cell = [3; 4])
    | None => True end).
  { intro c. destruct (Z.eq_dec c 0) as [->|N0]; [vm_compute; auto 10|]. destruct (Z.eq_dec c 1) as [->|N1]; [vm_compute; auto 10|].
    destruct (Z.eq_dec c 2) as [->|N2]; [vm_compute; auto 10|]. destruct (Z.eq_dec c 3) as [->|N3]; [vm_compute; auto 10|].
    unfold row_of. replace (item_at (map (@length (list Z)) ex_chain) c) with (@None (nat * nat)); [exact I|].
    symmetry. apply IndexMappingProofs.item_at_None. cbn. lia. }
  split.
  - split; [discriminate|]. exists 0. intro c. split.
    + intro H. destruct (H 0 (or_introl eq_refl)) as (cell & E & Hq). specialize (R c). rewrite E in R.
      destruct R as [(-> & ->)|[(-> & ->)|[(-> & ->)|(-> & ->)]]]; cbn in Hq; lia.
    + intros -> q [<-|[]]. exists [0; 1]. cbn. auto.
  - split; [discriminate|]. exists 1, 2. split; [lia|]. intro c. split.
    + intro H. destruct (H 2 (or_introl eq_refl)) as (cell & E & Hq). specialize (R c). rewrite E in R.
      destruct R as [(-> & ->)|[(-> & ->)|[(-> & ->)|(-> & ->)]]]; cbn in Hq; lia.
    + intros [->| ->] q [<-|[]]; [exists [1; 2]|exists [2; 3]]; cbn; auto.
Qed.
