(** C35: converting adjacency to local numbers and back loses nothing. *)
From Coq Require Import List ZArith Lia.
From Verif Require Import Base.Prelude DNDS.IndexMappingModel DNDS.IndexMappingSpec DNDS.ExchangeSpec.
From Verif Require Import Geom.AdjModel Geom.AdjSpec Geom.AdjProofs.
Import ListNotations.
Local Open Scope Z_scope.

(** The mesh of the examples: a chain of cells 0 - 1 - 2 with nodes 0 - 1 - 2 - 3;
    rank 0 owns cells 0, 1 and nodes 0, 1, 2; rank 1 owns cell 2 and node 3. *)
Definition ex_c2c := [[[1]; [0; 2]]; [[1]]].
Definition ex_c2n := [[[0; 1]; [1; 2]]; [[2; 3]]].
Definition ex_ghosts := BuildGhostPrimary [3; 1] ex_c2c ex_c2n.
Definition ex_maps (f : ghosts -> list ghostmap) (r : nat) : option ghostmap :=
  match ex_ghosts with Ok G => nth_error (f G) r | _ => None end.

Definition holds {A} (o : option A) (P : A -> Prop) : Prop :=
  match o with Some x => P x | None => False end.

(** A single entry: any number that is not negative, of an item that this rank has
    or lacks, and the mark for an unset entry. *)
Theorem C35_entry_roundtrip lens ms r m v :
  mapped lens ms -> nth_error ms r = Some m -> entry_ok v ->
  exists x, IndexGlobal2Local m v = Ok x /\ IndexLocal2Global m x = Ok v
            /\ (x = UnInitIndex <-> v = UnInitIndex).
Proof. exact (entry_roundtrip lens ms r m v). Qed.
Print Assumptions C35_entry_roundtrip.

Example C35_entry_example : holds (ex_maps cellMaps 1) (fun m =>
  map (IndexGlobal2Local m) [2; 1; 0; UnInitIndex] = [Ok 0; Ok 1; Ok (-1); Ok UnInitIndex] /\
  map (IndexLocal2Global m) [0; 1; -1; UnInitIndex] = [Ok 2; Ok 1; Ok 0; Ok UnInitIndex]).
Proof. vm_compute. split; reflexivity. Qed.

(** The bound in [entry_ok] is sharp: the largest index of all would be coded as unset. *)
Example C35_entry_largest : holds (ex_maps cellMaps 1) (fun m =>
  IndexGlobal2Local m int64_max = Ok UnInitIndex).
Proof. vm_compute. reflexivity. Qed.

(** A number that is not negative after the conversion is the place of that very
    item among the items of this rank; a negative one means that this rank does
    not have the item. *)
Theorem C35_entry_range lens ms r m v x :
  mapped lens ms -> nth_error ms r = Some m -> entry_ok v -> v <> UnInitIndex ->
  IndexGlobal2Local m v = Ok x ->
  (exists k, x = Z.of_nat k /\ (k < nth r lens 0%nat + length (ghostIndex m))%nat
             /\ local_item lens r m k = Some v)
  \/ (x = -1 - v /\ x < 0 /\ (ghosts_ascend m -> ~ present lens r m v)).
Proof. exact (entry_range lens ms r m v x). Qed.
Print Assumptions C35_entry_range.

Example C35_entry_range_example : holds (ex_maps cellMaps 1) (fun m =>
  local_item [2; 1]%nat 1 m 0 = Some 2 /\ local_item [2; 1]%nat 1 m 1 = Some 1 /\
  local_item [2; 1]%nat 1 m 2 = None).
Proof. vm_compute. repeat split; reflexivity. Qed.

(** The other way round: each local number goes to the item at its place and comes back. *)
Theorem C35_local_roundtrip lens ms r m x v :
  mapped lens ms -> nth_error ms r = Some m -> ghosts_ascend m ->
  (forall q, In q (ghostIndex m) -> ~ owned_by lens r q) ->
  local_item lens r m x = Some v -> 0 <= v ->
  IndexLocal2Global m (Z.of_nat x) = Ok v /\ IndexGlobal2Local m v = Ok (Z.of_nat x).
Proof. exact (local_roundtrip lens ms r m x v). Qed.
Print Assumptions C35_local_roundtrip.

(** The four relations of the mesh.  Cells may be unset or lacking except the first
    cell of a boundary; nodes must all be there. *)
Theorem C35_primary clens nlens cms nms r cm nm p :
  mapped clens cms -> mapped nlens nms ->
  nth_error cms r = Some cm -> nth_error nms r = Some nm ->
  ghosts_ascend cm -> ghosts_ascend nm ->
  entries_ok (cell2cell p) -> entries_ok (bnd2cell p) ->
  Forall (Forall (fun v => 0 <= v < int64_max)) (cell2node p) ->
  Forall (Forall (fun v => 0 <= v < int64_max)) (bnd2node p) ->
  Forall (fun row => match row with [] => True | v :: _ => 0 <= v < int64_max end) (bnd2cell p) ->
  first_present clens r cm (bnd2cell p) ->
  all_present nlens r nm (cell2node p) -> all_present nlens r nm (bnd2node p) ->
  exists p', AdjGlobal2LocalPrimary cm nm (Adj_PointToGlobal, p) = Ok (Adj_PointToLocal, p')
          /\ AdjLocal2GlobalPrimary cm nm (Adj_PointToLocal, p') = Ok (Adj_PointToGlobal, p).
Proof. exact (primary_roundtrip clens nlens cms nms r cm nm p). Qed.
Print Assumptions C35_primary.

(** Faces: nodes must all be there, cells must be there unless unset. *)
Theorem C35_facial clens nlens cms nms r cm nm f2n f2c :
  mapped clens cms -> mapped nlens nms ->
  nth_error cms r = Some cm -> nth_error nms r = Some nm ->
  ghosts_ascend cm -> ghosts_ascend nm ->
  all_present nlens r nm f2n ->
  Forall (Forall (fun v => v = UnInitIndex \/ 0 <= v /\ present clens r cm v)) f2c ->
  exists q, AdjGlobal2LocalFacial cm nm (Adj_PointToGlobal, (f2n, f2c)) = Ok (Adj_PointToLocal, q)
         /\ AdjLocal2GlobalFacial cm nm (Adj_PointToLocal, q) = Ok (Adj_PointToGlobal, (f2n, f2c)).
Proof. exact (facial_roundtrip clens nlens cms nms r cm nm f2n f2c). Qed.
Print Assumptions C35_facial.

Example C35_facial_example : 
  holds (ex_maps cellMaps 0) (fun cm => holds (ex_maps nodeMaps 0) (fun nm =>
  let f2n := [[0]; [1]; [2]] in let f2c := [[0; UnInitIndex]; [0; 1]; [1; 2]] in
  AdjGlobal2LocalFacial cm nm (Adj_PointToGlobal, (f2n, f2c))
  = Ok (Adj_PointToLocal, ([[0]; [1]; [2]], [[0; UnInitIndex]; [0; 1]; [1; 2]])) /\
  AdjGlobal2LocalFacial cm nm (Adj_PointToGlobal, (f2n, [[9]])) = Abort)).
Proof. vm_compute. split; reflexivity. Qed.

Theorem C35_cell2face flens fms r fm c2f :
  mapped flens fms -> nth_error fms r = Some fm -> entries_ok c2f ->
  exists q, AdjGlobal2LocalC2F fm (Adj_PointToGlobal, c2f) = Ok (Adj_PointToLocal, q)
         /\ AdjLocal2GlobalC2F fm (Adj_PointToLocal, q) = Ok (Adj_PointToGlobal, c2f).
Proof. exact (c2f_roundtrip flens fms r fm c2f). Qed.
Print Assumptions C35_cell2face.

(** Without ghosts: an item of another rank is coded as lacking. *)
Theorem C35_noson blens g r : setMPIAlignBcast (map Z.of_nat blens) = Ok g -> (r < length blens)%nat ->
  Z.of_nat (list_sum blens) <= int64_max ->
  forall v, v = UnInitIndex \/ item_at blens v <> None ->
  exists x, IndexGlobal2Local_NoSon g (Z.of_nat r) v = Ok x
         /\ IndexLocal2Global_NoSon g (Z.of_nat r) (Z.of_nat (nth r blens 0%nat)) x = Ok v
         /\ (owned_by blens r v <-> exists k, x = Z.of_nat k /\ (k < nth r blens 0%nat)%nat).
Proof. exact (noson_inverse blens g r). Qed.
Print Assumptions C35_noson.

Example C35_noson_example : match setMPIAlignBcast [2; 3] with Ok g =>
  map (IndexGlobal2Local_NoSon g 1) [0; 2; 4; UnInitIndex; 5] = [Ok (-1); Ok 0; Ok 2; Ok UnInitIndex; Abort] | _ => False end.
Proof. vm_compute. reflexivity. Qed.

Theorem C35_node2cell clens cms blens bg r cm n2c n2b :
  mapped clens cms -> nth_error cms r = Some cm ->
  setMPIAlignBcast (map Z.of_nat blens) = Ok bg -> (r < length blens)%nat ->
  Z.of_nat (list_sum blens) <= int64_max ->
  entries_ok n2c -> Forall (Forall (fun v => v = UnInitIndex \/ item_at blens v <> None)) n2b ->
  exists q, AdjGlobal2LocalN2CB cm bg (Z.of_nat r) (Adj_PointToGlobal, (n2c, n2b)) = Ok (Adj_PointToLocal, q)
         /\ AdjLocal2GlobalN2CB cm bg (Z.of_nat r) (Z.of_nat (nth r blens 0%nat)) (Adj_PointToLocal, q)
            = Ok (Adj_PointToGlobal, (n2c, n2b)).
Proof. exact (n2cb_roundtrip clens cms blens bg r cm n2c n2b). Qed.
Print Assumptions C35_node2cell.

(** After the ghosts are set up, every rank has all neighbours of its own cells and
    all nodes of its cells and of its ghost cells; ghost rows are the owners' rows. *)
Theorem C35_ghosts_resolve nlens c2c c2n G :
  length nlens = length c2c ->
  BuildGhostPrimary (map Z.of_nat nlens) c2c c2n = Ok G ->
  let clens := map (@length (list Z)) c2c in
  mapped clens (cellMaps G) /\ mapped nlens (nodeMaps G) /\ map (@length (list Z)) c2n = clens /\
  forall r, (r < length c2c)%nat ->
    exists cm nm c2cs c2ns,
      nth_error (cellMaps G) r = Some cm /\ nth_error (nodeMaps G) r = Some nm /\
      nth_error (c2cSon G) r = Some c2cs /\ nth_error (c2nSon G) r = Some c2ns /\
      ghosts_ascend cm /\ ghosts_ascend nm /\
      (forall q, In q (ghostIndex cm) -> ~ owned_by clens r q) /\
      (forall q, In q (ghostIndex nm) -> ~ owned_by nlens r q) /\
      son_rows clens c2c cm c2cs /\ son_rows clens c2n cm c2ns /\
      all_present clens r cm (nth r c2c []) /\
      all_present nlens r nm (nth r c2n [] ++ c2ns).
Proof. exact (ghosts_resolve nlens c2c c2n G). Qed.
Print Assumptions C35_ghosts_resolve.

Example C35_ghosts_example : match ex_ghosts with Ok G =>
  map ghostIndex (cellMaps G) = [[2]; [1]] /\ map ghostIndex (nodeMaps G) = [[3]; [1; 2]] /\
  c2cSon G = [[[1]]; [[0; 2]]] /\ c2nSon G = [[[2; 3]]; [[1; 2]]] | _ => False end.
Proof. vm_compute. repeat split; reflexivity. Qed.

(** Together: on every rank the conversion of the mesh with its ghosts succeeds, is
    undone by the conversion back, and gives the neighbours of the own cells numbers
    within the rows of this rank. *)
Theorem C35_mesh nlens c2c c2n G r b2c b2n :
  let clens := map (@length (list Z)) c2c in
  length nlens = length c2c ->
  Z.of_nat (list_sum clens) <= int64_max -> Z.of_nat (list_sum nlens) <= int64_max ->
  BuildGhostPrimary (map Z.of_nat nlens) c2c c2n = Ok G -> (r < length c2c)%nat ->
  Forall (fun row => match row with
                     | [] => False
                     | v :: t => owned_by clens r v /\ Forall (fun w => w = UnInitIndex \/ item_at clens w <> None) t
                     end) b2c ->
  Forall (Forall (fun q => exists cell, In cell (nth r c2n []) /\ In q cell)) b2n ->
  exists cm nm c2cs c2ns p',
    nth_error (cellMaps G) r = Some cm /\ nth_error (nodeMaps G) r = Some nm /\
    nth_error (c2cSon G) r = Some c2cs /\ nth_error (c2nSon G) r = Some c2ns /\
    let p := {| cell2cell := nth r c2c [] ++ c2cs; bnd2cell := b2c;
                cell2node := nth r c2n [] ++ c2ns; bnd2node := b2n |} in
    AdjGlobal2LocalPrimary cm nm (Adj_PointToGlobal, p) = Ok (Adj_PointToLocal, p') /\
    AdjLocal2GlobalPrimary cm nm (Adj_PointToLocal, p') = Ok (Adj_PointToGlobal, p) /\
    forall i j row x, (i < nth r clens 0)%nat ->
      nth_error (cell2cell p') i = Some row -> nth_error row j = Some x ->
      0 <= x < Z.of_nat (nth r clens 0%nat + length c2cs).
Proof. exact (primary_after_ghosts nlens c2c c2n G r b2c b2n). Qed.
Print Assumptions C35_mesh.

Example C35_mesh_example : 
  holds (ex_maps cellMaps 1) (fun cm => holds (ex_maps nodeMaps 1) (fun nm =>
  AdjGlobal2LocalPrimary cm nm (Adj_PointToGlobal,
    {| cell2cell := [[1]; [0; 2]]; bnd2cell := [[2; UnInitIndex]];
       cell2node := [[2; 3]; [1; 2]]; bnd2node := [[3]] |})
  = Ok (Adj_PointToLocal,
    {| cell2cell := [[1]; [-1; 0]]; bnd2cell := [[0; UnInitIndex]];
       cell2node := [[2; 0]; [1; 2]]; bnd2node := [[0]] |}))).
Proof. vm_compute. reflexivity. Qed.

(** Only relations in global numbers are converted to local ones and the reverse, so no
    relation is converted twice. *)
Theorem C35_states_checked cm nm fm bg r bsize p f c n :
  (forall s, s <> Adj_PointToGlobal -> AdjGlobal2LocalPrimary cm nm (s, p) = Abort /\
     AdjGlobal2LocalFacial cm nm (s, f) = Abort /\ AdjGlobal2LocalC2F fm (s, c) = Abort /\ AdjGlobal2LocalN2CB cm bg r (s, n) = Abort) /\
  (forall s, s <> Adj_PointToLocal -> AdjLocal2GlobalPrimary cm nm (s, p) = Abort /\
     AdjLocal2GlobalFacial cm nm (s, f) = Abort /\ AdjLocal2GlobalC2F fm (s, c) = Abort /\ AdjLocal2GlobalN2CB cm bg r bsize (s, n) = Abort).
Proof. exact (states_checked cm nm fm bg r bsize p f c n). Qed.
Print Assumptions C35_states_checked.

(** After the conversion of the mesh all nodes of the cells and boundaries are on the rank. *)
Theorem C35_nodes_checked nlens nms r cm nm s p s' q : mapped nlens nms -> nth_error nms r = Some nm ->
  Forall (Forall (fun v => 0 <= v < int64_max)) (cell2node p) ->
  Forall (Forall (fun v => 0 <= v < int64_max)) (bnd2node p) ->
  AdjGlobal2LocalPrimary cm nm (s, p) = Ok (s', q) ->
  s = Adj_PointToGlobal /\ s' = Adj_PointToLocal /\ all_present nlens r nm (cell2node p) /\ all_present nlens r nm (bnd2node p).
Proof. exact (primary_checked nlens nms r cm nm s p s' q). Qed.
Print Assumptions C35_nodes_checked.
(** Node 0 is not on rank 1. *)
Example C35_nodes_checked_example :
  holds (ex_maps cellMaps 1) (fun cm => holds (ex_maps nodeMaps 1) (fun nm =>
  AdjGlobal2LocalPrimary cm nm (Adj_PointToGlobal,
    {| cell2cell := [[1]]; bnd2cell := []; cell2node := [[2; 0]]; bnd2node := [] |}) = Abort)).
Proof. vm_compute. reflexivity. Qed.

(** A local number behind the items of the rank is refused where there are no ghosts. *)
Theorem C35_noson_checked g r size i : 0 <= i -> size <= i -> IndexLocal2Global_NoSon g r size i = Abort.
Proof. exact (noson_checked g r size i). Qed.
Print Assumptions C35_noson_checked.
