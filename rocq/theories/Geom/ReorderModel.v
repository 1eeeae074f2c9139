(** Model of the reordering of the cells of each rank: src/Geom/Mesh.cpp 2039-2270
    (ReorderLocalCells), on all ranks together, between the conversions of the
    relations to global numbers (2078-2097) and back (2253-2265), which are modelled
    in [AdjModel].  The order comes from [RcmModel]; here it is given: [perm] holds
    for each rank the new place of each cell. *)
From Coq Require Import List ZArith Bool Arith.
From Verif Require Import Base.Prelude Base.MPIModel DNDS.DefinesModel DNDS.IndexMappingModel
  Geom.AdjModel Geom.NodeCellModel.
Import ListNotations.
Local Open Scope Z_scope.

(** The father rows of every rank, in global numbers.  [m_c2f]: only if built.  Relations
    to cells that are not built ([adjFacialState], [adjN2CBState] unknown) have no rows.
    [m_info]: the element information of the cells; the periodic bits go the way of
    [m_c2n].  [m_ghost]: the ghost cells of each rank. *)
Record cmesh (I : Type) := {
  m_c2n : list (list (list Z)); m_c2c : list (list (list Z)); m_c2f : option (list (list (list Z)));
  m_info : list (list I);
  m_b2c : list (list (list Z)); m_f2c : list (list (list Z)); m_n2c : list (list (list Z));
  m_ghost : list (list Z) }.
Arguments m_c2n {I}. Arguments m_c2c {I}. Arguments m_c2f {I}. Arguments m_info {I}.
Arguments m_b2c {I}. Arguments m_f2c {I}. Arguments m_n2c {I}. Arguments m_ghost {I}.

(** 2052-2053 on rank [r] with [size] cells. *)
Definition old_to_new (g : gomap) (r : Z) (size : nat) (p : list Z) : res (list Z) :=
  mapM (fun i => do x <- vat p i; IndexLocal2Global_NoSon g r (Z.of_nat size) x) (ranks size).

(** 2058-2067 record_iCellNonLocal *)
Definition record_nonlocal (g : gomap) (r i : Z) : res (list Z) :=
  if (0 <=? i) && (i <? globalSize g) then
    match gsearch g i with
    | Some (rank, _) => Ok (if rank =? r then [] else [i])
    | None => UB (* not reached: in the range of the mapping *)
    end
  else do _ <- assert_ (i =? UnInitIndex); Ok [].

(** 2056, 2069-2105: the set of cells of other ranks *)
Definition nonlocal (g : gomap) (r : Z) (entries ghost : list Z) : res (list Z) :=
  do l <- mapM (record_nonlocal g r) entries;
  Ok (zuniq (zsort (concat l ++ ghost))).

(** 2121-2128 replaceCellIndexToNew; the pair array is the father rows, then the son rows. *)
Definition replace_cell (m : ghostmap) (own son : list Z) (v : Z) : res Z :=
  if v =? UnInitIndex then Ok v else
  do o <- search_indexAppend m v;
  match o with
  | None => Abort
  | Some (_, val) => vget (own ++ son) val
  end.

(** 2161-2224: row [i] goes to its new place; [tmp] is the copy of the rows. *)
Definition place_rows {A} (g : gomap) (r : Z) (own : list Z) (tmp : list A) : res (list A) :=
  foldM (fun rows x =>
      do o <- vget own (fst x);
      do j <- IndexGlobal2Local_NoSon g r o;
      vset rows j (snd x))
    tmp (indexed tmp).

Definition per_rank {A B} (f : Z -> A -> res B) (l : list A) (P : nat) : res (list B) :=
  mapM (fun r => do x <- vget l r; f r x) (ranks P).

(** Result: the new father rows, the new ghost mapping of the cells and the son rows
    of the relation to nodes, the one to cells, the one to faces and the information. *)
Record cghosts (I : Type) := {
  g_maps : list ghostmap; g_c2n : list (list (list Z)); g_c2c : list (list (list Z));
  g_c2f : option (list (list (list Z))); g_info : list (list I) }.
Arguments g_maps {I}. Arguments g_c2n {I}. Arguments g_c2c {I}. Arguments g_c2f {I}. Arguments g_info {I}.

Definition on_option {A B} (f : A -> res B) (o : option A) : res (option B) :=
  match o with None => Ok None | Some a => do b <- f a; Ok (Some b) end.

Definition ReorderLocalCells {I} (perm : list (list Z)) (m : cmesh I) : res (cmesh I * cghosts I) :=
  let P := length (m_c2n m) in
  let sizes := map zlen (m_c2n m) in
  do g <- setMPIAlignBcast sizes;
  do own <- per_rank (fun r p => do rows <- vget (m_c2n m) r; old_to_new g r (length rows) p) perm P;
  do nl <- per_rank (fun r gh =>
      do f <- vget (m_f2c m) r; do n <- vget (m_n2c m) r;
      do c <- vget (m_c2c m) r; do b <- vget (m_b2c m) r;
      nonlocal g r (concat f ++ concat n ++ concat c ++ concat b) gh) (m_ghost m) P;
  do gm <- setup_pull sizes nl;
  do sons <- mapM (pull_rows (fst gm) own) (snd gm);
  let rep r v := do mp <- vget (snd gm) r; do o <- vget own r; do s <- vget sons r; replace_cell mp o s v in
  do f2c <- per_rank (fun r => convert (rep r)) (m_f2c m) P;
  do n2c <- per_rank (fun r => convert (rep r)) (m_n2c m) P;
  do c2c <- per_rank (fun r => convert (rep r)) (m_c2c m) P;
  do b2c <- per_rank (fun r => convert (rep r)) (m_b2c m) P;
  let place A := per_rank (fun r (rows : list A) => do o <- vget own r; place_rows g r o rows) in
  do c2n' <- place _ (m_c2n m) P;
  do c2c' <- place _ c2c P;
  do c2f' <- on_option (fun x => place _ x P) (m_c2f m);
  do info' <- place _ (m_info m) P;
  do gh <- per_rank (fun r => mapM (rep r)) (m_ghost m) P;
  do gm' <- setup_pull sizes gh;
  do s_c2n <- mapM (pull_rows (fst gm') c2n') (snd gm');
  do s_c2c <- mapM (pull_rows (fst gm') c2c') (snd gm');
  do s_c2f <- on_option (fun x => mapM (pull_rows (fst gm') x) (snd gm')) c2f';
  do s_info <- mapM (pull_rows (fst gm') info') (snd gm');
  Ok ({| m_c2n := c2n'; m_c2c := c2c'; m_c2f := c2f'; m_info := info';
         m_b2c := b2c; m_f2c := f2c; m_n2c := n2c; m_ghost := map ghostIndex (snd gm') |},
      {| g_maps := snd gm'; g_c2n := s_c2n; g_c2c := s_c2c; g_c2f := s_c2f; g_info := s_info |}).
