(** Model of src/DNDS/IndexMapping.hpp. *)
From Coq Require Import List ZArith Bool Arith.
From Verif Require Import Base.Prelude Base.MPIModel DNDS.DefinesModel.
Import ListNotations.
Local Open Scope Z_scope.

(** ** GlobalOffsetsMapping (IndexMapping.hpp 22-104) *)

Record gomap := { RankLengths : list Z; RankOffsets : list Z }.

(** 33-39 globalSize. *)
Definition globalSize (g : gomap) : Z :=
  match RankOffsets g with
  | [] => 0
  | _ => last (RankOffsets g) 0
  end.

(** 51-60: the offsets loop, with the signed 64-bit addition and the assertion
    that the offset is non-negative. *)
Fixpoint offsets_loop (acc : Z) (lens : list Z) : res (list Z) :=
  match lens with
  | [] => Ok [acc]
  | l :: t =>
      do next <- tarith int64_min int64_max (acc + l);
      do _ <- assert_ (0 <=? next);
      do rest <- offsets_loop next t;
      Ok (acc :: rest)
  end.

(** 42-61 setMPIAlignBcast on all ranks: rank [r] passes [myLength = nth r];
    after the broadcasts from every root all ranks hold all lengths, so all
    ranks compute the same mapping, which is returned once. *)
Definition setMPIAlignBcast (myLengths : list Z) : res gomap :=
  do offs <- offsets_loop 0 myLengths;
  Ok {| RankLengths := myLengths; RankOffsets := offs |}.

(** 64-75 operator()(rank, val).  The assertion admits [rank = size], for which
    [RankOffsets[rank + 1]] is out of range. *)
Definition toGlobal (g : gomap) (rank val : Z) : res Z :=
  do _ <- assert_ ((0 <=? rank) && (rank <=? zlen (RankLengths g)));
  do _ <- assert_ (0 <=? val);
  do o1 <- vget (RankOffsets g) (rank + 1);
  do o0 <- vget (RankOffsets g) rank;
  do _ <- assert_ (val <=? o1 - o0);
  Ok (o0 + val).

(** 78-95 search; [None] is a false return.  Simplification: the conversion of
    the position to a 32-bit rank is taken as exact (fewer than 2^31 ranks). *)
Definition gsearch (g : gomap) (q : Z) : option (Z * Z) :=
  match RankOffsets g with
  | [] => None
  | _ =>
      let place := lb_le (RankOffsets g) q in
      let rank := Z.of_nat place - 1 in
      if (rank <? zlen (RankLengths g)) && (0 <=? rank) then
        match vget (RankOffsets g) rank with
        | Ok o => Some (rank, q - o)
        | _ => None (* unreachable: rank is below the number of lengths *)
        end
      else None
  end.

(** ** OffsetAscendIndexMapping (IndexMapping.hpp 110-430) *)

Record ghostmap := {
  mainOffset : Z; mainSize : Z;
  ghostSizes : list Z; ghostIndex : list Z; ghostStart : list Z;
  pushIndexSizes : list Z; pushIndexStarts : list Z; pushingIndexGlobal : list Z
}.

(** 171-179: number of requested indices per owning rank; aborts when an index
    has no owner.  (The 32-bit counters are not checked for overflow here.) *)
Definition count_owners (g : gomap) (nranks : nat) (idx : list Z) : res (list Z) :=
  foldM (fun sizes i =>
      match gsearch g i with
      | None => Abort
      | Some (rank, _) => do c <- vget sizes rank; vset sizes rank (c + 1)
      end)
    (repeat 0 nranks) idx.

(** The part of the pull constructor before communication (162-195): the pull
    set is sorted and made unique in place, counted, 32-bit starts are
    accumulated with overflow check, the indices are copied and sorted. *)
Definition pull_local (g : gomap) (nranks : nat) (pull : list Z)
  : res (list Z * list Z * list Z) :=
  let s := zuniq (zsort pull) in
  do sizes <- count_owners g nranks s;
  do start <- AccumulateRowSize int32_min int32_max sizes;
  do idx <- mapM (fun i => match gsearch g i with None => Abort | Some _ => Ok i end) s;
  Ok (sizes, start, zsort idx).

(** 152-214 pull constructor on all ranks: [mains] are (mainOffset, mainSize) of
    each rank, [pulls] the requested global indices of each rank. *)
Definition construct_pull (g : gomap) (mains : list (Z * Z)) (pulls : list (list Z))
  : res (list ghostmap) :=
  let P := length pulls in
  do loc <- mapM (pull_local g P) pulls;
  let sizes := map (fun t => fst (fst t)) loc in
  let starts := map (fun t => snd (fst t)) loc in
  let idxs := map snd loc in
  do psizes <- alltoall sizes;
  do pstarts <- mapM (AccumulateRowSize int32_min int32_max) psizes;
  do pidx <- alltoallv
    (map (fun t => {| sv_buf := snd t; sv_cnt := fst (fst t); sv_dis := snd (fst t) |}) loc)
    (map (fun cs => {| rv_buf := repeat 0 (Z.to_nat (last (snd cs) 0));
                       rv_cnt := fst cs; rv_dis := snd cs |})
         (combine psizes pstarts));
  Ok (map (fun t =>
        let '(m, (sz, (st, (ix, (psz, (pst, pix)))))) := t in
        {| mainOffset := fst m; mainSize := snd m;
           ghostSizes := sz; ghostIndex := ix; ghostStart := st;
           pushIndexSizes := psz; pushIndexStarts := pst; pushingIndexGlobal := pix |})
      (combine mains (combine sizes (combine starts (combine idxs
        (combine psizes (combine pstarts pidx))))))).

(** Conversion of a 64-bit value to a 32-bit one, and unchecked 32-bit prefix
    sums: a result out of range is an overflow (UB; the narrowing itself is
    implementation-defined in C++17, treated here as UB). *)
Definition narrow32 (x : Z) : res Z := if in_int32 x then Ok x else UB.
Fixpoint accumulate32 (acc : Z) (l : list Z) : res (list Z) :=
  match l with
  | [] => Ok [acc]
  | s :: t => do next <- narrow32 (acc + s); do rest <- accumulate32 next t; Ok (acc :: rest)
  end.

(** 229-261 push constructor on all ranks.  [pushes]: for each rank the local
    row numbers to send and the starts per destination (size P+1). *)
Definition push_local (g : gomap) (P : nat) (rank : Z) (pu : list Z * list Z)
  : res (list Z * list Z * list Z) :=
  let (idxLocal, starts) := pu in
  do _ <- assert_ (zlen starts =? Z.of_nat P + 1);
  do tot <- vget starts (Z.of_nat P);
  do _ <- assert_ (zlen idxLocal =? tot);
  do sizes <- mapM (fun i => do b <- vget starts (i + 1); do a <- vget starts i; narrow32 (b - a))
                   (ranks P);
  do ends <- mapM narrow32 (tl starts);
  do glob <- mapM (fun i => toGlobal g rank i) idxLocal;
  (* pushIndexStarts[0] stays 0 (resize with 0); entries 1..P are copied *)
  Ok (sizes, 0 :: ends, glob).

Definition construct_push (g : gomap) (mains : list (Z * Z)) (pushes : list (list Z * list Z))
  : res (list ghostmap) :=
  let P := length pushes in
  do loc <- mapM (fun rp : Z * (list Z * list Z) => push_local g P (fst rp) (snd rp))
                 (combine (ranks P) pushes);
  let psizes := map (fun t => fst (fst t)) loc in
  let pstarts := map (fun t => snd (fst t)) loc in
  let pidx := map snd loc in
  do gsizes <- alltoall psizes;
  do gstarts <- mapM (accumulate32 0) gsizes;
  do gidx <- alltoallv
    (map (fun t => {| sv_buf := snd t; sv_cnt := fst (fst t); sv_dis := snd (fst t) |}) loc)
    (map (fun cs => {| rv_buf := repeat 0 (Z.to_nat (last (snd cs) 0));
                       rv_cnt := fst cs; rv_dis := snd cs |})
         (combine gsizes gstarts));
  Ok (map (fun t =>
        let '(m, (sz, (st, (ix, (psz, (pst, pix)))))) := t in
        {| mainOffset := fst m; mainSize := snd m;
           ghostSizes := sz; ghostIndex := ix; ghostStart := st;
           pushIndexSizes := psz; pushIndexStarts := pst; pushingIndexGlobal := pix |})
      (combine mains (combine gsizes (combine gstarts (combine gidx
        (combine psizes (combine pstarts pidx))))))).

(** 286-295 searchInMain. *)
Definition searchInMain (m : ghostmap) (q : Z) : option Z :=
  if (mainOffset m <=? q) && (q <? mainSize m + mainOffset m)
  then Some (q - mainOffset m) else None.

(** 298-312 searchInGhost: place relative to the rank's start. *)
Definition searchInGhost (m : ghostmap) (q rank : Z) : res (option Z) :=
  do _ <- assert_ ((0 <=? rank) && (rank <? zlen (ghostStart m) - 1));
  do b <- vget (ghostStart m) (rank + 1);
  do a <- vget (ghostStart m) rank;
  if b - a =? 0 then Ok None else
  do seg <- slice (ghostIndex m) a (b - a);
  let place := lb_lt seg q in
  match nth_error seg place with
  | Some x => if x =? q then Ok (Some (Z.of_nat place)) else Ok None
  | None => Ok None
  end.

(** 315-331 searchInAllGhost: (rank, place in the whole ghost array). *)
Definition searchInAllGhost (m : ghostmap) (q : Z) : res (option (Z * Z)) :=
  let place := lb_lt (ghostIndex m) q in
  match nth_error (ghostIndex m) place with
  | Some x =>
      if x =? q then
        let val := Z.of_nat place in
        let s_place := lb_le (ghostStart m) val in
        do _ <- assert_ (negb (s_place =? length (ghostStart m))%nat && (0 <? s_place)%nat);
        Ok (Some (Z.of_nat s_place - 1, val))
      else Ok None
  | None => Ok None
  end.

(** 334-347 search. *)
Definition search (m : ghostmap) (q : Z) : res (option (Z * Z)) :=
  match searchInMain m q with
  | Some v => Ok (Some (-1, v))
  | None => searchInAllGhost m q
  end.

(** 357-371 search_indexAppend. *)
Definition search_indexAppend (m : ghostmap) (q : Z) : res (option (Z * Z)) :=
  match searchInMain m q with
  | Some v => Ok (Some (-1, v))
  | None =>
      do o <- searchInAllGhost m q;
      match o with
      | Some (r, v) => Ok (Some (r, v + mainSize m))
      | None => Ok None
      end
  end.

(** 382-395 search_indexRank. *)
Definition search_indexRank (m : ghostmap) (q : Z) : res (option (Z * Z)) :=
  match searchInMain m q with
  | Some v => Ok (Some (-1, v))
  | None =>
      do o <- searchInAllGhost m q;
      match o with
      | Some (r, v) => do a <- vget (ghostStart m) r; Ok (Some (r, v - a))
      | None => Ok None
      end
  end.

(** 407-427 operator()(rank, val). *)
Definition mapIndex (m : ghostmap) (rank val : Z) : res Z :=
  if rank =? -1 then
    do _ <- assert_ (0 <=? val);
    if val <? mainSize m then Ok (val + mainOffset m)
    else
      do _ <- assert_ (val - mainSize m <? last (ghostStart m) 0);
      vat (ghostIndex m) (val - mainSize m)
  else
    do _ <- assert_ ((0 <=? rank) && (rank <? zlen (ghostStart m) - 1));
    do b <- vget (ghostStart m) (rank + 1);
    do a <- vget (ghostStart m) rank;
    do _ <- assert_ ((0 <=? val) && (val <? b - a));
    vget (ghostIndex m) (a + val).

(** ** Setting up ghosts on all ranks

    ArrayTransformer.hpp 222-226 createFatherGlobalMapping (ArrayTransformer.hpp
    119-126 createGlobalMapping) followed by 234-249 createGhostMapping with pull
    sets; [sizes] are the father sizes of the ranks. *)
Definition own_ranges (g : gomap) (sizes : list Z) : res (list (Z * Z)) :=
  mapM (fun rs : Z * Z => do o <- toGlobal g (fst rs) 0; Ok (o, snd rs))
       (combine (ranks (length sizes)) sizes).

Definition setup_pull (sizes : list Z) (pulls : list (list Z)) : res (gomap * list ghostmap) :=
  do g <- setMPIAlignBcast sizes;
  do mains <- own_ranges g sizes;
  do ms <- construct_pull g mains pulls;
  Ok (g, ms).

(** The same with 256-271 createGhostMapping with push lists. *)
Definition setup_push (sizes : list Z) (pushes : list (list Z * list Z))
  : res (gomap * list ghostmap) :=
  do g <- setMPIAlignBcast sizes;
  do mains <- own_ranges g sizes;
  do ms <- construct_push g mains pushes;
  Ok (g, ms).
