(** Model of src/DNDS/ArrayTransformer.hpp 270-960: communication types and ghost
    exchange.

    A rank's state is a [world] whose arrays 0 and 1 are the father and the son.
    Simplifications: one array element is one MPI element ([getTypeMult] = 1);
    performance timers, strong-sync barriers and buffered sends are left out.
    A message is the list of the elements its sender's type selects; its receiver
    stores them at the places its own type selects.  Elements may be transferred
    in any order; tags distinguish the pairs of ranks. *)
From Coq Require Import List ZArith Bool Arith.
From Verif Require Import Base.Prelude Base.MPIModel DNDS.DefinesModel DNDS.IndexMappingModel
  DNDS.ArrayModel.
Import ListNotations.
Local Open Scope Z_scope.

Section Exchange.
Variable T : Type.
Variable dflt : T.

Inductive strategy := HIndexed | InSituPack.   (* MPI.hpp 401-430 *)

(** 279: DNDS_assert(bool(father) && bool(son)) *)
Definition get_arr (w : world T) (id : nat) : res (arr T) :=
  match nth_error (arrs w) id with Some a => Ok a | None => Abort end.
Definition father := 0%nat.
Definition son := 1%nat.

(** Difference of two row addresses of one array (302, 432-436).  Addresses of
    different row vectors are not comparable. *)
Definition ptr_diff (p q : rowptr) : res Z :=
  match p, q with
  | PData a, PData b => Ok (a - b)
  | PNull, PNull => Ok 0
  | PRow i, PRow j => if i =? j then Ok 0 else UB
  | _, _ => UB
  end.

(** 303-308 (also 626-632, 722-728): the number of elements of a row to send. *)
Definition push_row_size (h : heap) (a : arr T) (loc : Z) : res Z :=
  match lay a with
  | CSR => RowSizeField h a loc
  | Max | StaticMax _ => RowSize h a loc
  | Fixed | StaticFixed _ => RowSizeField0 a
  end.

(** 282-312: local part.  Result: the rank's state, the rows to send (local
    numbers), their sizes and displacements.  The displacements are used with
    derived datatypes only and are not computed otherwise (the code computes
    them always; on an uncompressed array that subtracts unrelated pointers). *)
Definition push_rows (st : strategy) (w : world T) (m : ghostmap)
  : res (world T * list (Z * Z * Z)) :=
  do w1 <- match st with HIndexed => do_call dflt w father CCompress | InSituPack => Ok w end;
  do a <- get_arr w1 father;
  do _ <- get_arr w1 son;
  do p0 <- row_ (hp w1) a 0;
  do rows <- mapM (fun q =>
      do o <- search m q;
      match o with
      | Some (rank, loc) =>
          do _ <- assert_ (rank =? -1);
          do p <- row_ (hp w1) a loc;
          do d <- match st with HIndexed => ptr_diff p p0 | InSituPack => Ok 0 end;
          do n <- push_row_size (hp w1) a loc;
          Ok (loc, n, d)
      | None => Abort
      end) (pushingIndexGlobal m);
  Ok (w1, rows).

Definition on_son (w : world T) (f : heap -> nat -> arr T -> res (heap * arr T)) : res (world T) :=
  do a <- get_arr w son; put w son (f (hp w) (uses w (pSizes a)) a).

(** 321-347: resizing of the son before the sizes are exchanged. *)
Definition resize_son1 (P : nat) (w : world T) (m : ghostmap) : res (world T) :=
  do n <- vget (ghostStart m) (zlen (ghostStart m) - 1);
  do _ <- assert_ (Z.of_nat P =? zlen (ghostStart m) - 1);
  do a <- get_arr w father;
  match lay a with
  | StaticFixed _ => on_son w (fun h u s => Resize1 dflt h u s n)
  | Fixed => do rs <- RowSize0 a; on_son w (fun h u s => Resize2 dflt h u s n rs)
  | Max => do rm <- RowSizeMax a; on_son w (fun h u s => Resize2 dflt h u s n rm)
  | StaticMax _ => on_son w (fun h u s => Resize1 dflt h u s n)
  | CSR => Ok w
  end.

(** 356-372: resizing of the son with the received sizes. *)
Definition resize_son2 (w : world T) (m : ghostmap) (sizes : list Z) : res (world T) :=
  do n <- vget (ghostStart m) (zlen (ghostStart m) - 1);
  do a <- get_arr w father;
  let rows w' := foldM (fun w i => do sz <- vget sizes i;
                          on_son w (fun h u s => ResizeRow dflt h u s i sz)) w' in
  match lay a with
  | StaticFixed _ | Fixed => Ok w
  | Max =>
      do rm <- RowSizeMax a;
      do w' <- on_son w (fun h u s => Resize2 dflt h u s n rm);
      do s <- get_arr w' son; rows w' (ranks (Z.to_nat (size s)))
  | StaticMax _ =>
      do w' <- on_son w (fun h u s => Resize1 dflt h u s n);
      do s <- get_arr w' son; rows w' (ranks (Z.to_nat (size s)))
  | CSR => on_son w (fun h u s => ResizeF dflt h s sizes)
  end.

(** An hindexed datatype: blocks (length, displacement), in elements. *)
Definition dtype := list (Z * Z).

(** What one rank knows after createMPITypes. *)
Record trans := {
  tw : world T; tm : ghostmap;
  tloc : list Z;                     (* pushingIndexLocal *)
  pushTypes : list (Z * dtype);      (* pPushTypeVec *)
  pullTypes : list (Z * dtype)       (* pPullTypeVec *)
}.

(** 385-449: datatypes of one rank ([rows]: local row, size, displacement). *)
Definition push_types (w : world T) (m : ghostmap) (rows : list (Z * Z * Z)) (P : nat)
  : res (list (Z * dtype)) :=
  do s <- get_arr w son;
  (* 377-381: max layouts send whole strides *)
  do sizes <- match lay s with
              | Max | StaticMax _ => mapM (fun _ : Z * Z * Z => RowSizeField0 s) rows
              | _ => Ok (map (fun r => snd (fst r)) rows)
              end;
  let disps := map snd rows in
  do l <- mapM (fun r =>
      do n <- vget (pushIndexSizes m) r;
      do b <- vget (pushIndexStarts m) r;
      do ss <- slice sizes b n;
      do dd <- slice disps b n;
      Ok (if 0 <? zsum ss then [(r, combine ss dd)] else [])) (ranks P);
  Ok (concat l).

(** 431-437: the part of the son that belongs to rank [r]: (start, length). *)
Definition ghost_span (w : world T) (m : ghostmap) (r : Z) : res (Z * Z) :=
  do s <- get_arr w son;
  do g1 <- vget (ghostStart m) (r + 1);
  do g0 <- vget (ghostStart m) r;
  do pR <- row_ (hp w) s g1;
  do pL <- row_ (hp w) s g0;
  do p0 <- row_ (hp w) s 0;
  do span <- ptr_diff pR pL;
  do start <- ptr_diff pL p0;
  Ok (start, span).

Definition pull_types (w : world T) (m : ghostmap) (P : nat) : res (list (Z * dtype)) :=
  do l <- mapM (fun r =>
      do ss <- ghost_span w m r;
      do _ <- assert_ ((snd ss <? int32_max) && (fst ss <? int32_max));
      Ok (if 0 <? snd ss then [(r, [(snd ss, fst ss)])] else [])) (ranks P);
  Ok (concat l).

(** 277-471 createMPITypes on all ranks. *)
Definition is_fixed (l : layout) : bool :=
  match l with Fixed | StaticFixed _ => true | _ => false end.

Definition createMPITypes (st : strategy) (ws : list (world T)) (ms : list ghostmap) : res (list trans) :=
  let P := length ms in
  do pr <- mapM (fun wm => push_rows st (fst wm) (snd wm)) (combine ws ms);
  let ws1 := map fst pr in
  let sizes := map (fun p => map (fun r => snd (fst r)) (snd p)) pr in
  do ws2 <- mapM (fun wm => resize_son1 P (fst wm) (snd wm)) (combine ws1 ms);
  do pull <- alltoallv
     (map (fun sm => {| sv_buf := fst sm; sv_cnt := pushIndexSizes (snd sm);
                        sv_dis := pushIndexStarts (snd sm) |}) (combine sizes ms))
     (map (fun m => {| rv_buf := repeat 0 (Z.to_nat (last (ghostStart m) 0));
                       rv_cnt := ghostSizes m; rv_dis := ghostStart m |}) ms);
  do ws3 <- mapM (fun wmz => resize_son2 (fst wmz) (fst (snd wmz)) (snd (snd wmz)))
                 (combine ws2 (combine ms pull));
  mapM (fun x => let '(w, (m, p)) := x in
      let rows := snd p in
      do tys <- match st with
        | HIndexed =>
            do pu <- push_types w m rows P;
            do pl <- pull_types w m P;
            Ok (pu, pl)
        | InSituPack => Ok ([], [])
        end;
      Ok {| tw := w; tm := m; tloc := map (fun r => fst (fst r)) rows;
            pushTypes := fst tys; pullTypes := snd tys |})
    (combine ws3 (combine ms pr)).

(** ** Exchange with derived datatypes *)

(** The element offsets a datatype selects, in order. *)
Definition expand (t : dtype) : list Z :=
  concat (map (fun b => map (fun k => snd b + k) (ranks (Z.to_nat (fst b)))) t).

Definition type_for (tys : list (Z * dtype)) (r : Z) : option dtype :=
  option_map snd (find (fun x => fst x =? r) tys).

(** A message from rank [fst (fst _)] to rank [snd (fst _)] with the pairs (offset
    at the sender, offset at the receiver) of its elements. *)
Definition message := ((Z * Z) * list (Z * Z))%type.

(** One message per ordered pair of ranks for which both sides have a datatype
    (487-517, 554-585).  [Ok None]: a send or a receive has no partner and never
    completes.  A message longer than its receiver's type is an MPI error. *)
Definition match_pair (out inn : option dtype) : res (option (list (Z * Z))) :=
  match out, inn with
  | None, None => Ok (Some [])
  | Some o, Some i =>
      if (length (expand o) <=? length (expand i))%nat
      then Ok (Some (combine (expand o) (expand i))) else Abort
  | _, _ => Ok None
  end.

(** [out] / [inn]: the types each rank sends / receives with. *)
Definition messages (out inn : list (list (Z * dtype))) : res (option (list message)) :=
  let n := length out in
  do l <- mapM (fun sr => do so <- vget out (fst sr); do ri <- vget inn (snd sr);
                          do o <- match_pair (type_for so (snd sr)) (type_for ri (fst sr));
                          Ok (option_map (fun x => (sr, x)) o))
               (list_prod (ranks n) (ranks n));
  Ok (if forallb (fun o => match o with Some _ => true | None => false end) l
      then Some (concat (map (fun o => match o with Some x => [x] | None => [] end) l)) else None).

Definition pull_messages (ts : list trans) : res (option (list message)) :=
  messages (map pushTypes ts) (map pullTypes ts).
Definition push_messages (ts : list trans) : res (option (list message)) :=
  messages (map pullTypes ts) (map pushTypes ts).

(** The transfer of one element: (sender, offset, receiver, offset). *)
Definition move := ((Z * Z) * (Z * Z))%type.
Definition moves_of (m : message) : list move :=
  map (fun pq => ((fst (fst m), fst pq), (snd (fst m), snd pq))) (snd m).

(** [src]: the buffers sent from, [dst]: the buffers received into. *)
Definition transfer (src : list (list T)) (dst : list (list T)) (mv : move) : res (list (list T)) :=
  do b <- vget src (fst (fst mv)); do x <- vget b (snd (fst mv));
  do d <- vget dst (fst (snd mv)); do d' <- vset d (snd (snd mv)) x;
  vset dst (fst (snd mv)) d'.

Definition buffers (id : nat) (ws : list (world T)) : res (list (list T)) :=
  mapM (fun w => do a <- get_arr w id; Ok (dat a)) ws.
Definition set_buffers (id : nat) (ws : list (world T)) (bs : list (list T)) : res (list (world T)) :=
  mapM (fun wb => do a <- get_arr (fst wb) id;
                  put (fst wb) id (Ok (hp (fst wb), with_dat a (snd wb)))) (combine ws bs).

(** 751-775 + 852-882: a pull in which the elements are transferred in the order
    [mvs]; 658-681 + 782-812: a push. *)
Definition exchange (from to : nat) (ws : list (world T)) (mvs : list move) : res (list (world T)) :=
  do s <- buffers from ws;
  do d <- buffers to ws;
  do d' <- foldM (transfer s) d mvs;
  set_buffers to ws d'.
Definition pull_exchange := exchange father son.
Definition push_exchange := exchange son father.

(** ** Exchange with in-situ packing *)

(** The [n] elements at a row address (738, 830). *)
Definition read_row (a : arr T) (p : rowptr) (n : Z) : res (list T) :=
  match p with
  | PData off => slice (dat a) off n
  | PRow i => do r <- vget (unc a) i; slice r 0 n
  | PNull => if n =? 0 then Ok [] else UB
  end.
Definition write_row (a : arr T) (p : rowptr) (v : list T) : res (arr T) :=
  match p with
  | PData off => do d <- write_at (dat a) off v; Ok (with_dat a d)
  | PRow i => do r <- vget (unc a) i; do r' <- write_at r 0 v; do u <- vset (unc a) i r';
              Ok (with_unc a u)
  | PNull => match v with [] => Ok a | _ => UB end
  end.

(** The local rows for rank [r] (720, 824): pushingIndexLocal.at(start + i). *)
Definition rows_for (t : trans) (r : Z) : res (list Z) :=
  do n <- vget (pushIndexSizes (tm t)) r;
  do b <- vget (pushIndexStarts (tm t)) r;
  mapM (fun i => vat (tloc t) (b + i)) (ranks (Z.to_nat n)).

(** 711-747: the packed rows for rank [r]; [None]: nothing is sent. *)
Definition pack (t : trans) (r : Z) : res (option (list T)) :=
  do n <- vget (pushIndexSizes (tm t)) r;
  if 0 <? n then
    do a <- get_arr (tw t) father;
    do locs <- rows_for t r;
    do rows <- mapM (fun loc => do k <- push_row_size (hp (tw t)) a loc;
                                do p <- row_ (hp (tw t)) a loc; read_row a p k) locs;
    Ok (Some (concat rows))
  else Ok None.

(** 689-749 + 883-890: a pull with in-situ packing; messages complete in the order
    [order] (pairs (sender, receiver)).  [Ok None]: some send or receive has no
    partner. *)
Definition insitu_pull (ts : list trans) (order : list (Z * Z)) : res (option (list (world T))) :=
  let n := length ts in
  do packed <- mapM (fun t => mapM (pack t) (ranks n)) ts;
  do spans <- mapM (fun t => mapM (ghost_span (tw t) (tm t)) (ranks n)) ts;
  do fits <- mapM (fun sr => do row <- vget packed (fst sr); do o <- vget row (snd sr);
                             do spr <- vget spans (snd sr); do ss <- vget spr (fst sr);
                             match o, 0 <? snd ss with
                             | None, false => Ok true
                             | Some v, true => if zlen v <=? snd ss then Ok true else Abort
                             | _, _ => Ok false
                             end) (list_prod (ranks n) (ranks n));
  if forallb (fun b => b) fits then
    do d <- buffers son (map tw ts);
    do d' <- foldM (fun d sr =>
        do row <- vget packed (fst sr); do o <- vget row (snd sr);
        match o with
        | None => Ok d
        | Some v =>
            do spr <- vget spans (snd sr); do ss <- vget spr (fst sr);
            do b <- vget d (snd sr); do b' <- write_at b (fst ss) v; vset d (snd sr) b'
        end) d order;
    do ws <- set_buffers son (map tw ts) d';
    Ok (Some ws)
  else Ok None.

(** 813-842 waitPersistentPush with in-situ packing, on one rank: the received
    buffers (one per rank with rows to send, in rank order) are unpacked.
    [buf] are the buffers not yet consumed. *)
Fixpoint unpack_loop (t : trans) (rs : list Z) (buf : list (list T)) (w : world T) : res (world T) :=
  match rs with
  | [] => Ok w
  | r :: rs' =>
      do _ <- assert_ (match buf with [] => false | _ => true end);
      do n <- vget (pushIndexSizes (tm t)) r;
      if 0 <? n then
        match buf with
        | [] => Abort
        | v :: buf' =>
            do a <- get_arr w father;
            do locs <- rows_for t r;
            do av <- foldM (fun (av : arr T * Z) loc =>
                do k <- push_row_size (hp w) (fst av) loc;
                do p <- row_ (hp w) (fst av) loc;
                do x <- slice v (snd av) k;
                do a' <- write_row (fst av) p x;
                Ok (a', snd av + k)) (a, 0) locs;
            do w' <- put w father (Ok (hp w, fst av));
            unpack_loop t rs' buf' w'
        end
      else unpack_loop t rs' buf w
  end.

(** 612-637 __InSituPackStartPush: the length of the buffer to receive from rank
    [r] in; [None]: nothing is received. *)
Definition push_room (t : trans) (r : Z) : res (option Z) :=
  do n <- vget (pushIndexSizes (tm t)) r;
  if 0 <? n then
    do a <- get_arr (tw t) father;
    do locs <- rows_for t r;
    do ks <- mapM (push_row_size (hp (tw t)) a) locs;
    Ok (Some (zsum ks))
  else Ok None.

(** 609-655 + 813-842: a push with in-situ packing.  Every rank sends its ghost
    rows (638-654) and unpacks what it received.  [Ok None]: some send or receive
    has no partner.  Buffers start with default elements (630). *)
Definition insitu_push (ts : list trans) : res (option (list (world T))) :=
  let n := length ts in
  do rooms <- mapM (fun t => mapM (push_room t) (ranks n)) ts;
  do spans <- mapM (fun t => mapM (ghost_span (tw t) (tm t)) (ranks n)) ts;
  do fits <- mapM (fun sr => do row <- vget rooms (fst sr); do o <- vget row (snd sr);
                             do spr <- vget spans (snd sr); do ss <- vget spr (fst sr);
                             match o, 0 <? snd ss with
                             | None, false => Ok true
                             | Some k, true => if snd ss <=? k then Ok true else Abort
                             | _, _ => Ok false
                             end) (list_prod (ranks n) (ranks n));
  if forallb (fun b => b) fits then
    do d <- buffers son (map tw ts);
    do ws <- mapM (fun x : Z * trans =>
        do bufs <- mapM (fun r =>
            do row <- vget rooms (fst x); do o <- vget row r;
            match o with
            | None => Ok []
            | Some k =>
                do spr <- vget spans r; do ss <- vget spr (fst x);
                do b <- vget d r; do v <- slice b (fst ss) (snd ss);
                Ok [v ++ repeat dflt (Z.to_nat (k - snd ss))]
            end) (ranks n);
        unpack_loop (snd x) (ranks n) (concat bufs) (tw (snd x))) (combine (ranks n) ts);
    Ok (Some ws)
  else Ok None.

End Exchange.
Arguments tw {T}. Arguments tm {T}. Arguments tloc {T}. Arguments pushTypes {T}. Arguments pullTypes {T}.
Arguments get_arr {T}. Arguments push_row_size {T}. Arguments push_rows {T}. Arguments on_son {T}.
Arguments resize_son1 {T}. Arguments resize_son2 {T}. Arguments push_types {T}. Arguments ghost_span {T}.
Arguments pull_types {T}. Arguments createMPITypes {T}. Arguments pull_messages {T}.
Arguments push_messages {T}. Arguments transfer {T}. Arguments buffers {T}. Arguments set_buffers {T}.
Arguments exchange {T}. Arguments pull_exchange {T}. Arguments push_exchange {T}.
Arguments read_row {T}. Arguments write_row {T}. Arguments rows_for {T}. Arguments pack {T}.
Arguments insitu_pull {T}. Arguments unpack_loop {T}. Arguments push_room {T}. Arguments insitu_push {T}.

(** 934-940 pushOnce with in-situ packing, on one rank that received [bufs]: the
    wait (797-842), then clearPersistentPush (899-903), which waits again after
    839 has emptied the buffers. *)
Definition insitu_push_once {T} (P : nat) (t : trans T) (bufs : list (list T)) (w : world T) : res (world T) :=
  do w1 <- unpack_loop t (ranks P) bufs w;
  unpack_loop t (ranks P) [] w1.
