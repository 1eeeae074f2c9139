(** Distributed vectors in a parallel HDF5 file (src/DNDS/SerializerH5.cpp).

    The model is at the level of the whole communicator: one call of a method
    on every rank is one step, entry [r] of every argument list belongs to rank
    [r].  A dataset is the list of its elements, the group the serializer is in
    is a list of named datasets.  Element types are not distinguished (a vector
    is written and read with the same native type), neither are chunking and
    compression, which do not change what is stored. *)
From Coq Require Import List ZArith Bool String.
From Verif Require Import Base.Prelude Base.MPIModel.
Import ListNotations.
Local Open Scope Z_scope.

(** SerializerBase.hpp 7-9, 11-18 and 70-72: where a rank's part is placed. *)
Record goffset := { g_size : Z; g_off : Z }.
Definition off_unknown : goffset := {| g_size := 0; g_off := -9223372036854775808 |}.
Definition off_one : goffset := {| g_size := 0; g_off := -2 |}.
Definition off_parts : goffset := {| g_size := 0; g_off := -1 |}.

(** SerializerBase.hpp 48-54 operator== against the three constants, 61-64
    isDist. *)
Inductive kind := KUnknown | KOne | KParts | KDist | KBad.
Definition kind_of (o : goffset) : kind :=
  if g_off o =? g_off off_unknown then KUnknown
  else if g_off o =? -2 then KOne
  else if g_off o =? -1 then KParts
  else if 0 <=? g_off o then KDist else KBad.

(** SerializerBase.hpp 20-36 operator*, operator/ and 38-45 CheckMultipleOf
    (overflow not modelled; C++ division by zero is undefined). *)
Definition off_mul (o : goffset) (k : Z) : goffset :=
  {| g_size := g_size o * k; g_off := if 0 <=? g_off o then g_off o * k else g_off o |}.
Definition off_div (o : goffset) (k : Z) : res goffset :=
  if k =? 0 then UB
  else Ok {| g_size := Z.quot (g_size o) k;
             g_off := if 0 <=? g_off o then Z.quot (g_off o) k else g_off o |}.
Definition check_multiple (o : goffset) (k : Z) : res unit :=
  if 0 <=? g_off o then
    if k =? 0 then UB
    else do _ <- assert_ (Z.rem (g_size o) k =? 0); assert_ (Z.rem (g_off o) k =? 0)
  else Ok tt.

(** uint64_t and index (int64_t) conversions. *)
Definition u64 (x : Z) : Z := x mod 2 ^ 64.
Definition i64 (x : Z) : Z :=
  let y := x mod 2 ^ 64 in if y <? 2 ^ 63 then y else y - 2 ^ 64.

(** The datasets of a group. *)
Definition file := list (string * list Z).
Fixpoint dset (f : file) (name : string) : option (list Z) :=
  match f with
  | [] => None
  | (k, d) :: t => if String.eqb k name then Some d else dset t name
  end.
Fixpoint set_dset (f : file) (name : string) (d : list Z) : file :=
  match f with
  | [] => []
  | (k, d') :: t => if String.eqb k name then (k, d) :: t else (k, d') :: set_dset t name d
  end.

(** One rank's arguments of H5_WriteDataset: nGlobal, nOffset and the nLocal
    elements of its buffer. *)
Record wcall := { w_global : Z; w_off : Z; w_data : list Z }.

(** SerializerH5.cpp 244-282 H5_WriteDataset on every rank.  The creation is
    collective: the ranks must agree on the extent, and the name must be new.
    The new dataset holds HDF5's default fill value 0.  The ranks write their
    slabs in the order [sched], any order; a slab outside the extent is an HDF5
    error, caught by the assertion at 278. *)
Definition write_slab (f : file) (name : string) (c : wcall) : res file :=
  match dset f name with
  | None => Abort
  | Some d => match write_at d (w_off c) (w_data c) with
              | Ok d' => Ok (set_dset f name d')
              | _ => Abort
              end
  end.
Definition write_dataset (f : file) (name : string) (calls : list wcall) (sched : list nat)
  : res file :=
  do _ <- assert_ (forallb (fun c => (0 <=? w_global c) && (0 <=? w_off c)) calls);
  match calls with
  | [] => UB
  | c0 :: _ =>
    if forallb (fun c => w_global c =? w_global c0) calls then
      match dset f name with
      | Some _ => Abort
      | None =>
        foldM (fun g r => match nth_error calls r with
                          | Some c => write_slab g name c
                          | None => UB
                          end)
          ((name, repeat 0 (Z.to_nat (w_global c0))) :: f) sched
      end
    else UB
  end.

Definition offsets_name (name : string) : string := (name ++ "::rank_offsets")%string.

(** SerializerH5.cpp 325-327, 340-342: the rank writes its offset at its index
    of "name::rank_offsets", the last rank also the global size. *)
Definition offset_call (n : nat) (r : nat) (o : Z * Z) : wcall :=
  let (off, glob) := o in
  {| w_global := Z.of_nat n + 1; w_off := Z.of_nat r;
     w_data := if Nat.eqb r (n - 1) then [off; glob] else [off] |}.

Definition last_or0 (l : list Z) : Z := last l 0.

(** SerializerH5.cpp 285-353 WriteDataVector on every rank: [parts] are the
    ranks' vectors, [offs] the offsets they pass, which must be of one kind
    since the branches make different collective calls.  [s1] and [s2] are the
    orders in which the ranks' writes to the two datasets happen. *)
Definition write_vector (f : file) (name : string) (parts : list (list Z))
    (offs : list goffset) (s1 s2 : list nat) : res file :=
  let n := List.length parts in
  let ids := seq 0 n in
  match offs with
  | [] => UB
  | o0 :: _ =>
    match kind_of o0 with
    | KOne =>
      if forallb (fun o => match kind_of o with KOne => true | _ => false end) offs then
        write_dataset f name
          (map (fun rp => {| w_global := zlen (snd rp); w_off := 0;
                             w_data := if Nat.eqb (fst rp) 0 then snd rp else [] |})
             (combine ids parts)) s1
      else UB
    | KParts =>
      if forallb (fun o => match kind_of o with KParts => true | _ => false end) offs then
        let sizes := map zlen parts in
        let incl := map u64 (scan_sum sizes) in
        let glob := last_or0 incl in
        let starts := map (fun p => u64 (fst p - snd p)) (combine incl sizes) in
        do f1 <- write_dataset f name
          (map (fun sp => {| w_global := i64 glob; w_off := i64 (fst sp); w_data := snd sp |})
             (combine starts parts)) s1;
        write_dataset f1 (offsets_name name)
          (map (fun rs => offset_call n (fst rs) (i64 (snd rs), i64 glob)) (combine ids starts)) s2
      else UB
    | KDist =>
      if forallb (fun o => match kind_of o with KDist => true | _ => false end) offs then
        do f1 <- write_dataset f name
          (map (fun op => {| w_global := g_size (fst op); w_off := g_off (fst op);
                             w_data := snd op |})
             (combine offs parts)) s1;
        write_dataset f1 (offsets_name name)
          (map (fun ro => offset_call n (fst ro) (g_off (snd ro), g_size (snd ro)))
             (combine ids offs)) s2
      else UB
    | _ => Abort
    end
  end.

(** SerializerH5.cpp 513-547 H5_ReadDataset with a buffer: a slab of an existing
    dataset; outside the extent HDF5 reports an error, which is asserted. *)
Definition read_slab (f : file) (name : string) (off n : Z) : res (list Z) :=
  match dset f name with
  | None => Abort
  | Some d => match slice d off n with Ok s => Ok s | _ => Abort end
  end.

(** SerializerH5.cpp 550-667 ReadDataVector with a null buffer on rank [r] of
    [n]: the size of the rank's part and the offset it will be read with. *)
Definition query (f : file) (name : string) (n : nat) (r : nat) (o : goffset)
  : res (Z * goffset) :=
  match kind_of o with
  | KUnknown =>
    match dset f name, dset f (offsets_name name) with
    | Some d, Some ro =>
      if zlen ro =? Z.of_nat n + 1 then
        do two <- read_slab f (offsets_name name) (Z.of_nat r) 2;
        do a <- vget two 0;
        do b <- vget two 1;
        do _ <- assert_ (a <=? b);
        Ok (b - a, {| g_size := zlen d; g_off := a |})
      else Abort
    | _, _ => Abort
    end
  | KOne => match dset f name with Some d => Ok (zlen d, o) | None => Abort end
  | KDist => match dset f name with Some _ => Ok (0, o) | None => Abort end
  | _ => Abort
  end.

(** The same function with the caller's buffer of [size] elements, which is
    null when [null] is set (the [data()] of a vector that never held anything):
    returns the elements read, and whether the rank called H5Dread. *)
Definition fetch (f : file) (name : string) (size : Z) (o : goffset) (null : bool)
  : res (list Z * bool) :=
  match kind_of o with
  | KOne =>
    if null then match dset f name with Some _ => Ok ([], false) | None => Abort end
    else do v <- read_slab f name 0 size;
         match dset f name with
         | Some d => do _ <- assert_ (size =? zlen d); Ok (v, true)
         | None => Abort
         end
  | KDist =>
    do _ <- assert_ ((size =? 0) || negb null);
    if null then match dset f name with Some _ => Ok ([], false) | None => Abort end
    else do v <- read_slab f name (g_off o) size; Ok (v, true)
  | _ => Abort
  end.

(** SerializerH5.cpp 684-709 ReadIndexVector / ReadRowsizeVector /
    ReadRealVector on every rank: query, resize, read.  [fresh r] says that the
    vector rank [r] passes has never had any capacity, so that its [data()] is
    null if it stays empty.  With collective transfers (SerializerH5.hpp 26, 42-46)
    H5Dread must be called by all ranks or by none: otherwise the callers wait
    for ever, [UB] here. *)
Definition read_vector (f : file) (coll : bool) (name : string)
    (rq : list (goffset * bool)) : res (list (list Z * goffset)) :=
  let n := List.length rq in
  do qs <- mapM (fun x => query f name n (fst x) (fst (snd x))) (combine (seq 0 n) rq);
  do vs <- mapM (fun x : (Z * goffset) * (goffset * bool) =>
                   let '((size, o), (_, fresh)) := x in
                   fetch f name size o (fresh && (size =? 0)))
             (combine qs rq);
  if coll && negb (forallb snd vs) && existsb snd vs then UB
  else Ok (combine (map fst vs) (map snd qs)).
