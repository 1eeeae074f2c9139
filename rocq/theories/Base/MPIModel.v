(** Collective communication, as the MPI standard defines it, on the vector of
    all ranks' buffers.  Entry [r] of a world list belongs to rank [r]. *)
From Coq Require Import List ZArith Bool.
From Verif Require Import Base.Prelude.
Import ListNotations.
Local Open Scope Z_scope.

(** The ranks [0 .. n-1]. *)
Definition ranks (n : nat) : list Z := map Z.of_nat (seq 0 n).

(** [n] elements of a buffer from displacement [off]; outside the buffer is UB. *)
Definition slice {A} (l : list A) (off n : Z) : res (list A) :=
  if (off <? 0) || (n <? 0) || (zlen l <? off + n) then UB
  else Ok (firstn (Z.to_nat n) (skipn (Z.to_nat off) l)).

(** Overwrite part of a buffer. *)
Definition write_at {A} (buf : list A) (off : Z) (seg : list A) : res (list A) :=
  if (off <? 0) || (zlen buf <? off + zlen seg) then UB
  else Ok (firstn (Z.to_nat off) buf ++ seg ++ skipn (Z.to_nat off + length seg) buf).

(** MPI_Alltoall with one element per pair of ranks: rank [r] receives in
    position [s] what rank [s] has in position [r]. *)
Definition alltoall {A} (send : list (list A)) : res (list (list A)) :=
  mapM (fun r => mapM (fun row => vget row r) send) (ranks (length send)).

(** One rank's arguments to MPI_Alltoallv (send side, receive side). *)
Record a2av_send (A : Type) := { sv_buf : list A; sv_cnt : list Z; sv_dis : list Z }.
Record a2av_recv (A : Type) := { rv_buf : list A; rv_cnt : list Z; rv_dis : list Z }.
Arguments sv_buf {A}. Arguments sv_cnt {A}. Arguments sv_dis {A}.
Arguments rv_buf {A}. Arguments rv_cnt {A}. Arguments rv_dis {A}.

(** MPI_Alltoallv.  Rank [r]'s receive buffer gets, for every sender [s], the
    segment [s] addresses to [r], written at [r]'s displacement for [s].  A
    count mismatch between sender and receiver is erroneous in MPI: UB here. *)
Definition alltoallv {A} (snd_ : list (a2av_send A)) (rcv : list (a2av_recv A))
  : res (list (list A)) :=
  mapM (fun rw : Z * a2av_recv A =>
      let (r, w) := rw in
      foldM (fun buf sx =>
          let '(s, x) := (sx : Z * a2av_send A) in
          do c <- vget (sv_cnt x) r;
          do d <- vget (sv_dis x) r;
          do c' <- vget (rv_cnt w) s;
          do d' <- vget (rv_dis w) s;
          do seg <- slice (sv_buf x) d c;
          if c =? c' then write_at buf d' seg else UB)
        (rv_buf w) (combine (ranks (length snd_)) snd_))
    (combine (ranks (length rcv)) rcv).

(** MPI_Allreduce (every rank gets the same value), MPI_Scan (inclusive). *)
Definition allreduce {A} (op : A -> A -> A) (unit : A) (l : list A) : list A :=
  map (fun _ => fold_left op l unit) l.
Definition scan_sum (l : list Z) : list Z :=
  map (fun i => zsum (firstn (S i) l)) (seq 0 (length l)).
