(** Model of the order in which persistent requests are started and waited for:
    src/DNDS/ArrayTransformer.hpp 481-607 (request vectors), 658-687 and 751-780
    (start), 782-812 and 852-882 (wait), 899-940 (clear, pullOnce, pushOnce), with
    MPI's rules for requests: a transfer completes a started send and the started
    receive that matches it; waiting returns when the request is not active.
    Buffers are left out.  Two requests match when they name each other's ranks;
    the code's tag, the sum of the two ranks, distinguishes nothing more. *)
From Coq Require Import List ZArith Bool Arith.
From Verif Require Import Base.Prelude DNDS.ExchangeModel.
Import ListNotations.

Inductive req := Send (to : nat) | Recv (from : nat).
Inductive instr := Start (k : nat) | Wait (k : nat).   (* request numbers *)

Definition is_recv (q : req) : bool := match q with Recv _ => true | Send _ => false end.
Definition n_recv (reqs : list req) : nat := length (filter is_recv reqs).

(** 562-590: pull requests are receives, then sends.  495-519: push requests are
    stored with the sends first. *)
Definition pull_reqs {T} (t : trans T) : list req :=
  map (fun x => Recv (Z.to_nat (fst x))) (pullTypes t) ++ map (fun x => Send (Z.to_nat (fst x))) (pushTypes t).
Definition push_reqs {T} (t : trans T) : list req :=
  map (fun x => Send (Z.to_nat (fst x))) (pullTypes t) ++ map (fun x => Recv (Z.to_nat (fst x))) (pushTypes t).

(** One start/wait cycle: 672, 769 MPI_Startall; 811, 881 WaitallAuto. *)
Definition cycle_all (reqs : list req) : list instr :=
  map Start (seq 0 (length reqs)) ++ map Wait (seq 0 (length reqs)).

(** The same with GetUseAsyncOneByOne: 799-808, 868-877.  [n_recv reqs] is
    nRecvPushReq / nRecvPullReq. *)
Definition cycle_one_by_one (reqs : list req) : list instr :=
  map Start (seq 0 (n_recv reqs)) ++
  flat_map (fun k => [Start k; Wait k]) (seq (n_recv reqs) (length reqs - n_recv reqs)) ++
  map Wait (seq 0 (n_recv reqs)).

Definition cycle (one_by_one : bool) (reqs : list req) : list instr :=
  if one_by_one then cycle_one_by_one reqs else cycle_all reqs.

(** 926-940: pullOnce and pushOnce start and wait, and then clear, which waits
    again (899-908). *)
Definition once (one_by_one : bool) (reqs : list req) : list instr :=
  if one_by_one then cycle_one_by_one reqs ++ cycle_one_by_one reqs
  else cycle_all reqs ++ map Wait (seq 0 (length reqs)).

(** ** Executions *)

(** [todo r]: what rank [r] still has to do; [active r]: its active requests;
    [log]: the transfers (sender, receiver) so far, latest first. *)
Record state := { todo : nat -> list instr; active : nat -> list nat; log : list (nat * nat) }.

Definition set {A} (f : nat -> A) (r : nat) (x : A) : nat -> A := fun i => if i =? r then x else f i.
Definition drop (k : nat) (l : list nat) : list nat := filter (fun i => negb (i =? k)) l.

Definition begin (progs : list (list instr)) : state :=
  {| todo := fun r => nth r progs []; active := fun _ => []; log := [] |}.

Section Steps.
(** [eager]: a send may be buffered, so that waiting for it does not need the
    receiver.  MPI leaves that to the implementation. *)
Variable eager : bool.
Variable reqs : list (list req).

Definition request (r k : nat) : option req := nth_error (nth r reqs []) k.

Inductive rstep : state -> state -> Prop :=
| st_start : forall st r k t, todo st r = Start k :: t ->
    rstep st {| todo := set (todo st) r t; active := set (active st) r (k :: active st r); log := log st |}
| st_wait : forall st r k t, todo st r = Wait k :: t ->
    ~ In k (active st r) \/ (eager = true /\ exists x, request r k = Some (Send x)) ->
    rstep st {| todo := set (todo st) r t; active := active st; log := log st |}
| st_transfer : forall st s k r j, request s k = Some (Send r) -> request r j = Some (Recv s) ->
    In k (active st s) -> In j (active st r) ->
    rstep st {| todo := todo st;
                active := let a := set (active st) s (drop k (active st s)) in set a r (drop j (a r));
                log := (s, r) :: log st |}.

Inductive rsteps : nat -> state -> state -> Prop :=
| rs_nil : forall st, rsteps 0 st st
| rs_cons : forall n st st' st'', rsteps n st st' -> rstep st' st'' -> rsteps (S n) st st''.

Definition finished (st : state) : Prop := forall r, todo st r = [].
Definition stuck (st : state) : Prop := ~ finished st /\ forall st', ~ rstep st st'.

End Steps.

(** Every send has its receive, and no rank has two requests for the same
    transfer. *)
Definition paired (reqs : list (list req)) : Prop :=
  Forall (fun l => NoDup l) reqs /\
  forall s r, In (Send r) (nth s reqs []) <-> In (Recv s) (nth r reqs []).

(** The transfers the requests describe. *)
Definition transfers (reqs : list (list req)) : list (nat * nat) :=
  concat (map (fun r => flat_map (fun q => match q with Recv s => [(s, r)] | Send _ => [] end)
                                 (nth r reqs [])) (seq 0 (length reqs))).

Definition recvs_first (l : list req) : Prop :=
  exists a b, l = a ++ b /\ Forall (fun q => is_recv q = true) a /\ Forall (fun q => is_recv q = false) b.
