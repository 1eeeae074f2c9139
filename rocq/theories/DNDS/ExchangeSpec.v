(** What users of father/son arrays and ghost exchanges rely on, in terms of the
    arrays' readers. *)
From Coq Require Import List ZArith Bool Arith Permutation.
From Verif Require Import Base.Prelude Base.MPIModel DNDS.IndexMappingModel DNDS.IndexMappingSpec
  DNDS.ArrayModel DNDS.ArraySpec DNDS.ExchangeModel.
Import ListNotations.
Local Open Scope Z_scope.

Section Spec.
Variable T : Type.
Variable dflt : T.

(** Row [k] of array [b] reads as row [i] of array [a]. *)
Definition same_row (h : heap) (a : arr T) (i : nat) (h' : heap) (b : arr T) (k : nat) : Prop :=
  RowSize h' b (Z.of_nat k) = RowSize h a (Z.of_nat i) /\
  forall j, at_ h' b (Z.of_nat k) j = at_ h a (Z.of_nat i) j.

(** Array number [id] of rank [r]. *)
Definition array_of (ws : list (world T)) (r id : nat) (h : heap) (a : arr T) : Prop :=
  exists w, nth_error ws r = Some w /\ h = hp w /\ nth_error (arrs w) id = Some a.

(** Ghost mappings obtained from the library, built by pulling or by pushing. *)
Definition mapped (lens : list nat) (ms : list ghostmap) : Prop :=
  (exists pulls g, length pulls = length lens /\ setup_pull (map Z.of_nat lens) pulls = Ok (g, ms)) \/
  (exists L g, pushes_ok lens L /\ setup_push (map Z.of_nat lens) (map push_args L) = Ok (g, ms)).

(** Ghost row [k] of rank [r] is a copy of row [i] of rank [s]. *)
Definition ghost_of (lens : list nat) (ms : list ghostmap) (r k s i : nat) : Prop :=
  exists m q, nth_error ms r = Some m /\ nth_error (ghostIndex m) k = Some q /\
    item_at lens q = Some (s, i).

(** The number of elements a row occupies in an exchange. *)
Definition row_cells (h : heap) (a : arr T) (i : nat) : res Z :=
  match lay a with CSR => RowSize h a (Z.of_nat i) | _ => RowSizeField0 a end.

(** Before [createMPITypes]: each rank has a father with [nth r lens] rows and a
    son of the same class, in any state their calls can lead to; dynamic widths
    agree between ranks (and a max-layout son has no longer rows); each rank's
    ghost rows have fewer than 2^31-1 elements in total. *)
Record ready (lens : list nat) (ms : list ghostmap) (l : layout) (ws : list (world T)) : Prop := {
  rd_ranks : length ws = length lens;
  rd_history : forall r w, nth_error ws r = Some w ->
    exists cs, covered_history dflt (map snew [l; l]) cs /\
               run dflt {| hp := []; arrs := map new_arr [l; l] |} cs = Ok w;
  rd_size : forall r h f, array_of ws r father h f -> size f = Z.of_nat (nth r lens 0%nat);
  rd_width : exists wd, forall r h f s, array_of ws r father h f -> array_of ws r son h s ->
    match l with
    | Fixed => RowSize0 f = Ok wd
    | Max => RowSizeMax f = Ok wd /\
             forall i n, RowSize h s i = Ok n -> n <= wd
    | _ => True
    end;
  rd_total : forall r m, nth_error ms r = Some m -> exists ns,
    Forall2 (fun q n => exists s i h f, item_at lens q = Some (s, i) /\ array_of ws s father h f /\
                                        row_cells h f i = Ok n) (ghostIndex m) ns /\
    zsum ns < int32_max
}.

(** ** Use after [createMPITypes] *)

(** Elements may be written on any rank, in father or son; pulls and pushes
    transfer the elements of their messages in any order. *)
Inductive op :=
| OWrite (r : nat) (to_son : bool) (i j : Z) (x : T)
| OPull (order : list move)
| OPush (order : list move).

Definition rank_call (ws : list (world T)) (r id : nat) (c : call T) : res (list (world T)) :=
  match nth_error ws r with
  | None => UB
  | Some w => do w' <- do_call dflt w id c; Ok (upd r w' ws)
  end.

Definition step (ws : list (world T)) (o : op) : res (list (world T)) :=
  match o with
  | OWrite r b i j x => rank_call ws r (if b then son else father) (CSet i j x)
  | OPull mvs => pull_exchange ws mvs
  | OPush mvs => push_exchange ws mvs
  end.

Fixpoint steps (ws : list (world T)) (os : list op) : res (list (world T)) :=
  match os with [] => Ok ws | o :: t => do ws' <- step ws o; steps ws' t end.

(** The orders are orders of the given messages' elements. *)
Definition all_moves (msgs : list message) : list move := concat (map moves_of msgs).
Definition orders_ok (pull push : list message) (os : list op) : Prop :=
  Forall (fun o => match o with
                   | OWrite _ _ _ _ _ => True
                   | OPull mvs => Permutation mvs (all_moves pull)
                   | OPush mvs => Permutation mvs (all_moves push)
                   end) os.

(** A state reached after [createMPITypes] made [ts]. *)
Definition reached (ts : list (trans T)) (pull push : list message) (ws : list (world T)) : Prop :=
  exists os, orders_ok pull push os /\ steps (map tw ts) os = Ok ws.

(** The ranks' arrays [ws] were given communication types [ts]. *)
Definition created_with (lens : list nat) (ms : list ghostmap) (l : layout) (ws : list (world T))
    (ts : list (trans T)) (pull push : list message) : Prop :=
  mapped lens ms /\ ready lens ms l ws /\ createMPITypes dflt HIndexed ws ms = Ok ts /\
  pull_messages ts = Ok (Some pull) /\ push_messages ts = Ok (Some push).

(** ** Outcomes *)

(** Array [id] reads the same before and after on every rank. *)
Definition unchanged (id : nat) (ws ws' : list (world T)) : Prop :=
  length ws' = length ws /\
  forall r h a, array_of ws r id h a ->
    exists h' a', array_of ws' r id h' a' /\ same_reads h a h' a'.

(** Every ghost row reads as its owner's row. *)
Definition ghosts_current (lens : list nat) (ms : list ghostmap) (ws : list (world T)) : Prop :=
  forall r m, nth_error ms r = Some m ->
    exists h a, array_of ws r son h a /\ size a = zlen (ghostIndex m) /\
    forall k, (k < length (ghostIndex m))%nat ->
      exists s i h' f, ghost_of lens ms r k s i /\ array_of ws s father h' f /\ same_row h' f i h a k.

(** Element [j] of a father row after a push: the one of some ghost copy, or the
    old one when there is no copy. *)
Definition pushed_element lens ms (ws : list (world T)) s i (h : heap) (a : arr T) j (x : res T) : Prop :=
  (exists r k h' b, ghost_of lens ms r k s i /\ array_of ws r son h' b /\
                    x = at_ h' b (Z.of_nat k) j) \/
  ((forall r k, ~ ghost_of lens ms r k s i) /\ x = at_ h a (Z.of_nat i) j).

(** After a push: sizes are unchanged, and every element is one of its copies. *)
Definition pushed lens ms (ws ws' : list (world T)) : Prop :=
  length ws' = length ws /\
  forall s h a, array_of ws s father h a ->
    exists h' a', array_of ws' s father h' a' /\ size a' = size a /\
    forall i, (i < nth s lens 0)%nat ->
      RowSize h' a' (Z.of_nat i) = RowSize h a (Z.of_nat i) /\
      forall j, pushed_element lens ms ws s i h a j (at_ h' a' (Z.of_nat i) j).

(** A push in which messages are stored one after the other, each as a whole. *)
Definition message_order (msgs : list message) (mvs : list move) : Prop :=
  exists ms', Permutation ms' msgs /\ mvs = all_moves ms'.

(** After such a push: every row is one of its copies. *)
Definition pushed_rows lens ms (ws ws' : list (world T)) : Prop :=
  length ws' = length ws /\
  forall s h a, array_of ws s father h a ->
    exists h' a', array_of ws' s father h' a' /\ size a' = size a /\
    forall i, (i < nth s lens 0)%nat ->
      (exists r k h0 b, ghost_of lens ms r k s i /\ array_of ws r son h0 b /\ same_row h0 b k h' a' i) \/
      ((forall r k, ~ ghost_of lens ms r k s i) /\ same_row h a i h' a' i).

(** No row is ghost twice. *)
Definition unique_ghosts lens ms : Prop :=
  forall r k r' k' s i, ghost_of lens ms r k s i -> ghost_of lens ms r' k' s i -> r = r' /\ k = k'.

(** ** In-situ packing *)

(** The transformers when the arrays are [ws]. *)
Definition at_state (ts : list (trans T)) (ws : list (world T)) : list (trans T) :=
  map (fun x => {| tw := snd x; tm := tm (fst x); tloc := tloc (fst x);
                   pushTypes := pushTypes (fst x); pullTypes := pullTypes (fst x) |}) (combine ts ws).

(** A state reached after [createMPITypes] made [ts]; the messages of a pull may
    complete in any order. *)
Definition message_pairs_order (P : nat) (order : list (Z * Z)) : Prop :=
  Permutation order (list_prod (ranks P) (ranks P)).
Inductive insitu_reached (ts : list (trans T)) : list (world T) -> Prop :=
| ir_created : insitu_reached ts (map tw ts)
| ir_write ws r (b : bool) i j x ws' : insitu_reached ts ws ->
    rank_call ws r (if b then son else father) (CSet i j x) = Ok ws' -> insitu_reached ts ws'
| ir_pull ws order ws' : insitu_reached ts ws -> message_pairs_order (length ts) order ->
    insitu_pull (at_state ts ws) order = Ok (Some ws') -> insitu_reached ts ws'
| ir_push ws ws' : insitu_reached ts ws ->
    insitu_push dflt (at_state ts ws) = Ok (Some ws') -> insitu_reached ts ws'.

(** When rank [r] has ghosts owned by rank [s], one of them is not empty. *)
Definition no_empty_message lens ms (ws : list (world T)) : Prop :=
  forall r k s i, ghost_of lens ms r k s i ->
    exists k' i' h f n, ghost_of lens ms r k' s i' /\ array_of ws s father h f /\
                        RowSize h f (Z.of_nat i') = Ok n /\ 0 < n.

(** Every rank owns a ghost of the last rank. *)
Definition last_has_ghosts (lens : list nat) ms : Prop :=
  forall s, (s < length lens)%nat -> exists k i, ghost_of lens ms (length lens - 1) k s i.

(** The same arrays up to what readers return. *)
Definition same_worlds (ws ws' : list (world T)) : Prop :=
  unchanged father ws ws' /\ unchanged son ws ws'.

End Spec.
Arguments same_row {T}. Arguments array_of {T}. Arguments row_cells {T}. Arguments ready {T}.
Arguments OWrite {T}. Arguments OPull {T}. Arguments OPush {T}. Arguments rank_call {T}.
Arguments step {T}. Arguments steps {T}. Arguments reached {T}. Arguments created_with {T}. Arguments unchanged {T}.
Arguments ghosts_current {T}. Arguments pushed_element {T}. Arguments pushed {T}.
Arguments pushed_rows {T}. Arguments at_state {T}. Arguments insitu_reached {T}.
Arguments no_empty_message {T}. Arguments same_worlds {T}. Arguments orders_ok {T}.
