(** Property theorems: C16 (shared vectors in the JSON serializer). *)
From Coq Require Import ZArith List Bool String.
From Verif Require Import Base.Prelude DNDS.JsonModel DNDS.JsonSpec DNDS.JsonRun
  DNDS.SharedModel DNDS.SharedSpec DNDS.SharedProofs.
Import ListNotations.
Open Scope list_scope.

(** As long as the vectors stay alive and unchanged while the file is open and
    their places are not overwritten, reading any of them back, in any order and
    each into a pointer variable that is left alone, gives every one its content,
    and two of them are the same vector exactly when they were on writing. *)
Theorem C16_contents_and_sharing : forall (T : Type) evs (s : ser T) m reads,
  (forall e, In e evs -> good_event e) -> careful [] evs = true ->
  wrun (open_write, fun _ => None) evs = Ok (s, m) ->
  (forall x v, In (x, v) reads -> In x (written [] (fun _ => None) evs)) ->
  NoDup (map snd reads) ->
  exists r, rrun (rstart (root s)) (read_events reads) = Ok r /\
    (forall x v, In (x, v) reads -> exists k, vars r v = Some (Some k) /\ nth_error (vecs r) k = Some (scont x)) /\
    (forall x v y w, In (x, v) reads -> In (y, w) reads -> (vars r v = vars r w <-> saddr x = saddr y)).
Proof. exact shared_all. Qed.
Print Assumptions C16_contents_and_sharing.

(** Each vector is stored once: the places that hold a vector are in one-to-one
    correspondence with the addresses shared. *)
Theorem C16_stored_once : forall (T : Type) evs (s : ser T) m,
  (forall e, In e evs -> good_event e) -> careful [] evs = true ->
  wrun (open_write, fun _ => None) evs = Ok (s, m) ->
  let log := written [] (fun _ => None) evs in
  (forall x, In x log -> exists y, In y log /\ saddr y = saddr x /\
      stored (splace y) (root s) = Some (Val (VVec (scont x)))) /\
  (forall x y l l', In x log -> In y log -> saddr x = saddr y ->
      stored (splace x) (root s) = Some (Val (VVec l)) -> stored (splace y) (root s) = Some (Val (VVec l')) ->
      splace x = splace y) /\
  NoDup (map splace log).
Proof. exact stored_once. Qed.
Print Assumptions C16_stored_once.

Local Definition session : list (event Z) :=
  [Alloc 1 [5%Z]; Alloc 2 [6%Z; 7%Z]; Serial (Create (Rel "a" [])); Serial (GoTo (Rel "a" []));
   Share "x" 1; Share "y" 2; Serial (Create (Rel "b" [])); Serial (GoTo (Rel "b" [])); Share "x" 1;
   Serial (GoTo (Abs [])); Serial (Put "z" (VNum 3)); Alloc 3 [5%Z]; Share "w" 3].
Example C16_example :
  (forall e, In e session -> good_event e) /\ careful [] session = true /\
  (exists s m, wrun (open_write, fun _ => None) session = Ok (s, m)) /\
  map (fun x => (splace x, saddr x)) (written [] (fun _ => None) session) =
    [(["a"; "x"]%string, 1%nat); (["a"; "y"]%string, 2%nat); (["a"; "b"; "x"]%string, 1%nat); (["w"]%string, 3%nat)].
Proof.
  split.
  - intros e I. cbn in I. repeat (destruct I as [<-|I]; [cbn; auto; try (intros n [<-|[]]; reflexivity); try (intros n []); try reflexivity|]).
    destruct I.
  - split; [reflexivity|]. split; [do 2 eexists; reflexivity|reflexivity].
Qed.

(** Without these conditions the statement is false.  When a vector is freed and
    another one gets its address before the file is closed, the second is stored
    as a reference to the first and reads back with the wrong content. *)
Theorem C16_address_reuse_refuted : exists s m r,
  wrun (open_write, fun _ => None) reuse = Ok (s, m) /\
  map (fun x => (sname x, saddr x, scont x)) (written [] (fun _ => None) reuse) =
    [("x"%string, 1%nat, [5%Z]); ("y"%string, 1%nat, [6%Z])] /\
  rrun (rstart (root s)) [Read "x" 0; Read "y" 1] = Ok r /\
  vars r 1%nat = Some (Some 0%nat) /\ nth_error (vecs r) 0 = Some [5%Z].
Proof. exact reuse_wrong. Qed.
Print Assumptions C16_address_reuse_refuted.

(** The same when the vector is changed between two writes. *)
Theorem C16_changed_vector_refuted : exists s m r,
  wrun (open_write, fun _ => None) change = Ok (s, m) /\
  map (fun x => (sname x, saddr x, scont x)) (written [] (fun _ => None) change) =
    [("x"%string, 1%nat, [5%Z]); ("y"%string, 1%nat, [6%Z])] /\
  rrun (rstart (root s)) [Read "x" 0; Read "y" 1] = Ok r /\
  vars r 1%nat = Some (Some 0%nat) /\ nth_error (vecs r) 0 = Some [5%Z].
Proof. exact change_wrong. Qed.
Print Assumptions C16_changed_vector_refuted.

(** Reading uses the caller's first pointer variable again: if it is gone the
    behaviour is undefined, if it was reset the second read gives a null pointer. *)
Theorem C16_first_variable_refuted : exists s m r,
  wrun (open_write, fun _ => None) two = Ok (s, m) /\ careful [] two = true /\
  rrun (rstart (root s)) [Read "x" 0; Kill 0; Read "y" 1] = UB /\
  rrun (rstart (root s)) [Read "x" 0; SetVar 0 None; Read "y" 1] = Ok r /\ vars r 1%nat = Some None.
Proof. exact variable_wrong. Qed.
Print Assumptions C16_first_variable_refuted.
