(** Shared vectors in the JSON serializer together with the life of the vectors
    and of the shared pointers (src/DNDS/SerializerJSON.cpp 125-146, 193-246).

    Writing: vectors live at addresses; the allocator may give a freed address to
    a new vector.  Reading: shared pointers are variables of the caller; the
    serializer records the address of the variable it filled. *)
From Coq Require Import ZArith List Bool String Ascii Arith.
From Verif Require Import Base.Prelude DNDS.JsonModel DNDS.JsonSpec DNDS.JsonRun.
Import ListNotations.
Open Scope list_scope.

Section Shared.
Variable T : Type.

(** ** Writing *)
Inductive event :=
| Serial (o : op T)                     (* any other call of the serializer *)
| Alloc (a : nat) (l : list Z)          (* a new vector; [a] was not in use *)
| Free (a : nat)
| Assign (a : nat) (l : list Z)         (* the content of a live vector changes *)
| Share (n : string) (a : nat).         (* WriteShared*Vector(n, pointer to a) *)

Definition memory := nat -> option (list Z).
Definition mset (m : memory) (a : nat) (v : option (list Z)) : memory :=
  fun b => if Nat.eqb b a then v else m b.
Definition wstep (w : ser T * memory) (e : event) : res (ser T * memory) :=
  let (s, m) := w in
  match e with
  | Serial o => do sa <- step s o; Ok (fst sa, m)
  | Alloc a l => match m a with None => Ok (s, mset m a (Some l)) | Some _ => Abort end
  | Free a => match m a with Some _ => Ok (s, mset m a None) | None => UB end
  | Assign a l => match m a with Some _ => Ok (s, mset m a (Some l)) | None => UB end
  | Share n a => match m a with Some l => do s' <- WriteShared s n a l; Ok (s', m) | None => UB end
  end.
Definition wrun : ser T * memory -> list event -> res (ser T * memory) := foldM wstep.

(** ** Reading *)
(** [vars x]: [None] when the variable does not exist, otherwise the pointer it
    holds ([None] is null), which is a position in the list of vectors. *)
Definition variables := nat -> option (option nat).
Record rst := { rser : ser T; vecs : list (list Z); vars : variables }.
Definition set_var (v : variables) (x : nat) (p : option (option nat)) : variables :=
  fun y => if Nat.eqb y x then p else v y.
Inductive revent :=
| Go (d : list string)                  (* GoToPath(the absolute path d) *)
| Read (n : string) (x : nat)           (* ReadShared*Vector(n, variable x) *)
| SetVar (x : nat) (p : option nat)     (* the caller assigns to its variable *)
| Kill (x : nat).                       (* the variable is destroyed or moved away *)
Definition star (v : variables) (y : nat) : res (option nat) :=
  match v y with Some p => Ok p | None => UB end.
Definition rstep (r : rst) (e : revent) : res rst :=
  match e with
  | Go d => do s <- GoToPath (rser r) (slashes d); Ok {| rser := s; vecs := vecs r; vars := vars r |}
  | Read n x =>
      do shp <- ReadShared (rser r) n x (fun l => (vecs r ++ [l], Some (List.length (vecs r))))
                 (star (vars r)) (vecs r);
      let '(s, h, p) := shp in
      Ok {| rser := s; vecs := h; vars := set_var (vars r) x (Some p) |}
  | SetVar x p => Ok {| rser := rser r; vecs := vecs r; vars := set_var (vars r) x (Some p) |}
  | Kill x => Ok {| rser := rser r; vecs := vecs r; vars := set_var (vars r) x None |}
  end.
Definition rrun : rst -> list revent -> res rst := foldM rstep.
Definition rstart (j : json T) : rst := {| rser := open_read j; vecs := []; vars := fun _ => None |}.
End Shared.
Arguments Serial {T}. Arguments Alloc {T}. Arguments Free {T}. Arguments Assign {T}. Arguments Share {T}.
Arguments wstep {T}. Arguments wrun {T}. Arguments rser {T}. Arguments vecs {T}. Arguments vars {T}.
Arguments rstep {T}. Arguments rrun {T}. Arguments rstart {T}.
