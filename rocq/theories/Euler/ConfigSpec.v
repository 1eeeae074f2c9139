(** What a user expects of the settings. *)

From Coq Require Import List ZArith Bool String Ascii.
From Verif Require Import Base.Prelude Euler.ConfigModel.
Import ListNotations.
Local Open Scope string_scope.

(** The value at a path of names and indices. *)
Fixpoint at_path (j : json) (p : list string) : option json :=
  match p with
  | [] => Some j
  | t :: p =>
    match j with
    | Obj l => match find t l with Some v => at_path v p | None => None end
    | Arr l => match index t with
               | Ok i => match nth_error l i with Some v => at_path v p | None => None end
               | _ => None
               end
    | _ => None
    end
  end.

(** No object has two members of the same name. *)
Inductive wf : json -> Prop :=
| wf_null : wf Null
| wf_atom : forall s, wf (Atom s)
| wf_arr : forall l, wf (Arr l)
| wf_obj : forall l, NoDup (map fst l) -> (forall k v, In (k, v) l -> wf v) -> wf (Obj l).

(** The file of the user gives the setting at [p] a value. *)
Inductive gives : json -> list string -> json -> Prop :=
| gives_here : forall v, null v = false -> isObj v = false -> gives v [] v
| gives_in : forall l k u p v, In (k, u) l -> gives u p v -> gives (Obj l) (k :: p) v.

(** It does not mention the setting at [p]. *)
Inductive silent : json -> list string -> Prop :=
| silent_here : forall l k p, ~ In k (map fst l) -> silent (Obj l) (k :: p)
| silent_in : forall l k u p, In (k, u) l -> silent u p -> silent (Obj l) (k :: p).

(** It removes the setting at [p], or something the setting is part of. *)
Inductive removes : json -> list string -> Prop :=
| removes_here : forall l k p, In (k, Null) l -> removes (Obj l) (k :: p)
| removes_in : forall l k u p, In (k, u) l -> removes u p -> removes (Obj l) (k :: p).

(** Neither path leads through the other. *)
Definition apart (p q : list string) : Prop :=
  (forall r, q <> app p r) /\ (forall r, p <> app q r).

(** The spelling of a path: a slash before each name, / and ~ escaped. *)
Fixpoint escape (t : string) : string :=
  match t with
  | "" => ""
  | String "/" t => "~1" ++ escape t
  | String "~" t => "~0" ++ escape t
  | String a t => String a (escape t)
  end.

Fixpoint spell (p : list string) : string :=
  match p with
  | [] => ""
  | t :: p => "/" ++ escape t ++ spell p
  end.

(** All settings asked for are there. *)
Definition complete (req : list (string * list string)) (j : json) : Prop :=
  forall s fs f, In (s, fs) req -> In f fs -> exists v, at_path j [s; f] = Some v.

(** The overwritings of the command line. *)
Definition spelled (l : list (list string * json)) : list string := map (fun o => spell (fst o)) l.
Definition given (l : list (list string * json)) : list (option json) := map (fun o => Some (snd o)) l.

(** The path does not lead through an array of [j]. *)
Inductive plainly : json -> list string -> Prop :=
| plainly_nil : forall j, plainly j []
| plainly_cons : forall j k p, isArr j = false -> plainly (member k (members j)) p -> plainly j (k :: p).

(** Everything the solver reads is there, and of the right kind. *)
Definition ready (req : list (string * list string)) (j : json) : Prop :=
  isObj j = true
  /\ (forall s fs, In (s, fs) req -> exists x, at_path j [s] = Some x /\ (fs <> [] -> isObj x = true)
        /\ forall f, In f fs -> exists w, at_path x [f] = Some w)
  /\ (exists x, at_path j ["eulerSettings"] = Some x /\ isObj x = true)
  /\ (exists x, at_path j ["vfvSettings"] = Some x /\ isObj x = true)
  /\ (exists x, at_path j ["bcSettings"] = Some x /\ isArr x = true).

(** A file that names sections by objects, boundary conditions by a list, and
    removes no setting. *)
Definition gentle (req : list (string * list string)) (u : json) : Prop :=
  isObj u = true
  /\ (forall s y, In s (map fst req) \/ s = "eulerSettings" \/ s = "vfvSettings" -> s <> "bcSettings" ->
        In (s, y) (members u) -> exists l, y = Obj l)
  /\ (forall y, In ("bcSettings", y) (members u) -> isArr y = true)
  /\ (forall s fs f, In (s, fs) req -> In f fs -> ~ removes u [s; f]).
