(** What a user expects of the serializer's paths: a tree of directories and
    values, with a current directory.  Nothing here refers to the model of the
    serializer. *)
From Coq Require Import ZArith List Bool String Ascii Arith.
Import ListNotations.
Open Scope string_scope.

Section Tree.
Variable T : Type.

Inductive value := VNum (z : Z) | VStr (s : string) | VVec (l : list Z) | VData (l : list T).
Inductive kind := KNum | KStr | KVec | KData.
Definition kind_of (v : value) : kind :=
  match v with VNum _ => KNum | VStr _ => KStr | VVec _ => KVec | VData _ => KData end.
Definition kind_eqb (a b : kind) : bool :=
  match a, b with
  | KNum, KNum | KStr, KStr | KVec, KVec | KData, KData => true
  | _, _ => false
  end.

Inductive entry := Dir | Val (v : value).
(** a file tree: what is at each path *)
Definition tree := list string -> option entry.
Definition empty_tree : tree := fun _ => None.

Fixpoint prefix (p q : list string) : bool :=
  match p, q with
  | [], _ => true
  | _, [] => false
  | a :: p', b :: q' => String.eqb a b && prefix p' q'
  end.

Definition is_val (e : option entry) : bool := match e with Some (Val _) => true | _ => false end.
(** is one of the places on the way to [q] a value, so that nothing can be below it? *)
Definition blocked (t : tree) (q : list string) : bool :=
  existsb (fun k => is_val (t (firstn k q))) (seq 0 (List.length q)).
(** Put [e] at [q], making the directories on the way; whatever was at [q] or
    below it is gone. *)
Definition place (t : tree) (q : list string) (e : entry) : tree :=
  fun x => if prefix q x then (if prefix x q then Some e else None)
           else if prefix x q then Some Dir
           else t x.

Inductive path := Abs (l : list string) | Rel (n : string) (l : list string).
Definition resolve (cur : list string) (p : path) : list string :=
  match p with Abs l => l | Rel n l => cur ++ n :: l end.
(** How paths are written: "/a/b", "" (the top) or "a/b". *)
Definition slashes (l : list string) : string :=
  fold_right (fun n s => ("/" ++ n ++ s)%string) "" l.
Definition text (p : path) : string :=
  match p with Abs l => slashes l | Rel n l => (n ++ slashes l)%string end.

Inductive op := Create (p : path) | GoTo (p : path) | Put (n : string) (v : value) | Get (k : kind) (n : string).
(** the answer of an operation *)
Definition answer := option value.

Definition sstep (st : list string * tree) (o : op) : option (list string * tree * answer) :=
  let (cur, t) := st in
  match o with
  | Create p =>
      let q := resolve cur p in
      if blocked t q then None else Some (cur, place t q Dir, None)
  | GoTo p =>
      match t (resolve cur p) with
      | Some Dir => Some (resolve cur p, t, None)
      | _ => None
      end
  | Put n v =>
      let q := (cur ++ [n])%list in
      if blocked t q then None else Some (cur, place t q (Val v), None)
  | Get k n =>
      match t (cur ++ [n])%list with
      | Some (Val v) => if kind_eqb k (kind_of v) then Some (cur, t, Some v) else None
      | _ => None
      end
  end.
Fixpoint srun (st : list string * tree) (ops : list op) : option (list string * tree * list answer) :=
  match ops with
  | [] => Some (fst st, snd st, [])
  | o :: r =>
      match sstep st o with
      | None => None
      | Some (st', a) =>
          match srun st' r with
          | None => None
          | Some (st'', l) => Some (st'', a :: l)
          end
      end
  end.

(** The names covered: non-empty, without slash and tilde, and not a number. *)
Fixpoint free_of (c : ascii) (s : string) : bool :=
  match s with EmptyString => true | String d r => negb (Ascii.eqb d c) && free_of c r end.
Fixpoint number (s : string) : bool :=
  match s with
  | EmptyString => true
  | String c r => (Nat.leb 48 (nat_of_ascii c) && Nat.leb (nat_of_ascii c) 57) && number r
  end.
Definition good_name (n : string) : bool :=
  negb (String.eqb n "") && free_of "/" n && free_of "~" n && negb (number n) && negb (String.eqb n "-").
Definition path_names (p : path) : list string :=
  match p with Abs l => l | Rel n l => n :: l end.
Definition op_names (o : op) : list string :=
  match o with Create p | GoTo p => path_names p | Put n _ | Get _ n => [n] end.
Definition good_op (o : op) : Prop := forall n, In n (op_names o) -> good_name n = true.

(** Does the operation, from the current directory [cur], act at, above or below
    the place [q]? *)
Definition comparable (p q : list string) : bool := prefix p q || prefix q p.
Definition touches (cur : list string) (o : op) (q : list string) : bool :=
  match o with
  | Create p => comparable (resolve cur p) q
  | Put n _ => comparable (cur ++ [n]) q
  | GoTo _ | Get _ _ => false
  end.
(** no operation of the list touches [q] *)
Fixpoint untouched (cur : list string) (ops : list op) (q : list string) : bool :=
  match ops with
  | [] => true
  | o :: r =>
      negb (touches cur o q) &&
      untouched (match o with GoTo p => resolve cur p | _ => cur end) r q
  end.
End Tree.
Arguments VNum {T}. Arguments VStr {T}. Arguments VVec {T}. Arguments VData {T}.
Arguments Dir {T}. Arguments Val {T}.
Arguments Create {T}. Arguments GoTo {T}. Arguments Put {T}. Arguments Get {T}.
Arguments empty_tree {T}. Arguments place {T}. Arguments sstep {T}. Arguments srun {T}.
Arguments blocked {T}. Arguments is_val {T}. Arguments op_names {T}. Arguments good_op {T}.
Arguments touches {T}. Arguments untouched {T}. Arguments kind_of {T}.
