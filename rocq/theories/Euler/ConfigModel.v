(** How a run comes to its settings: the defaults, patched by the file of the
    user, overwritten from the command line.

    Modelled code: src/Euler/EulerSolver.hpp 618-688 ([ConfigureFromJson] with
    [read]), 546-579 ([Configuration::ReadWriteJson]) and src/DNDS/JsonUtil.hpp
    64-83, as called in src/Euler/SingleBlockApp.hpp 71-73, 94-95; with the parts
    of nlohmann's [ordered_json] they use: [merge_patch], [json_pointer],
    [operator[]] by name, index and pointer, and [at].

    Texts are parsed outside the model: documents come as values.  Numbers and
    strings are opaque atoms.  The conversion of a value to the type of its
    setting is left out. *)

From Coq Require Import List ZArith Bool String Ascii DecimalString.
From Verif Require Import Base.Prelude.
Import ListNotations.
Local Open Scope string_scope.

(** [nlohmann::ordered_json]; members in the order of their insertion *)
Inductive json :=
| Null
| Atom (text : string)
| Arr (l : list json)
| Obj (l : list (string * json)).

(** [is_null] *)
Definition null (j : json) : bool := match j with Null => true | _ => false end.

(** [ordered_map::find] *)
Fixpoint find (k : string) (l : list (string * json)) : option json :=
  match l with
  | [] => None
  | (x, v) :: l => if x =? k then Some v else find k l
  end.

(** [ordered_map::operator[]], then assignment: in place, or at the end *)
Fixpoint put (k : string) (v : json) (l : list (string * json)) : list (string * json) :=
  match l with
  | [] => [(k, v)]
  | (x, w) :: l => if x =? k then (x, v) :: l else (x, w) :: put k v l
  end.

(** [ordered_map::erase] *)
Definition erase (k : string) (l : list (string * json)) : list (string * json) :=
  filter (fun m => negb (fst m =? k)) l.

(** [operator[]] of an object: an absent member is created as null. *)
Definition member (k : string) (l : list (string * json)) : json :=
  match find k l with Some v => v | None => Null end.

(** [merge_patch], the first step: what is no object becomes an empty one. *)
Definition members (j : json) : list (string * json) := match j with Obj l => l | _ => [] end.

(** [merge_patch] (used at EulerSolver.hpp 632) *)
Fixpoint merge (patch : json) (j : json) : json :=
  match patch with
  | Obj l =>
    Obj ((fix go (l m : list (string * json)) : list (string * json) :=
            match l with
            | [] => m
            | (k, v) :: l => go l (if null v then erase k m else put k (merge v (member k m)) m)
            end) l (members j))
  | v => v
  end.

(** [json_pointer::split] and [unescape]: tokens after slashes, in which ~0
    stands for ~ and ~1 for /; another ~ throws.  Done here in one pass; [cur]
    is the token so far, reversed. *)
Fixpoint rev_s (s acc : string) : string :=
  match s with "" => acc | String a s => rev_s s (String a acc) end.

Fixpoint tokens (s cur : string) : res (list string) :=
  match s with
  | "" => Ok [rev_s cur ""]
  | String "/" s => do l <- tokens s ""; Ok (rev_s cur "" :: l)
  | String "~" (String "0" s) => tokens s (String "~" cur)
  | String "~" (String "1" s) => tokens s (String "/" cur)
  | String "~" _ => Abort
  | String a s => tokens s (String a cur)
  end.

(** The constructor of [json_pointer] (EulerSolver.hpp 638) *)
Definition pointer (s : string) : res (list string) :=
  match s with
  | "" => Ok []
  | String "/" s => tokens s ""
  | _ => Abort
  end.

(** The digits of an index *)
Definition digits (n : nat) : string := NilZero.string_of_uint (Nat.to_uint n).

(** [json_pointer::array_index]: digits without a leading zero; else it throws. *)
Definition index (t : string) : res nat :=
  match NilZero.uint_of_string t with
  | Some d => if digits (Nat.of_uint d) =? t then Ok (Nat.of_uint d) else Abort
  | None => Abort
  end.

(** [get_unchecked]: all characters are digits (so also when there are none) *)
Fixpoint numeric (t : string) : bool :=
  match t with
  | "" => true
  | String a t => (nat_of_ascii "0" <=? nat_of_ascii a)%nat && (nat_of_ascii a <=? nat_of_ascii "9")%nat && numeric t
  end.

(** [json_pointer::get_unchecked]: null becomes an array or an object. *)
Definition opened (t : string) (j : json) : json :=
  if null j then (if numeric t || (t =? "-") then Arr [] else Obj []) else j.

(** [operator[]] of an array: an index past the end fills up with nulls. *)
Definition padded (l : list json) (n : nat) : list json := app l (repeat Null (n - List.length l)).

(** [gSetting[key] = value] (EulerSolver.hpp 650) *)
Fixpoint poke (j : json) (ts : list string) (v : json) : res json :=
  match ts with
  | [] => Ok v
  | t :: ts =>
    match opened t j with
    | Obj l => do x <- poke (member t l) ts v; Ok (Obj (put t x l))
    | Arr l =>
      do i <- (if t =? "-" then Ok (List.length l) else index t);
      let l := padded l (S i) in
      do x <- poke (nth i l Null) ts v;
      Ok (Arr (upd i x l))
    | _ => Abort
    end
  end.

(** EulerSolver.hpp 635-658, one turn; [None] is a value that does not parse. *)
Definition overwrite (j : json) (kv : string * option json) : res json :=
  do ts <- pointer (fst kv);
  match snd kv with
  | Some v => poke j ts v
  | None => Abort
  end.

(** [at] by name (JsonUtil.hpp 70): throws unless it is there. *)
Definition at_ (j : json) (k : string) : res json :=
  match j with
  | Obj l => match find k l with Some v => Ok v | None => Abort end
  | _ => Abort
  end.

(** EulerSolver.hpp 550-566: the sections [req] with the names of their
    settings; sections are read in order, each setting by [at]. *)
Definition readSection (j : json) (s : string * list string) : res unit :=
  do x <- at_ j (fst s);
  do _ <- mapM (at_ x) (snd s);
  Ok tt.

Definition isObj (j : json) : bool := match j with Obj _ => true | _ => false end.
Definition isArr (j : json) : bool := match j with Arr _ => true | _ => false end.

(** EulerSolver.hpp 546-575, reading *)
Definition readAll (req : list (string * list string)) (j : json) : res unit :=
  do _ <- mapM (readSection j) req;
  do e <- at_ j "eulerSettings";
  do v <- at_ j "vfvSettings";
  do b <- at_ j "bcSettings";
  do _ <- assert_ (isObj e);
  do _ <- assert_ (isObj v);
  assert_ (isArr b).

(** EulerSolver.hpp 621-659: [defaults] is the file written before
    (SingleBlockApp.hpp 94), [user] the file to merge, if one is named. *)
Definition configure (req : list (string * list string)) (defaults : json) (user : option json)
    (keys : list string) (values : list (option json)) : res json :=
  let j := match user with Some u => merge u defaults | None => defaults end in
  do _ <- assert_ (List.length keys =? List.length values)%nat;
  do j <- foldM overwrite j (combine keys values);
  do _ <- readAll req j;
  Ok j.
