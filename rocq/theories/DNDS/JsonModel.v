(** The JSON serializer: paths, the document tree, scalar and vector values
    (src/DNDS/SerializerJSON.cpp, src/DNDS/SerializerJSON.hpp,
    src/DNDS/SerializerBase.hpp, src/DNDS/Defines.hpp 523-549).

    Not modelled: the text form of the document (nlohmann::json dump and parse
    are taken to be inverse to each other), real numbers, the zlib/base64 codec
    of byte arrays, the MPI rank suffix of file names. *)
From Coq Require Import ZArith List Bool String Ascii Arith.
From Verif Require Import Base.Prelude.
Import ListNotations.
Open Scope string_scope.
Open Scope Z_scope.

(** ** Strings and paths *)

(** Defines.hpp 523-539 splitSString: the pieces between delimiters, empty
    pieces included; one piece more than there are delimiters. *)
Fixpoint split (d : ascii) (s : string) : list string :=
  match s with
  | EmptyString => [EmptyString]
  | String c r =>
      if Ascii.eqb c d then EmptyString :: split d r
      else match split d r with
           | h :: t => String c h :: t
           | [] => [String c EmptyString]
           end
  end.

Definition nonempty (s : string) : bool := match s with EmptyString => false | _ => true end.
(** Defines.hpp 541-549 splitSStringClean *)
Definition splitClean (d : ascii) (s : string) : list string := filter nonempty (split d s).

Definition slash : ascii := "/"%char.
(** SerializerJSON.cpp 14-23 processPath: is the path absolute, and its
    non-empty pieces. *)
Definition processPath (pth : list string) : bool * list string :=
  (match pth with [] => true | h :: _ => negb (nonempty h) end, filter nonempty pth).
(** 25-31 constructPath *)
Fixpoint constructPath (pth : list string) : string :=
  match pth with
  | [] => EmptyString
  | n :: r => (String slash n ++ constructPath r)%string
  end.

(** nlohmann::json_pointer(s): pieces after each slash, [~1] for a slash and [~0]
    for a tilde; any other use of a tilde, or a first character that is not a
    slash, throws. *)
Fixpoint unescape (s : string) : res string :=
  match s with
  | EmptyString => Ok EmptyString
  | String "~" (String "1" r) => do r' <- unescape r; Ok (String "/" r')
  | String "~" (String "0" r) => do r' <- unescape r; Ok (String "~" r')
  | String "~" _ => Abort
  | String c r => do r' <- unescape r; Ok (String c r')
  end.
Definition pointer (s : string) : res (list string) :=
  match s with
  | EmptyString => Ok []
  | String c r => if Ascii.eqb c slash then mapM unescape (split slash r) else Abort
  end.

(** ** Documents *)
Section Json.
(** the elements of the arrays that are serialized *)
Variable T : Type.

(** [JVec]: a JSON array of integers; [JData]: the content of an array's [data]
    entry, as elements instead of bytes. *)
Inductive json :=
| JNull
| JNum (z : Z)
| JStr (s : string)
| JVec (l : list Z)
| JData (l : list T)
| JObj (f : list (string * json)).

Fixpoint look (n : string) (f : list (string * json)) : option json :=
  match f with
  | [] => None
  | (m, v) :: r => if String.eqb n m then Some v else look n r
  end.
Fixpoint put (n : string) (v : json) (f : list (string * json)) : list (string * json) :=
  match f with
  | [] => [(n, v)]
  | (m, w) :: r => if String.eqb n m then (m, v) :: r else (m, w) :: put n v r
  end.

Definition is_digit (c : ascii) : bool :=
  (Nat.leb 48 (nat_of_ascii c) && Nat.leb (nat_of_ascii c) 57)%bool.
Fixpoint all_digits (s : string) : bool :=
  match s with EmptyString => true | String c r => is_digit c && all_digits r end.
(** tokens that turn a null into a JSON array instead of an object *)
Definition array_token (s : string) : bool := all_digits s || String.eqb s "-".

(** [j[name]]: the entry [name] of an object, changed by [g]; a null becomes an
    object, other kinds throw (type_error 305). *)
Definition at_key (n : string) (g : json -> res json) (j : json) : res json :=
  match j with
  | JNull => do v <- g JNull; Ok (JObj [(n, v)])
  | JObj f =>
      do v <- g (match look n f with Some w => w | None => JNull end); Ok (JObj (put n v f))
  | _ => Abort
  end.
(** [j[json_pointer]] (nlohmann get_unchecked): as above along the pieces, but a
    piece that is a number turns a null into a JSON array.  That case is not
    followed: it is reported as [UB], and no theorem speaks about it.  Indexing
    an existing array with a number is reported as [Abort]. *)
Fixpoint at_pointer (p : list string) (g : json -> res json) (j : json) : res json :=
  match p with
  | [] => g j
  | n :: p' =>
      match j with
      | JNull => if array_token n then UB else at_key n (at_pointer p' g) j
      | _ => at_key n (at_pointer p' g) j
      end
  end.

(** The value at a pointer, [JNull] where nothing is stored.  Reading through
    the non-const operator stores a null at a missing place; every reader then
    stops on its type assertion, so the change is not modelled. *)
Definition key (n : string) (j : json) : res json :=
  match j with
  | JNull => Ok JNull
  | JObj f => Ok (match look n f with Some w => w | None => JNull end)
  | _ => Abort
  end.
Fixpoint get (p : list string) (j : json) : res json :=
  match p with
  | [] => Ok j
  | n :: p' => do k <- key n j; get p' k
  end.

(** ** The serializer *)

(** SerializerJSON.hpp 12-25: the document, the split current path, the current
    path, the paths of the shared vectors already written (by address), and the
    places of the shared pointers already read (by path). *)
Record ser := {
  root : json; cps : list string; cP : string;
  ptr2pth : list (nat * string); pth2ssp : list (string * nat)
}.
(** SerializerJSON.cpp 33-47 OpenFile: for writing, and for reading a document *)
Definition open_write : ser :=
  {| root := JNull; cps := []; cP := ""; ptr2pth := []; pth2ssp := [] |}.
Definition open_read (j : json) : ser :=
  {| root := j; cps := []; cP := ""; ptr2pth := []; pth2ssp := [] |}.

Definition with_root (s : ser) (j : json) : ser :=
  {| root := j; cps := cps s; cP := cP s; ptr2pth := ptr2pth s; pth2ssp := pth2ssp s |}.

(** 62-72 CreatePath *)
Definition CreatePath (s : ser) (p : string) : res ser :=
  let (isAbs, pth) := processPath (split slash p) in
  do q <- pointer (if isAbs then constructPath pth else (cP s ++ constructPath pth)%string);
  do j <- at_pointer q (fun _ => Ok (JObj [])) (root s);
  Ok (with_root s j).
(** 73-84 GoToPath *)
Definition is_object (j : json) : bool := match j with JObj _ => true | _ => false end.
Definition GoToPath (s : ser) (p : string) : res ser :=
  let (isAbs, pth) := processPath (split slash p) in
  let c := if isAbs then pth else (cps s ++ pth)%list in
  do q <- pointer (constructPath c);
  do j <- get q (root s);
  do _ <- assert_ (is_object j);
  Ok {| root := root s; cps := c; cP := constructPath c; ptr2pth := ptr2pth s; pth2ssp := pth2ssp s |}.
(** 85-88 GetCurrentPath *)
Definition GetCurrentPath (s : ser) : string := cP s.

(** 90-124 WriteInt, WriteIndex, WriteIndexVector, WriteRowsizeVector,
    WriteString; 247-275 WriteUint8Array without the codec:
    [jObj[json_pointer(cP)][name] = v]. *)
Definition write (s : ser) (n : string) (v : json) : res ser :=
  do q <- pointer (cP s);
  do j <- at_pointer q (at_key n (fun _ => Ok v)) (root s);
  Ok (with_root s j).
(** 148-192 and 276-309: the value a reader sees. *)
Definition peek (s : ser) (n : string) : res json :=
  do q <- pointer (cP s); do j <- get q (root s); key n j.
Definition ReadNum (s : ser) (n : string) : res Z :=
  do v <- peek s n; match v with JNum z => Ok z | _ => Abort end.
Definition ReadStr (s : ser) (n : string) : res string :=
  do v <- peek s n; match v with JStr z => Ok z | _ => Abort end.
Definition ReadVec (s : ser) (n : string) : res (list Z) :=
  do v <- peek s n; match v with JVec z => Ok z | _ => Abort end.
Definition ReadData (s : ser) (n : string) : res (list T) :=
  do v <- peek s n; match v with JData z => Ok z | _ => Abort end.

(** 125-146 WriteSharedIndexVector, WriteSharedRowsizeVector: the vector [l] at
    address [a]. *)
Fixpoint assoc {A B} (eqb : A -> A -> bool) (x : A) (l : list (A * B)) : option B :=
  match l with
  | [] => None
  | (y, v) :: r => if eqb x y then Some v else assoc eqb x r
  end.
Definition WriteShared (s : ser) (n : string) (a : nat) (l : list Z) : res ser :=
  do q <- pointer (cP s);
  match assoc Nat.eqb a (ptr2pth s) with
  | Some p =>
      do j <- at_pointer q (at_key n (at_key "ref" (fun _ => Ok (JStr p)))) (root s);
      Ok (with_root s j)
  | None =>
      do j <- at_pointer q (at_key n (fun _ => Ok (JVec l))) (root s);
      Ok {| root := j; cps := cps s; cP := cP s;
            ptr2pth := (a, (cP s ++ String slash n)%string) :: ptr2pth s; pth2ssp := pth2ssp s |}
  end.

(** 193-246 ReadSharedIndexVector, ReadSharedRowsizeVector: the shared pointer
    read goes to the variable number [x]; [fresh] makes a new vector, [star]
    dereferences the variable whose place was recorded.  The result is the
    value given to [x]. *)
Definition ReadShared {P H} (s : ser) (n : string) (x : nat)
    (fresh : list Z -> H * P) (star : nat -> res P) (h : H) : res (ser * H * P) :=
  do v <- peek s n;
  do ref <- match v with
            | JObj f => match look "ref" f with Some (JStr p) => Ok p | _ => Abort end
            | _ => Ok (cP s ++ String slash n)%string
            end;
  match assoc String.eqb ref (pth2ssp s) with
  | Some y => do p <- star y; Ok (s, h, p)
  | None =>
      do q <- pointer ref; do w <- get q (root s);
      match w with
      | JVec l =>
          let (h', p) := fresh l in
          Ok ({| root := root s; cps := cps s; cP := cP s; ptr2pth := ptr2pth s;
                 pth2ssp := (ref, x) :: pth2ssp s |}, h', p)
      | _ => Abort
      end
  end.
End Json.
Arguments JNull {T}. Arguments JNum {T}. Arguments JStr {T}. Arguments JVec {T}. Arguments JData {T}.
Arguments JObj {T}. Arguments look {T}. Arguments put {T}. Arguments at_key {T}. Arguments at_pointer {T}.
Arguments key {T}. Arguments get {T}. Arguments root {T}. Arguments cps {T}. Arguments cP {T}.
Arguments ptr2pth {T}. Arguments pth2ssp {T}. Arguments open_write {T}. Arguments open_read {T}.
Arguments with_root {T}. Arguments CreatePath {T}. Arguments GoToPath {T}. Arguments GetCurrentPath {T}.
Arguments write {T}. Arguments peek {T}. Arguments ReadNum {T}. Arguments ReadStr {T}.
Arguments ReadVec {T}. Arguments ReadData {T}. Arguments WriteShared {T}. Arguments ReadShared {T P H}.
Arguments is_object {T}.
