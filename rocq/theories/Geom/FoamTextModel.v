(** Reading the text files of an OpenFOAM mesh.

    Modelled code: src/Geom/OpenFOAMMesh.hpp, lines 11-324
    ([passOpenFOAMSpaces], [getUntil], [readOpenFOAMList], [readOpenFOAMObj],
    [readOpenFOAMHeader], [ReadPoints], [ReadFaces], [ReadOwner],
    [ReadNeighbour], [ReadBoundary]), with the C++ input streams they use.

    How the library turns characters into a floating-point number is left as a
    parameter.  Exceptions are off in the streams, as by default. *)

From Coq Require Import List ZArith Bool Ascii String.
Import ListNotations.
Local Open Scope Z_scope.

(** What a call comes to: a result, an uncaught exception or failed assertion,
    undefined behaviour, or a loop without end. *)
Inductive out (A : Type) : Type :=
| Got (a : A) | Stop | Undef | Spin.
Arguments Got {A}. Arguments Stop {A}. Arguments Undef {A}. Arguments Spin {A}.

Definition obind {A B} (m : out A) (k : A -> out B) : out B :=
  match m with Got a => k a | Stop => Stop | Undef => Undef | Spin => Spin end.
Notation "'get' x <- m ; k" := (obind m (fun x => k)) (at level 200, x pattern, m at level 100, k at level 200).

(** ** Input streams (the C++ library) *)

(** The characters not yet read, [eofbit] and [failbit]. *)
Record stream := { rest : list ascii; eof : bool; fail : bool }.
Definition open (l : list ascii) : stream := {| rest := l; eof := false; fail := false |}.
Definition good (s : stream) : bool := negb (eof s) && negb (fail s).
Definition failed (s : stream) : stream := {| rest := rest s; eof := eof s; fail := true |}.

(** [peek]; [None] is [EOF]. *)
Definition peek (s : stream) : option ascii * stream :=
  if good s then
    match rest s with
    | [] => (None, {| rest := []; eof := true; fail := false |})
    | c :: _ => (Some c, s)
    end
  else (None, failed s).

(** [get] *)
Definition getc (s : stream) : option ascii * stream :=
  if good s then
    match rest s with
    | [] => (None, {| rest := []; eof := true; fail := true |})
    | c :: r => (Some c, open r)
    end
  else (None, failed s).

Definition isspace (c : ascii) : bool :=
  existsb (Ascii.eqb c) [" "; "009"; "010"; "011"; "012"; "013"]%char.
Definition isdigit (c : ascii) : bool :=
  (48 <=? Z.of_nat (nat_of_ascii c)) && (Z.of_nat (nat_of_ascii c) <=? 57).
Definition digit (c : ascii) : Z := Z.of_nat (nat_of_ascii c) - 48.

(** [std::getline]: up to a newline, which is dropped; at least one character
    is there when it is called. *)
Fixpoint getline (l : list ascii) : stream :=
  match l with
  | [] => {| rest := []; eof := true; fail := false |}
  | c :: r => if Ascii.eqb c "010" then open r else getline r
  end.

(** [in >> v] for an integer: [None] when [v] is left as it was. *)
Fixpoint skipws (l : list ascii) : list ascii :=
  match l with
  | c :: r => if isspace c then skipws r else l
  | [] => []
  end.
Fixpoint digits (acc : Z) (l : list ascii) : Z * list ascii :=
  match l with
  | c :: r => if isdigit c then digits (10 * acc + digit c) r else (acc, l)
  | [] => (acc, [])
  end.
Definition sign (l : list ascii) : Z * list ascii :=
  match l with
  | "-"%char :: r => (-1, r)
  | "+"%char :: r => (1, r)
  | _ => (1, l)
  end.
Definition at_end (l : list ascii) : bool := match l with [] => true | _ => false end.

Definition INT64_MAX : Z := 9223372036854775807.
Definition readInt (lo hi : Z) (s : stream) : option Z * stream :=
  if good s then
    let l := skipws (rest s) in
    if at_end l then (None, {| rest := []; eof := true; fail := true |})
    else
      let (sg, l) := sign l in
      match l with
      | c :: _ =>
          if isdigit c then
            let (v, r) := digits 0 l in
            if sg * v <? lo then (Some lo, {| rest := r; eof := at_end r; fail := true |})
            else if hi <? sg * v then (Some hi, {| rest := r; eof := at_end r; fail := true |})
            else (Some (sg * v), {| rest := r; eof := at_end r; fail := false |})
          else (Some 0, {| rest := l; eof := false; fail := true |})
      | [] => (Some 0, {| rest := []; eof := true; fail := true |})
      end
  else (None, failed s).
(** [index] and [int] *)
Definition readIndex : stream -> option Z * stream := readInt (- INT64_MAX - 1) INT64_MAX.
Definition readInt32 : stream -> option Z * stream := readInt (-2147483648) 2147483647.

(** ** Blanks: OpenFOAMMesh.hpp 18-67 *)

(** 42-55: after the slash of an opening mark; the star of the mark is still
    to be read. *)
Fixpoint block (l : list ascii) : stream :=
  match l with
  | [] => {| rest := []; eof := true; fail := true |}
  | c :: r =>
      if Ascii.eqb c "*" then
        match r with
        | [] => {| rest := []; eof := true; fail := true |}
        | d :: r' => if Ascii.eqb d "/" then open r' else block r'
        end
      else block r
  end.

(** The loop; the number counts what was passed.  [fuel] bounds the turns. *)
Fixpoint pass (fuel : nat) (s : stream) : out (nat * stream) :=
  match fuel with
  | O => Spin
  | S fuel =>
      if eof s then Got (O, s) else
      let (c, s) := peek s in
      match c with
      | None => Got (O, s)
      | Some c =>
          if isspace c then
            get r <- pass fuel (snd (getc s)); Got (S (fst r), snd r)
          else if Ascii.eqb c "/" then
            let (d, s) := peek (snd (getc s)) in
            let s :=
              match d with
              | Some d => if Ascii.eqb d "/" then getline (rest s)
                          else if Ascii.eqb d "*" then block (rest s) else s
              | None => s
              end in
            get r <- pass fuel s; Got (S (fst r), snd r)
          else Got (O, s)
      end
  end.
Definition passSpaces (s : stream) : out (nat * stream) := pass (S (List.length (rest s))) s.

(** ** [getUntil]: 69-87 *)
Fixpoint until (fuel : nat) (v : ascii) (buf : list ascii) (s : stream) : out (bool * list ascii * stream) :=
  match fuel with
  | O => Spin
  | S fuel =>
      if eof s then Got (true, rev buf, s) else
      get r <- passSpaces s;
      if (0 <? fst r)%nat then until fuel v (" "%char :: buf) (snd r)
      else
        let (c, s) := peek (snd r) in
        match c with
        | Some c => if Ascii.eqb c v then Got (eof s, rev buf, s)
                    else until fuel v (c :: buf) (snd (getc s))
        | None => until fuel v ("255"%char :: buf) (snd (getc s))
        end
  end.
Definition getUntil (v : ascii) (s : stream) : out (bool * list ascii * stream) :=
  until (S (S (List.length (rest s)))) v [] s.

(** ** [readOpenFOAMList]: 89-107.  [item i] reads the [i]-th item. *)
Fixpoint items {A} (fuel : nat) (item : nat -> stream -> out (A * stream)) (acc : list A) (s : stream)
  : out (list A * stream) :=
  match fuel with
  | O => Spin
  | S fuel =>
      if eof s then Got (rev acc, s) else
      let (c, s) := peek s in
      match c with
      | Some ")"%char => Got (rev acc, snd (getc s))
      | _ =>
          get r <- item (List.length acc) s;
          get p <- passSpaces (snd r);
          items fuel item (fst r :: acc) (snd p)
      end
  end.
Definition readList {A} (item : nat -> stream -> out (A * stream)) (s : stream) : out (list A * stream) :=
  get u <- getUntil "(" s;
  let '(atEof, _, s) := u in
  if atEof then Stop
  else let s := snd (getc s) in items (S (List.length (rest s))) item [] s.

(** ** [readOpenFOAMObj]: 109-132, and the header: 134-148 *)
Fixpoint entries (fuel : nat) (acc : list (list ascii)) (s : stream) : out (list (list ascii) * stream) :=
  match fuel with
  | O => Spin
  | S fuel =>
      if eof s then Got (rev acc, s) else
      let (c, s) := peek s in
      match c with
      | Some "}"%char => Got (rev acc, snd (getc s))
      | _ =>
          get u <- getUntil ";" s;
          let '(atEof, line, s) := u in
          if atEof then Stop
          else get p <- passSpaces (snd (getc s)); entries fuel (line :: acc) (snd p)
      end
  end.
Definition readObj (s : stream) : out (list (list ascii) * stream) :=
  get u <- getUntil "{" s;
  let '(atEof, _, s) := u in
  if atEof then Stop
  else get p <- passSpaces (snd (getc s)); entries (S (List.length (rest (snd p)))) [] (snd p).

(** [bufSS >> name]: the first word. *)
Fixpoint take_word (l : list ascii) : list ascii :=
  match l with
  | c :: r => if isspace c then [] else c :: take_word r
  | [] => []
  end.
Definition first_word (l : list ascii) : list ascii := take_word (skipws l).
Definition str (s : string) : list ascii := list_ascii_of_string s.

Definition readHeader (s : stream) : out (list (list ascii) * stream) :=
  get u <- getUntil "{" s;
  let '(atEof, buf, s) := u in
  if atEof then Stop
  else if list_eq_dec ascii_dec (first_word buf) (str "FoamFile") then readObj s else Stop.

(** ** The files *)

(** The header, blanks and the count; [resize] throws on a negative one. *)
Definition readCount (s : stream) : out (Z * stream) :=
  get h <- readHeader s;
  get p <- passSpaces (snd h);
  match readIndex (snd p) with
  | (None, _) => Undef
  | (Some n, s) => if n <? 0 then Stop else Got (n, s)
  end.

(** [in >> iCell; owner.at(iFace) = iCell;] : 232-237, 254-259 *)
Definition label (n : Z) (i : nat) (s : stream) : out (Z * stream) :=
  match readIndex s with
  | (None, _) => Undef
  | (Some v, s) => if Z.of_nat i <? n then Got (v, s) else Stop
  end.
(** [iin >> inode; push_back(inode);] : 205-210 *)
Definition node (i : nat) (s : stream) : out (Z * stream) :=
  match readIndex s with
  | (None, _) => Undef
  | (Some v, s) => Got (v, s)
  end.

(** What the vector holds after [resize] and the items. *)
Definition filled {A} (d : A) (n : Z) (l : list A) : list A := l ++ repeat d (Z.to_nat n - List.length l).

(** [ReadOwner], [ReadNeighbour]: 219-262 *)
Definition ReadLabels (text : list ascii) : out (list Z) :=
  get c <- readCount (open text);
  get r <- readList (label (fst c)) (snd c);
  Got (filled 0 (fst c) (fst r)).

(** [ReadFaces]: 187-217; [reserve] throws on a negative size. *)
Definition face (n : Z) (i : nat) (s : stream) : out (list Z * stream) :=
  let (k, s) := readInt32 s in
  let k := match k with Some k => k | None => 0 end in
  if (Z.of_nat i <? n) && (0 <=? k) then readList node s else Stop.
Definition ReadFaces (text : list ascii) : out (list (list Z)) :=
  get c <- readCount (open text);
  get r <- readList (face (fst c)) (snd c);
  Got (filled [] (fst c) (fst r)).

(** [ReadPoints]: 158-185.  [real] and [readReal] stand for [double] and its
    [>>], [zero] for the value given beforehand.  A point not read stays
    unset. *)
Section Points.
Variable real : Type.
Variable zero : real.
Variable readReal : stream -> option real * stream.

Definition coordinate (i : nat) (s : stream) : out (real * stream) :=
  let (v, s) := readReal s in Got (match v with Some v => v | None => zero end, s).
Definition point (n : Z) (i : nat) (s : stream) : out (option (real * real * real) * stream) :=
  get r <- readList coordinate s;
  match fst r with
  | [x; y; z] => if Z.of_nat i <? n then Got (Some (x, y, z), snd r) else Stop
  | _ => Stop
  end.
Definition ReadPoints (text : list ascii) : out (list (option (real * real * real))) :=
  get c <- readCount (open text);
  get r <- readList (point (fst c)) (snd c);
  Got (filled None (fst c) (fst r)).
End Points.

(** ** [ReadBoundary]: 264-318 *)

(** What one line of a patch sets. *)
Inductive setting := SetType (t : list ascii) | SetFaces (n : Z) | SetStart (n : Z) | SetNothing.

Fixpoint drop_word (l : list ascii) : list ascii :=
  match l with
  | c :: r => if isspace c then l else drop_word r
  | [] => []
  end.
(** 285-304: [lineBufSS >> key] and what is read after it; a number that is
    not there is read without having been set. *)
Definition setting_of (line : list ascii) : out setting :=
  let w := skipws line in
  let key := take_word w in
  let r := drop_word w in
  let s := {| rest := r; eof := at_end r; fail := at_end w |} in
  if list_eq_dec ascii_dec key (str "type") then Got (SetType (if good s then first_word r else []))
  else if list_eq_dec ascii_dec key (str "nFaces") then
    match fst (readIndex s) with Some v => Got (SetFaces v) | None => Undef end
  else if list_eq_dec ascii_dec key (str "startFace") then
    match fst (readIndex s) with Some v => Got (SetStart v) | None => Undef end
  else Got SetNothing.

Fixpoint settings (lines : list (list ascii)) : out (list setting) :=
  match lines with
  | [] => Got []
  | l :: r => get a <- setting_of l; get q <- settings r; Got (a :: q)
  end.

(** 276-306.  The lines are looked at once all are read: where a line is
    undefined and the text then ends too soon, this says [Stop]. *)
Definition patch (i : nat) (s : stream) : out (list ascii * list setting * stream) :=
  get u <- getUntil "{" s;
  let '(atEof, buf, s) := u in
  if atEof then Stop
  else
    get o <- readObj s;
    get a <- settings (fst o);
    Got ((first_word buf, a), snd o).

(** [OpenFOAMBoundaryCondition]: 11-16; [operator[]] clears a new one. *)
Record condition := { c_type : list ascii; c_nFaces : Z; c_startFace : Z }.
Definition fresh : condition := {| c_type := []; c_nFaces := 0; c_startFace := 0 |}.
(** [boundaryConditions]; the order of the keys is not kept. *)
Definition conditions := list (list ascii * condition).
Fixpoint lookup (name : list ascii) (m : conditions) : option condition :=
  match m with
  | [] => None
  | (k, c) :: r => if list_eq_dec ascii_dec k name then Some c else lookup name r
  end.
Definition set_in (name : list ascii) (a : setting) (m : conditions) : conditions :=
  let c := match lookup name m with Some c => c | None => fresh end in
  match a with
  | SetType t => (name, {| c_type := t; c_nFaces := c_nFaces c; c_startFace := c_startFace c |}) :: m
  | SetFaces n => (name, {| c_type := c_type c; c_nFaces := n; c_startFace := c_startFace c |}) :: m
  | SetStart n => (name, {| c_type := c_type c; c_nFaces := c_nFaces c; c_startFace := n |}) :: m
  | SetNothing => m
  end.
Definition ReadBoundary (text : list ascii) : out conditions :=
  get h <- readHeader (open text);
  get p <- passSpaces (snd h);
  get r <- readList patch (snd (readIndex (snd p)));
  Got (fold_left (fun m '(name, a) => fold_left (fun m a => set_in name a m) a m) (fst r) []).
