(** What the text files of an OpenFOAM mesh look like, said without the
    reader. *)

From Coq Require Import List ZArith Bool Ascii String.
From Verif Require Import Geom.FoamTextModel.
Import ListNotations.
Local Open Scope Z_scope.

Definition newline : ascii := "010"%char.

(** No star is followed by a star or a slash. *)
Definition tame (l : list ascii) : Prop :=
  forall p x q, l = p ++ "*"%char :: x :: q -> x <> "*"%char /\ x <> "/"%char.

(** One blank: a space, a comment up to the end of the line, or a comment
    between marks.  Between the marks (their stars included) no two stars meet
    and no mark closes early. *)
Inductive blank : list ascii -> Prop :=
| blank_space c : isspace c = true -> blank [c]
| blank_line body : ~ In newline body -> blank (str "//" ++ body ++ [newline])
| blank_block body : tame ("*"%char :: body ++ ["*"%char]) -> blank (str "/*" ++ body ++ str "*/").

(** A character that is no part of a blank. *)
Definition solid (c : ascii) : Prop := isspace c = false /\ c <> "/"%char.

(** Text without [v]: solid characters and runs of blanks; the second list is
    the text with a space for each run. *)
Inductive spans (v : ascii) : list ascii -> list ascii -> Prop :=
| spans_nil : spans v [] []
| spans_char c t b : solid c -> c <> v -> spans v t b -> spans v (c :: t) (c :: b)
| spans_blanks bs t b : bs <> [] -> Forall blank bs ->
    (forall c t', t = c :: t' -> solid c) -> spans v t b ->
    spans v (List.concat bs ++ t) (" "%char :: b).

(** ** The header *)

(** Entries between braces: text up to a semicolon, then blanks. *)
Inductive entry_list : list (list ascii) -> list ascii -> Prop :=
| entry_nil : entry_list [] []
| entry_cons t b bs ls r : spans ";" t b ->
    (forall c t', t = c :: t' -> solid c /\ c <> "}"%char) ->
    Forall blank bs -> entry_list ls r ->
    entry_list (b :: ls) (t ++ ";"%char :: List.concat bs ++ r).

Inductive header : list ascii -> Prop :=
| header_text t b bs ls es : spans "{" t b -> first_word b = str "FoamFile" ->
    Forall blank bs -> entry_list ls es ->
    header (t ++ "{"%char :: List.concat bs ++ es ++ ["}"%char]).

(** ** Numbers and lists *)

Fixpoint value (acc : Z) (l : list ascii) : Z :=
  match l with [] => acc | c :: r => value (10 * acc + digit c) r end.

Definition numeral (hi v : Z) (t : list ascii) : Prop :=
  t <> [] /\ Forall (fun c => isdigit c = true) t /\ value 0 t = v /\ v <= hi.

(** The items of a list and its closing parenthesis.  [one a t]: the text [t]
    says [a]; [delim c]: [c] may follow an item. *)
Inductive body {A} (one : A -> list ascii -> Prop) (delim : ascii -> Prop) : list A -> list ascii -> Prop :=
| body_nil : body one delim [] [")"%char]
| body_cons a t bs l r c q : one a t -> Forall blank bs -> body one delim l r ->
    List.concat bs ++ r = c :: q -> delim c ->
    body one delim (a :: l) (t ++ List.concat bs ++ r).

(** A list: white space may stand before the first item, not before the
    closing parenthesis of an empty list. *)
Inductive list_text {A} (one : A -> list ascii -> Prop) (delim : ascii -> Prop) : list A -> list ascii -> Prop :=
| list_empty : list_text one delim [] (str "()")
| list_some ws l b : l <> [] -> Forall (fun c => isspace c = true) ws -> body one delim l b ->
    list_text one delim l ("("%char :: ws ++ b).

(** A file: header, blanks, the count, anything up to the parenthesis, the list
    and whatever follows. *)
Definition nondigit (c : ascii) : Prop := isdigit c = false.
Inductive file {A} (one : A -> list ascii -> Prop) (delim : ascii -> Prop) : Z -> list A -> list ascii -> Prop :=
| file_text h bs n tn tm buf l lt tail : header h -> Forall blank bs -> numeral INT64_MAX n tn ->
    spans "(" tm buf -> (forall c t', tm = c :: t' -> nondigit c) ->
    list_text one delim l lt ->
    file one delim n l (h ++ List.concat bs ++ tn ++ tm ++ lt ++ tail).

(** The files: labels, faces (a number, then the list of nodes), points. *)
Definition label_file := file (numeral INT64_MAX) nondigit.

Inductive face_text : list Z -> list ascii -> Prop :=
| face_one k tk tm buf l lt : numeral 2147483647 k tk -> spans "(" tm buf ->
    (forall c t', tm = c :: t' -> nondigit c) -> list_text (numeral INT64_MAX) nondigit l lt ->
    face_text l (tk ++ tm ++ lt).
Definition face_file := file face_text (fun _ => True).

Section Points.
Variable real : Type.
Variable real_text : real -> list ascii -> Prop.
Variable real_delim : ascii -> Prop.
Inductive point_text : option (real * real * real) -> list ascii -> Prop :=
| point_one x y z t : list_text real_text real_delim [x; y; z] t -> point_text (Some (x, y, z)) t.
Definition point_file := file point_text (fun _ => True).
End Points.

(** ** Patches *)

(** A name, then entries between braces; the second part of the pair holds the
    entries, a space for each run of blanks. *)
Inductive patch_text : list ascii * list (list ascii) -> list ascii -> Prop :=
| patch_one name t b bs ls es : spans "{" t b -> first_word b = name ->
    (exists c t', t = c :: t' /\ solid c /\ c <> ")"%char) ->
    Forall blank bs -> entry_list ls es ->
    patch_text (name, ls) (t ++ "{"%char :: List.concat bs ++ es ++ ["}"%char]).
Definition patch_file := file patch_text (fun _ => True).

(** A word and the word after it. *)
Definition word (w : list ascii) : Prop := w <> [] /\ Forall (fun c => isspace c = false) w.
Definition entry (k v b : list ascii) : Prop :=
  exists q, b = k ++ " "%char :: v ++ q /\ word v /\ (q = [] \/ exists q', q = " "%char :: q').

(** Which entry a line is: no line starts with a blank here. *)
Definition keyed (k b : list ascii) : Prop := first_word b = k.

(** The lines say one type, one number of faces and one first face. *)
Definition describes (ls : list (list ascii)) (c : condition) : Prop :=
  (exists b, In b ls /\ keyed (str "type") b)
  /\ (exists b, In b ls /\ keyed (str "nFaces") b)
  /\ (exists b, In b ls /\ keyed (str "startFace") b)
  /\ forall b, In b ls ->
       (keyed (str "type") b -> entry (str "type") (c_type c) b)
       /\ (keyed (str "nFaces") b -> exists t, numeral INT64_MAX (c_nFaces c) t /\ entry (str "nFaces") t b)
       /\ (keyed (str "startFace") b -> exists t, numeral INT64_MAX (c_startFace c) t /\ entry (str "startFace") t b).

(** A file whose count has a minus sign. *)
Inductive negative_file : list ascii -> Prop :=
| negative_text h bs n tn c r : header h -> Forall blank bs -> numeral INT64_MAX n tn -> 0 < n -> nondigit c ->
    negative_file (h ++ List.concat bs ++ "-"%char :: tn ++ c :: r).
