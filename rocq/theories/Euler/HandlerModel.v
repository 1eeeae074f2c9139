(** Model of src/Euler/EulerBC.hpp 45-318 BoundaryHandler: the table of boundary
    conditions, read from and written to JSON.  A JSON object is the list of its
    numeric options plus the fields with other types; fields the reader ignores
    (such as "__bcId") are left out.  A failed DNDS_assert and an exception of [at]
    are [Abort]; reading a missing field through a constant json (operator[], which
    is undefined then) is [UB].  The iteration order of the unordered map of names is
    a parameter. *)
From Coq Require Import Reals List Arith ZArith String Bool.
From Verif Require Import Base.Prelude Geom.BoundaryModel Euler.GasModel Euler.BndModel.
Import ListNotations.
Local Open Scope string_scope.

Definition flags := list (string * Z).
(** one element of the "bcSettings" array *)
Record item := {
  i_type : bctype;              (* an unknown word reads as BCUnknown: 26-38 *)
  i_name : string;
  i_value : option (list R);
  i_extra : option (list R);    (* "valueExtra" *)
  i_opt : flags }.              (* "frameOption", "anchorOption", ... *)

(** 59-64.  [None] as a value is the vector of UnInitReal. *)
Record handler := {
  h_types : list bctype;
  h_values : list (option (list R));
  h_flags : list flags;
  h_extra : list (list R);
  h_name2id : list (string * Z);
  h_id2name : list (Z * string) }.

Definition set_name {A} (l : list (string * A)) (k : string) (v : A) : list (string * A) := (l ++ [(k, v)])%list.
Fixpoint id_find (l : list (Z * string)) (id : Z) : option string :=
  match l with
  | [] => None
  | (k, v) :: l => if (k =? id)%Z then Some v else id_find l id
  end.

(** 99-104 RenewID2name, the pairs visited in the order [it]: a later pair with the
    same id overwrites *)
Definition renew (it : list (string * Z)) : list (Z * string) :=
  fold_left (fun m p => (snd p, fst p) :: m) it [].

Definition set_type (l : list bctype) (id : Z) (t : bctype) : list bctype := upd (Z.to_nat id) t l.
(** 67-87 the constructor *)
Definition default_types : list bctype :=
  let l := repeat BCUnknown (Z.to_nat BC_ID_DEFAULT_MAX) in
  let l := set_type l BC_ID_DEFAULT_FAR BCFar in
  let l := set_type l BC_ID_DEFAULT_SPECIAL_2DRiemann_FAR BCSpecial in
  let l := set_type l BC_ID_DEFAULT_SPECIAL_DMR_FAR BCSpecial in
  let l := set_type l BC_ID_DEFAULT_SPECIAL_IV_FAR BCSpecial in
  let l := set_type l BC_ID_DEFAULT_SPECIAL_RT_FAR BCSpecial in
  let l := set_type l BC_ID_DEFAULT_WALL BCWall in
  let l := set_type l BC_ID_DEFAULT_WALL_INVIS BCWallInvis in
  set_type l BC_ID_NULL BCUnknown.
Definition new_handler (it : list (string * Z)) : handler :=
  let n := Z.to_nat BC_ID_DEFAULT_MAX in
  {| h_types := default_types; h_values := repeat None n; h_flags := repeat [] n; h_extra := repeat [] n;
     h_name2id := GetFaceName2IDDefault; h_id2name := renew it |}.

(** reading into a uint32_t *)
Definition u32 (z : Z) : Z := (z mod 2 ^ 32)%Z.
Definition option_or0 (it : item) (k : string) : Z := match map_find (i_opt it) k with Some z => u32 z | None => 0%Z end.
Definition extra_or_none (it : item) : list R := match i_extra it with Some v => v | None => [] end.

(** 119-187: the flags and value of one element *)
Definition item_flags (it : item) : option flags :=
  match i_type it with
  | BCFar | BCOut | BCOutP | BCIn | BCInPsTs =>
      Some [("frameOpt", option_or0 it "frameOption"); ("anchorOpt", option_or0 it "anchorOption"); ("integrationOpt", option_or0 it "integrationOption")]
  | BCWall | BCWallInvis | BCSpecial =>
      Some [("frameOpt", option_or0 it "frameOption"); ("integrationOpt", option_or0 it "integrationOption"); ("specialOpt", option_or0 it "specialOption")]
  | BCSym => Some [("rectifyOpt", option_or0 it "rectifyOption"); ("integrationOpt", option_or0 it "integrationOption")]
  | BCUnknown => None
  end.
Definition has_value (t : bctype) : bool := match t with BCFar | BCOut | BCOutP | BCIn | BCInPsTs => true | _ => false end.
Definition item_value (nVars : nat) (it : item) : res (list R) :=
  if has_value (i_type it) then
    match i_value it with
    | Some v => if (List.length v =? nVars)%nat then Ok v else Abort
    | None => UB
    end
  else Ok (repeat 0%R nVars).

(** 115-200: one turn of the loop *)
Definition read_item (nVars : nat) (h : handler) (it : item) : res handler :=
  match item_flags it with
  | None => Abort
  | Some f =>
      do v <- item_value nVars it;
      match map_find (h_name2id h) (i_name it) with
      | Some _ => Abort
      | None =>
          let types := (h_types h ++ [i_type it])%list in
          Ok {| h_types := types; h_values := (h_values h ++ [Some v])%list; h_flags := (h_flags h ++ [f])%list;
                h_extra := (h_extra h ++ [extra_or_none it])%list;
                h_name2id := set_name (h_name2id h) (i_name it) (Z.of_nat (List.length types) - 1);
                h_id2name := h_id2name h |}
      end
  end.
(** 112-202 from_json; [order] gives the iteration order of the final map *)
Definition with_names (h : handler) (m : list (Z * string)) : handler :=
  {| h_types := h_types h; h_values := h_values h; h_flags := h_flags h; h_extra := h_extra h; h_name2id := h_name2id h; h_id2name := m |}.
Definition from_json (order : list (string * Z) -> list (string * Z)) (nVars : nat) (h : handler) (j : list item) : res handler :=
  do h <- foldM (read_item nVars) h j;
  Ok (with_names h (renew (order (h_name2id h)))).

(** 204-262 to_json *)
Definition flag_at (f : flags) (k : string) : res Z := match map_find f k with Some z => Ok z | None => Abort end.
Definition write_item (h : handler) (id : Z) : res item :=
  do t <- vget (h_types h) id;
  do name <- (match id_find (h_id2name h) id with Some s => Ok s | None => Abort end);
  do v <- vat (h_values h) id;
  do f <- vat (h_flags h) id;
  do x <- vat (h_extra h) id;
  match t with
  | BCFar | BCOut | BCOutP | BCIn | BCInPsTs =>
      do a <- flag_at f "frameOpt"; do b <- flag_at f "anchorOpt";
      Ok {| i_type := t; i_name := name; i_value := v; i_extra := Some x; i_opt := [("frameOption", a); ("anchorOption", b)] |}
  | BCWall | BCWallInvis | BCSpecial =>
      do a <- flag_at f "frameOpt"; do b <- flag_at f "integrationOpt"; do c <- flag_at f "specialOpt";
      Ok {| i_type := t; i_name := name; i_value := None; i_extra := Some x;
            i_opt := [("frameOption", a); ("integrationOption", b); ("specialOption", c)] |}
  | BCSym =>
      do a <- flag_at f "rectifyOpt";
      Ok {| i_type := t; i_name := name; i_value := None; i_extra := Some x; i_opt := [("rectifyOption", a)] |}
  | BCUnknown => Abort
  end.
Definition to_json (h : handler) : res (list item) :=
  mapM (fun k => write_item h (BC_ID_DEFAULT_MAX + Z.of_nat k)) (seq 0 (List.length (h_types h) - Z.to_nat BC_ID_DEFAULT_MAX)).

(** 264-318: the queries *)
Definition GetIDFromName (h : handler) (name : string) : Z :=
  match map_find (h_name2id h) name with Some id => id | None => BC_ID_NULL end.
Definition GetNameFormID (h : handler) (id : Z) : string :=
  match id_find (h_id2name h) id with Some s => s | None => "UnNamedBC" end.
Definition GetTypeFromID (h : handler) (id : Z) : res bctype :=
  if FaceIDIsExternalBC id then vat (h_types h) id else Ok BCUnknown.
Definition GetValueFromID (h : handler) (id : Z) : res (option (list R)) :=
  if FaceIDIsExternalBC id then vat (h_values h) id else vat (h_values h) 0.
Definition GetValueExtraFromID (h : handler) (id : Z) : res (list R) :=
  if FaceIDIsExternalBC id then vat (h_extra h) id else vat (h_extra h) 0.
Definition GetFlagFromID (h : handler) (id : Z) (key : string) : res Z :=
  if FaceIDIsExternalBC id then do f <- vat (h_flags h) id; flag_at f key else Ok 0%Z.
Definition GetFlagFromIDSoft (h : handler) (id : Z) (key : string) : res Z :=
  if FaceIDIsExternalBC id then
    do f <- vat (h_flags h) id; Ok (match map_find f key with Some z => z | None => 0%Z end)
  else Ok 0%Z.
(** 89-96 GetAllNames *)
Definition GetAllNames (h : handler) : list string :=
  flat_map (fun k => match id_find (h_id2name h) (Z.of_nat k) with Some s => [s] | None => [] end) (seq 0 (List.length (h_types h))).
