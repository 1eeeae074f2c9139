(** C33: boundary ids and names. *)
From Coq Require Import ZArith String List Bool.
From Verif Require Import Geom.BoundaryModel Geom.BoundaryProofs.
Import ListNotations.
Open Scope Z_scope.

(** In the library's range (-6 and above) exactly one of the four classes holds. *)
Theorem C33_ids_classify_exclusively id : -6 <= id ->
  exactly_one [FaceIDIsExternalBC id; FaceIDIsTrueInternal id;
               FaceIDIsPeriodicMain id; FaceIDIsPeriodicDonor id].
Proof. exact (bool_case4 id). Qed.
Print Assumptions C33_ids_classify_exclusively.

(** Below it no class holds, although the id still counts as internal. *)
Theorem C33_ids_below_range_are_unclassified id : id < -6 ->
  FaceIDIsExternalBC id = false /\ FaceIDIsTrueInternal id = false /\
  FaceIDIsPeriodic id = false /\ FaceIDIsInternal id = true.
Proof. exact (unused_ids id). Qed.
Print Assumptions C33_ids_below_range_are_unclassified.

(** Internal is the complement of external for every integer. *)
Theorem C33_internal_is_not_external id :
  FaceIDIsInternal id = negb (FaceIDIsExternalBC id).
Proof. exact (internal_split id). Qed.
Print Assumptions C33_internal_is_not_external.

(** The periodic ids are -6..-1; each is main or donor, not both, and belongs
    to exactly one of the three periodic pairs. *)
Theorem C33_periodic_ids_split id :
  (FaceIDIsPeriodic id = true <-> -6 <= id <= -1) /\
  (FaceIDIsPeriodic id = FaceIDIsPeriodicMain id || FaceIDIsPeriodicDonor id) /\
  (FaceIDIsPeriodicMain id && FaceIDIsPeriodicDonor id = false) /\
  (FaceIDIsPeriodic id = true ->
   exactly_one [FaceIDIsPeriodic1 id; FaceIDIsPeriodic2 id; FaceIDIsPeriodic3 id]).
Proof. exact (periodic_split id). Qed.
Print Assumptions C33_periodic_ids_split.

(** Function and map agree on every string. *)
Theorem C33_name_tables_agree name :
  FBC_Name_2_ID_Default name =
  match map_find GetFaceName2IDDefault name with Some id => id | None => BC_ID_NULL end.
Proof. exact (tables_agree name). Qed.
Print Assumptions C33_name_tables_agree.

(** A string gets the unknown id exactly when it is not in the table. *)
Theorem C33_unknown_names_get_unknown_id name :
  FBC_Name_2_ID_Default name = BC_ID_NULL <->
  ~ In name (map fst GetFaceName2IDDefault).
Proof. exact (unknown_name name). Qed.
Print Assumptions C33_unknown_names_get_unknown_id.

(** And any other id exactly when the pair is in the table. *)
Theorem C33_known_names name id :
  In (name, id) GetFaceName2IDDefault <->
  (FBC_Name_2_ID_Default name = id /\ id <> BC_ID_NULL).
Proof. exact (known_name name id). Qed.
Print Assumptions C33_known_names.

(** The numbering map gives equal numbers to equal names only, whatever the
    order of lookups, and uses consecutive numbers from zero. *)
Theorem C33_numbering_map_is_injective names vs m :
  name_map_gets [] names = (vs, m) ->
  List.length vs = List.length names /\
  (forall i j a b, nth_error names i = Some a -> nth_error names j = Some b ->
     (a = b <-> nth_error vs i = nth_error vs j)) /\
  (forall v, In v (map snd m) <-> 0 <= v < Z.of_nat (List.length m)).
Proof. exact (name_map_numbering names vs m). Qed.
Print Assumptions C33_numbering_map_is_injective.

Example C33_example_names :
  FBC_Name_2_ID_Default "bc-4" = 2 /\ FBC_Name_2_ID_Default "PERIODIC_2_DONOR" = -5 /\
  FBC_Name_2_ID_Default "inlet" = 1 /\
  name_map_gets [] ["a"; "b"; "a"; "c"]%string =
    ([0; 1; 0; 2], [("c", 2); ("b", 1); ("a", 0)])%string.
Proof. repeat split; reflexivity. Qed.
