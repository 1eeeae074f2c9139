(** Property C63. *)
From Coq Require Import Reals List Arith ZArith String Permutation.
From Verif Require Import Base.Prelude Geom.BoundaryModel Euler.BndModel Euler.HandlerModel Euler.HandlerSpec Euler.HandlerProofs Euler.HandlerTight.
Import ListNotations.

(** *** which settings are accepted *)
Theorem C63_accepts : forall nV o it0 j, (exists h, from_json o nV (new_handler it0) j = Ok h) <-> settings_ok nV j.
Proof. exact accepts. Qed.
Print Assumptions C63_accepts.

(** *** the k-th condition gets id 20 + k and is found under it and under its name *)
Theorem C63_reads : forall nV o it0 j h, (forall l, Permutation (o l) l) -> from_json o nV (new_handler it0) j = Ok h ->
  forall k it, nth_error j k = Some it ->
    GetIDFromName h (i_name it) = (20 + Z.of_nat k)%Z /\ GetNameFormID h (20 + Z.of_nat k) = i_name it /\
    GetTypeFromID h (20 + Z.of_nat k) = Ok (i_type it) /\
    (exists v, GetValueFromID h (20 + Z.of_nat k) = Ok (Some v) /\ holds_value nV it v) /\
    GetValueExtraFromID h (20 + Z.of_nat k) = Ok (match i_extra it with Some x => x | None => [] end).
Proof. exact reads. Qed.
Print Assumptions C63_reads.

Theorem C63_reads_flags : forall nV o it0 j h, from_json o nV (new_handler it0) j = Ok h ->
  forall k it key, nth_error j k = Some it ->
    (forall jk, In (key, jk) (flag_fields (i_type it)) -> exists z, setting it jk z /\
       GetFlagFromID h (20 + Z.of_nat k) key = Ok z /\ GetFlagFromIDSoft h (20 + Z.of_nat k) key = Ok z) /\
    (~ In key (map fst (flag_fields (i_type it))) ->
       GetFlagFromID h (20 + Z.of_nat k) key = Abort /\ GetFlagFromIDSoft h (20 + Z.of_nat k) key = Ok 0%Z).
Proof. exact reads_flags. Qed.
Print Assumptions C63_reads_flags.

(** other names, the default ids and ids beyond the table *)
Theorem C63_reads_nothing_else : forall nV o it0 j h, from_json o nV (new_handler it0) j = Ok h ->
  (forall s, ~ In s (map i_name j) -> GetIDFromName h s = FBC_Name_2_ID_Default s) /\
  (forall id, (id < 20)%Z -> GetTypeFromID h id = GetTypeFromID (new_handler it0) id /\ GetValueFromID h id = GetValueFromID (new_handler it0) id) /\
  (forall id, (20 + Z.of_nat (List.length j) <= id)%Z -> GetTypeFromID h id = Abort /\ GetValueFromID h id = Abort).
Proof. exact reads_other. Qed.
Print Assumptions C63_reads_nothing_else.

(** the built-in ids: walls, far field and the special ones; anything else below 20 is
    unknown, and inner and periodic faces have no type and no flags *)
Theorem C63_built_in_types : forall nV o it0 j h, from_json o nV (new_handler it0) j = Ok h ->
  forall id, (id < 20)%Z -> GetTypeFromID h id = Ok (built_in id).
Proof. exact built_in_types. Qed.
Print Assumptions C63_built_in_types.
Theorem C63_inner_faces_have_no_type : forall h id, (id <= 0)%Z ->
  GetTypeFromID h id = Ok BCUnknown /\ forall key, GetFlagFromID h id key = Ok 0%Z /\ GetFlagFromIDSoft h id key = Ok 0%Z.
Proof. exact special_ids_only. Qed.
Print Assumptions C63_inner_faces_have_no_type.

(** reading in two pieces is reading the whole *)
Theorem C63_reads_in_pieces : forall nV o o' h j j' h1, from_json o nV h j = Ok h1 ->
  from_json o' nV h1 j' = from_json o' nV h (j ++ j').
Proof. exact pieces. Qed.
Print Assumptions C63_reads_in_pieces.

(** *** flags that the evaluator demands *)
Theorem C63_demanded_flags_present : forall nV o it0 j h k it key, from_json o nV (new_handler it0) j = Ok h ->
  nth_error j k = Some it -> In key (demanded (i_type it)) -> exists z, GetFlagFromID h (20 + Z.of_nat k) key = Ok z.
Proof. exact demanded_present. Qed.
Print Assumptions C63_demanded_flags_present.

(** The built-in ids have no flags: asking throws, and in a rotating frame every face
    of a built-in wall or far field stops the run. *)
Theorem C63_default_flags_present_refuted : forall nV o it0 j h, from_json o nV (new_handler it0) j = Ok h ->
  (GetTypeFromID h BC_ID_DEFAULT_WALL = Ok BCWall /\ GetFlagFromID h BC_ID_DEFAULT_WALL "frameOpt" = Abort) /\
  (GetTypeFromID h BC_ID_DEFAULT_FAR = Ok BCFar /\ GetFlagFromID h BC_ID_DEFAULT_FAR "frameOpt" = Abort) /\
  (GetTypeFromID h BC_ID_DEFAULT_SPECIAL_DMR_FAR = Ok BCSpecial /\ GetFlagFromID h BC_ID_DEFAULT_SPECIAL_DMR_FAR "specialOpt" = Abort).
Proof. exact default_missing. Qed.
Print Assumptions C63_default_flags_present_refuted.
Theorem C63_default_ids_in_rotating_frame_refuted : forall nV o it0 j h v b id e n p pf t fixUL UL ULm,
  from_json o nV (new_handler it0) j = Ok h -> id = BC_ID_DEFAULT_WALL \/ id = BC_ID_DEFAULT_FAR ->
  row h id v = Ok b -> fr_on (e_frame e) = true -> boundary_value e b n p pf t fixUL UL ULm = Abort.
Proof. exact default_aborts. Qed.
Print Assumptions C63_default_ids_in_rotating_frame_refuted.

(** *** writing and reading back *)
Theorem C63_round_trip_partial : forall nV o it0 o' it0' j h, (forall l, Permutation (o l) l) ->
  from_json o nV (new_handler it0) j = Ok h ->
  (forall it, In it j -> not_written (i_type it) -> setting it "integrationOption" 0) ->
  exists j' h', to_json h = Ok j' /\ from_json o' nV (new_handler it0') j' = Ok h' /\ same_table h h'.
Proof. exact round_trip. Qed.
Print Assumptions C63_round_trip_partial.

(** what is written is stable under a second round *)
Theorem C63_written_settings_stable : forall nV o it0 o' it0' j h, (forall l, Permutation (o l) l) -> (forall l, Permutation (o' l) l) ->
  from_json o nV (new_handler it0) j = Ok h ->
  exists j' h', to_json h = Ok j' /\ from_json o' nV (new_handler it0') j' = Ok h' /\ to_json h' = Ok j'.
Proof. exact write_stable. Qed.
Print Assumptions C63_written_settings_stable.

(** The integration option of far fields, outlets, inlets and symmetry planes is not
    written: a restarted run no longer integrates over them. *)
Theorem C63_round_trip_refuted : exists nV j h j' h',
  from_json (fun l => l) nV (new_handler GetFaceName2IDDefault) j = Ok h /\ to_json h = Ok j' /\
  from_json (fun l => l) nV (new_handler GetFaceName2IDDefault) j' = Ok h' /\
  GetFlagFromID h 20 "integrationOpt" = Ok 1%Z /\ GetFlagFromID h' 20 "integrationOpt" = Ok 0%Z.
Proof. exact drops. Qed.
Print Assumptions C63_round_trip_refuted.

(** *** names of the built-in ids: one of two, by the order of the hash table *)
Theorem C63_default_name : forall nV o it0 j h, (forall l, Permutation (o l) l) -> from_json o nV (new_handler it0) j = Ok h ->
  GetNameFormID h BC_ID_DEFAULT_WALL = "WALL"%string \/ GetNameFormID h BC_ID_DEFAULT_WALL = "bc-4"%string.
Proof. exact two_names. Qed.
Print Assumptions C63_default_name.
Theorem C63_default_name_unique_refuted : exists o o' h h', (forall l, Permutation (o l) l) /\ (forall l, Permutation (o' l) l) /\
  from_json o 5 (new_handler GetFaceName2IDDefault) [far1; wall1; sym1] = Ok h /\
  from_json o' 5 (new_handler GetFaceName2IDDefault) [far1; wall1; sym1] = Ok h' /\
  GetNameFormID h BC_ID_DEFAULT_WALL <> GetNameFormID h' BC_ID_DEFAULT_WALL.
Proof. exact name_varies. Qed.
Print Assumptions C63_default_name_unique_refuted.

(** *** the hypotheses are met *)
Example C63_met : settings_ok 5 [far1; wall1; sym1].
Proof. exact case_ok. Qed.
Example C63_met_flags : forall h, from_json (fun l => l) 5 (new_handler GetFaceName2IDDefault) [far1; wall1; sym1] = Ok h ->
  GetFlagFromID h 20 "frameOpt" = Ok 1%Z /\ GetFlagFromID h 21 "frameOpt" = Ok 0%Z /\ GetFlagFromID h 22 "frameOpt" = Abort.
Proof. exact case_flags. Qed.
