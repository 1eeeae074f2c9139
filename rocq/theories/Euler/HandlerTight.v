(** The types of the built-in ids. *)
From Coq Require Import Reals List Arith ZArith String Permutation Lia.
From Verif Require Import Base.Prelude Geom.BoundaryModel Euler.BndModel Euler.HandlerModel Euler.HandlerSpec Euler.HandlerProofs.
Import ListNotations.
Definition built_in (id : Z) : bctype :=
  if (id =? BC_ID_DEFAULT_WALL)%Z then BCWall else if (id =? BC_ID_DEFAULT_WALL_INVIS)%Z then BCWallInvis else if (id =? BC_ID_DEFAULT_FAR)%Z then BCFar
  else if existsb (Z.eqb id) [BC_ID_DEFAULT_SPECIAL_DMR_FAR; BC_ID_DEFAULT_SPECIAL_RT_FAR; BC_ID_DEFAULT_SPECIAL_IV_FAR; BC_ID_DEFAULT_SPECIAL_2DRiemann_FAR] then BCSpecial else BCUnknown.
Lemma built_in_types nV o it0 j h : from_json o nV (new_handler it0) j = Ok h -> forall id, (id < 20)%Z -> GetTypeFromID h id = Ok (built_in id).
Proof.
  intros H id L. destruct (reads_other _ _ _ _ _ H) as (_ & A & _). rewrite (proj1 (A id L)). unfold GetTypeFromID, FaceIDIsExternalBC. destruct (Z.ltb_spec 0 id) as [P|P].
  - assert (E : exists n, (n < 20)%nat /\ id = Z.of_nat n) by (exists (Z.to_nat id); lia). destruct E as (n & N & ->). clear - N. do 20 (destruct n as [|n]; [reflexivity|]). lia.
  - unfold built_in. destruct id; try lia; reflexivity.
Qed.
Lemma special_ids_only h id : (id <= 0)%Z -> GetTypeFromID h id = Ok BCUnknown /\ forall key, GetFlagFromID h id key = Ok 0%Z /\ GetFlagFromIDSoft h id key = Ok 0%Z.
Proof.
  intro L. unfold GetTypeFromID, GetFlagFromID, GetFlagFromIDSoft, FaceIDIsExternalBC. rewrite (proj2 (Z.ltb_ge 0 id) L). auto.
Qed.
