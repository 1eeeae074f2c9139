(** C01, C02, C03: distributed numbering and pull-built ghost mappings. *)
From Coq Require Import List ZArith Lia Bool Arith.
From Verif Require Import Base.Prelude Base.PreludeFacts Base.MPIModel
  DNDS.IndexMappingModel DNDS.IndexMappingSpec DNDS.IndexMappingProofs
  DNDS.GhostPullProofs DNDS.GhostSearchProofs.
Import ListNotations.
Local Open Scope Z_scope.

(** ** C01 *)

(** The lengths are accepted whenever the total fits a 64-bit index. *)
Theorem C01_align_total : forall lens, Z.of_nat (length (flat lens)) <= int64_max ->
  exists g, setMPIAlignBcast (map Z.of_nat lens) = Ok g.
Proof. exact align_total. Qed.
Print Assumptions C01_align_total.

(** Searching any integer finds exactly the item with that global index. *)
Theorem C01_search : forall lens g q, setMPIAlignBcast (map Z.of_nat lens) = Ok g ->
  gsearch g q = match item_at lens q with
                | Some (r, v) => Some (Z.of_nat r, Z.of_nat v)
                | None => None
                end.
Proof. exact search_spec. Qed.
Print Assumptions C01_search.

(** Converting an item gives the global index at which the enumeration has it. *)
Theorem C01_to_global : forall lens g r v, setMPIAlignBcast (map Z.of_nat lens) = Ok g ->
  (r < length lens)%nat -> (v < nth r lens 0)%nat ->
  exists q, toGlobal g (Z.of_nat r) (Z.of_nat v) = Ok q /\ item_at lens q = Some (r, v).
Proof. exact to_global_spec. Qed.
Print Assumptions C01_to_global.

(** Round trips. *)
Theorem C01_local_global_local : forall lens g r v,
  setMPIAlignBcast (map Z.of_nat lens) = Ok g ->
  (r < length lens)%nat -> (v < nth r lens 0)%nat ->
  exists q, toGlobal g (Z.of_nat r) (Z.of_nat v) = Ok q /\
            gsearch g q = Some (Z.of_nat r, Z.of_nat v).
Proof. exact local_global_local. Qed.
Print Assumptions C01_local_global_local.

Theorem C01_global_local_global : forall lens g q,
  setMPIAlignBcast (map Z.of_nat lens) = Ok g ->
  (0 <= q < globalSize g ->
     exists rk v, gsearch g q = Some (rk, v) /\ toGlobal g rk v = Ok q /\
       0 <= rk < Z.of_nat (length lens) /\ 0 <= v < Z.of_nat (nth (Z.to_nat rk) lens 0%nat)) /\
  (~ 0 <= q < globalSize g -> gsearch g q = None).
Proof. exact global_local_global. Qed.
Print Assumptions C01_global_local_global.

Theorem C01_global_size : forall lens g, setMPIAlignBcast (map Z.of_nat lens) = Ok g ->
  globalSize g = Z.of_nat (length (flat lens)).
Proof. exact global_size_spec. Qed.
Print Assumptions C01_global_size.

(** The conversion does not reject every pair that is not an item: it accepts
    the position one past the end of a rank and returns an index that belongs
    to another rank (the assertion has [<=] where an element needs [<]). *)
Theorem C01_to_global_rejects_refuted :
  exists lens g r v q, setMPIAlignBcast (map Z.of_nat lens) = Ok g /\
    (r < length lens)%nat /\ ~ (v < nth r lens 0)%nat /\
    toGlobal g (Z.of_nat r) (Z.of_nat v) = Ok q /\ ~ owned_by lens r q.
Proof. exact to_global_accepts_end. Qed.
Print Assumptions C01_to_global_rejects_refuted.

(** A rank equal to the number of ranks passes the rank assertion and reads
    outside the offset vector. *)
Theorem C01_to_global_rank_refuted :
  exists lens g, setMPIAlignBcast (map Z.of_nat lens) = Ok g /\
    toGlobal g (Z.of_nat (length lens)) 0 = UB.
Proof. exact to_global_rank_ub. Qed.
Print Assumptions C01_to_global_rank_refuted.

Example C01_example :
  exists g, setMPIAlignBcast [2; 0; 3] = Ok g /\
    map (gsearch g) [-1; 0; 1; 2; 4; 5] =
      [None; Some (0, 0); Some (0, 1); Some (2, 0); Some (2, 2); None] /\
    toGlobal g 2 1 = Ok 3 /\ globalSize g = 5.
Proof. eexists. split; [vm_compute; reflexivity|]. vm_compute. repeat split. Qed.

(** ** C02: [setup_pull sizes pulls] on all ranks; [m] is rank [r]'s mapping. *)

Theorem C02_setup_total : forall lens pulls,
  length pulls = length lens -> Z.of_nat (list_sum lens) <= int64_max ->
  (forall pull q, In pull pulls -> In q pull -> 0 <= q < Z.of_nat (list_sum lens)) ->
  zlen (concat pulls) <= int32_max ->
  exists g ms, setup_pull (map Z.of_nat lens) pulls = Ok (g, ms).
Proof. exact setup_pull_total. Qed.
Print Assumptions C02_setup_total.

(** A request for an index nobody owns is not accepted. *)
Theorem C02_unowned_rejected : forall lens pulls pull q g ms,
  length pulls = length lens -> In pull pulls -> In q pull -> item_at lens q = None ->
  setup_pull (map Z.of_nat lens) pulls <> Ok (g, ms).
Proof. exact setup_pull_rejects. Qed.
Print Assumptions C02_unowned_rejected.

(** Ghost slots: all distinct requests in ascending order, grouped by owner. *)
Theorem C02_slots : forall lens pulls g ms r m pull,
  length pulls = length lens -> setup_pull (map Z.of_nat lens) pulls = Ok (g, ms) ->
  nth_error ms r = Some m -> nth_error pulls r = Some pull ->
  ascending_list_of (fun _ => True) pull (ghostIndex m) /\
  (forall s, (s < length lens)%nat -> exists l,
     part (ghostStart m) (ghostIndex m) s = Some l /\
     ascending_list_of (owned_by lens s) pull l) /\
  last (ghostStart m) 0 = zlen (ghostIndex m).
Proof. exact (fun lens pulls g ms r m pull Hl H => slots_all lens pulls ms r m pull (conj Hl (ex_intro _ g H))). Qed.
Print Assumptions C02_slots.

(** An index of the rank itself is found in the main part, at its local place. *)
Theorem C02_lookup_main : forall lens pulls g ms r m q v,
  length pulls = length lens -> setup_pull (map Z.of_nat lens) pulls = Ok (g, ms) ->
  nth_error ms r = Some m -> item_at lens q = Some (r, v) ->
  search m q = Ok (Some (-1, Z.of_nat v)) /\
  search_indexAppend m q = Ok (Some (-1, Z.of_nat v)) /\
  search_indexRank m q = Ok (Some (-1, Z.of_nat v)) /\
  mapIndex m (-1) (Z.of_nat v) = Ok q.
Proof. exact (fun lens pulls g ms r m q v Hl H => lookup_main lens pulls ms r m q v (conj Hl (ex_intro _ g H))). Qed.
Print Assumptions C02_lookup_main.

(** A requested index of another rank is found with its owner and its slot, in
    all three numberings, and both inverse conversions give it back. *)
Theorem C02_lookup_ghost : forall lens pulls g ms r m pull q s v,
  length pulls = length lens -> setup_pull (map Z.of_nat lens) pulls = Ok (g, ms) ->
  nth_error ms r = Some m -> nth_error pulls r = Some pull ->
  In q pull -> item_at lens q = Some (s, v) -> s <> r ->
  exists k kr, nth_error (ghostIndex m) k = Some q /\
    search m q = Ok (Some (Z.of_nat s, Z.of_nat k)) /\
    search_indexAppend m q = Ok (Some (Z.of_nat s, Z.of_nat (nth r lens 0%nat + k))) /\
    search_indexRank m q = Ok (Some (Z.of_nat s, Z.of_nat kr)) /\
    mapIndex m (-1) (Z.of_nat (nth r lens 0%nat + k)) = Ok q /\
    mapIndex m (Z.of_nat s) (Z.of_nat kr) = Ok q.
Proof. exact (fun lens pulls g ms r m pull q s v Hl H =>
  lookup_ghost lens pulls ms r m pull q s v (conj Hl (ex_intro _ g H))). Qed.
Print Assumptions C02_lookup_ghost.

(** Anything else is not found. *)
Theorem C02_lookup_none : forall lens pulls g ms r m pull q,
  length pulls = length lens -> setup_pull (map Z.of_nat lens) pulls = Ok (g, ms) ->
  nth_error ms r = Some m -> nth_error pulls r = Some pull ->
  ~ In q pull -> ~ owned_by lens r q ->
  search m q = Ok None /\ search_indexAppend m q = Ok None /\ search_indexRank m q = Ok None.
Proof. exact (fun lens pulls g ms r m pull q Hl H =>
  lookup_none lens pulls ms r m pull q (conj Hl (ex_intro _ g H))). Qed.
Print Assumptions C02_lookup_none.

(** The per-rank search agrees with the owner partition. *)
Theorem C02_search_in_rank : forall lens pulls g ms r m pull q s,
  length pulls = length lens -> setup_pull (map Z.of_nat lens) pulls = Ok (g, ms) ->
  nth_error ms r = Some m -> nth_error pulls r = Some pull -> (s < length lens)%nat ->
  (In q pull /\ owned_by lens s q ->
     exists k, searchInGhost m q (Z.of_nat s) = Ok (Some (Z.of_nat k)) /\
               mapIndex m (Z.of_nat s) (Z.of_nat k) = Ok q) /\
  (~ (In q pull /\ owned_by lens s q) -> searchInGhost m q (Z.of_nat s) = Ok None).
Proof. exact (fun lens pulls g ms r m pull q s Hl H =>
  search_in_rank lens pulls ms r m pull q s (conj Hl (ex_intro _ g H))). Qed.
Print Assumptions C02_search_in_rank.

Example C02_example :
  exists g ms m, setup_pull [2; 0; 3] [[4; 1; 2; 4]; []; [0]] = Ok (g, ms) /\
    nth_error ms 0 = Some m /\ ghostIndex m = [1; 2; 4] /\ ghostStart m = [0; 1; 1; 3] /\
    map (search_indexAppend m) [0; 1; 2; 3; 4] =
      [Ok (Some (-1, 0)); Ok (Some (-1, 1)); Ok (Some (2, 3)); Ok None; Ok (Some (2, 4))].
Proof. do 3 eexists. split; [vm_compute; reflexivity|]. vm_compute. repeat split. Qed.

(** ** C03 *)

(** What [r] receives from [s] is what [s] sends to [r]: the same list, namely
    the ascending distinct requests of [r] owned by [s]; counts agree. *)
Theorem C03_dual : forall lens pulls g ms r s mr msnd pull,
  length pulls = length lens -> setup_pull (map Z.of_nat lens) pulls = Ok (g, ms) ->
  nth_error ms r = Some mr -> nth_error ms s = Some msnd -> nth_error pulls r = Some pull ->
  exists l, ascending_list_of (owned_by lens s) pull l /\
    part (ghostStart mr) (ghostIndex mr) s = Some l /\
    part (pushIndexStarts msnd) (pushingIndexGlobal msnd) r = Some l /\
    nth_error (ghostSizes mr) s = Some (zlen l) /\
    nth_error (pushIndexSizes msnd) r = Some (zlen l).
Proof. exact (fun lens pulls g ms r s mr msnd pull Hl H =>
  dual_parts lens pulls ms r s mr msnd pull (conj Hl (ex_intro _ g H))). Qed.
Print Assumptions C03_dual.

(** The send list has one part per rank and nothing else, all owned by the sender. *)
Theorem C03_send_list_exact : forall lens pulls g ms s msnd,
  length pulls = length lens -> setup_pull (map Z.of_nat lens) pulls = Ok (g, ms) ->
  nth_error ms s = Some msnd ->
  last (pushIndexStarts msnd) 0 = zlen (pushingIndexGlobal msnd) /\
  length (pushIndexStarts msnd) = S (length lens) /\
  Forall (owned_by lens s) (pushingIndexGlobal msnd).
Proof. exact (fun lens pulls g ms s msnd Hl H =>
  push_total lens pulls ms s msnd (conj Hl (ex_intro _ g H))). Qed.
Print Assumptions C03_send_list_exact.

Example C03_example :
  exists g ms m2, setup_pull [2; 0; 3] [[4; 1; 2; 4]; [3]; [0]] = Ok (g, ms) /\
    nth_error ms 2 = Some m2 /\ pushingIndexGlobal m2 = [2; 4; 3] /\
    pushIndexStarts m2 = [0; 2; 3; 3].
Proof. do 3 eexists. split; [vm_compute; reflexivity|]. vm_compute. repeat split. Qed.
