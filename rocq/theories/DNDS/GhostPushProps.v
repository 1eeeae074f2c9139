(** C06: ghost mappings built from push lists. *)
From Coq Require Import List ZArith Lia Bool Arith.
From Verif Require Import Base.Prelude Base.PreludeFacts Base.MPIModel
  DNDS.IndexMappingModel DNDS.IndexMappingSpec DNDS.GhostPushProofs.
Import ListNotations.
Local Open Scope Z_scope.

(** Every well-formed family of push lists is accepted. *)
Theorem C06_setup_total : forall lens L, pushes_ok lens L ->
  Z.of_nat (list_sum lens) <= int64_max -> zlen (concat (concat L)) <= int32_max ->
  exists g ms, setup_push (map Z.of_nat lens) (map push_args L) = Ok (g, ms).
Proof. exact setup_push_total. Qed.
Print Assumptions C06_setup_total.

(** Every rank receives the listed rows grouped by sender in the listed order. *)
Theorem C06_received : forall lens L g ms r m s dests l,
  pushes_ok lens L -> setup_push (map Z.of_nat lens) (map push_args L) = Ok (g, ms) ->
  nth_error ms r = Some m -> nth_error L s = Some dests -> nth_error dests r = Some l ->
  exists rows, part (ghostStart m) (ghostIndex m) s = Some rows /\
    length rows = length l /\
    forall k q i, nth_error rows k = Some q -> nth_error l k = Some i -> item_at lens q = Some (s, i).
Proof. exact setup_push_received. Qed.
Print Assumptions C06_received.

(** The mapping for ascending lists is the one a pull of the same rows builds,
    so that every property of pull-built mappings (C02, C03) holds of it. *)
Theorem C06_push_as_pull : forall lens L g ms, pushes_ok lens L -> ascending_pushes L ->
  setup_push (map Z.of_nat lens) (map push_args L) = Ok (g, ms) ->
  forall pulls g' ms', length pulls = length lens ->
  (forall r q, (r < length lens)%nat ->
     (In q (nth r pulls []) <-> exists s i, In i (seg_of L s r) /\ item_at lens q = Some (s, i))) ->
  setup_pull (map Z.of_nat lens) pulls = Ok (g', ms') -> ms = ms'.
Proof. exact push_as_pull. Qed.
Print Assumptions C06_push_as_pull.

(** Lookups.  Missing from the full property: lists that are not ascending. *)
Theorem C06_lookup_partial : forall lens L g ms r m s i q,
  pushes_ok lens L -> ascending_pushes L ->
  setup_push (map Z.of_nat lens) (map push_args L) = Ok (g, ms) ->
  nth_error ms r = Some m -> s <> r -> In i (seg_of L s r) -> item_at lens q = Some (s, i) ->
  exists k kr, nth_error (ghostIndex m) k = Some q /\
    search m q = Ok (Some (Z.of_nat s, Z.of_nat k)) /\
    search_indexAppend m q = Ok (Some (Z.of_nat s, Z.of_nat (nth r lens 0%nat + k))) /\
    search_indexRank m q = Ok (Some (Z.of_nat s, Z.of_nat kr)) /\
    mapIndex m (-1) (Z.of_nat (nth r lens 0%nat + k)) = Ok q /\
    mapIndex m (Z.of_nat s) (Z.of_nat kr) = Ok q.
Proof. exact push_lookup. Qed.
Print Assumptions C06_lookup_partial.

(** For the missing part the property is false of the code: a row that was
    received is not found. *)
Theorem C06_lookup_refuted :
  exists lens L g ms m q s i, pushes_ok lens L /\
    setup_push (map Z.of_nat lens) (map push_args L) = Ok (g, ms) /\
    nth_error ms 1 = Some m /\ s <> 1%nat /\ In i (seg_of L s 1) /\ item_at lens q = Some (s, i) /\
    In q (ghostIndex m) /\ search_indexAppend m q = Ok None.
Proof. exact push_lookup_unsorted. Qed.
Print Assumptions C06_lookup_refuted.

(** Three ranks, one empty; rank 2 sends to ranks 0 and 1, rank 0 to itself. *)
Example C06_example :
  let lens := [2; 0; 3]%nat in
  let L := [[[1]; []; [0; 1]]; [[]; []; []]; [[0; 2]; [1]; []]]%nat in
  exists g ms m, setup_push (map Z.of_nat lens) (map push_args L) = Ok (g, ms) /\
    nth_error ms 0 = Some m /\ ghostIndex m = [1; 2; 4] /\ ghostStart m = [0; 1; 1; 3] /\
    search_indexAppend m 4 = Ok (Some (2, 4)).
Proof. do 3 eexists. split; [vm_compute; reflexivity|]. vm_compute. repeat split. Qed.

Example C06_example_hyps :
  let lens := [2; 0; 3]%nat in
  let L := [[[1]; []; [0; 1]]; [[]; []; []]; [[0; 2]; [1]; []]]%nat in
  pushes_ok lens L /\ ascending_pushes L.
Proof.
  split.
  - split; auto. intros [|[|[|s]]] dests H; simpl in H; try (injection H as <-);
      try (split; auto; repeat constructor); destruct s; discriminate.
  - unfold ascending_pushes. repeat constructor; intros [|[|[|i]]] [|[|[|j]]] x y Hij Hx Hy; simpl in *;
      try discriminate; try lia; injection Hx as <-; injection Hy as <-; lia.
Qed.
