(** C11: arrays written to a serializer and read back. *)
From Coq Require Import ZArith List Bool String Ascii Arith.
From Verif Require Import Base.Prelude DNDS.ArrayModel DNDS.ArraySpec DNDS.JsonModel DNDS.JsonSpec
  DNDS.SerialModel DNDS.SerialSpec DNDS.SerialProofs.
Import ListNotations.
Open Scope list_scope.
Open Scope Z_scope.

(** Arrays of any layouts and any history of calls are written under distinct
    names in a directory, and the file is read into new arrays.  Writing succeeds
    and leaves every array reading as before; reading succeeds, and every array
    read has the size, the row sizes and the elements of the one written.  The
    new arrays have the same layout, or its static or dynamic form.  Both leave
    the current path as it was. *)
Theorem C11_round_trip : forall T (dflt : T) sizeofT align type_name ls cs w d items lts,
  covered_history dflt (map snew ls) cs ->
  run dflt {| hp := []; arrs := map (@new_arr T) ls |} cs = Ok w ->
  (forall n, In n d -> good_name n = true) -> (forall n, In n (names items) -> good_name n = true) ->
  NoDup (names items) ->
  (forall k n, In (k, n) items -> exists a, nth_error (arrs w) k = Some a /\ writable a) ->
  List.length lts = List.length items ->
  (forall i k n a lt, nth_error items i = Some (k, n) -> nth_error (arrs w) k = Some a -> nth_error lts i = Some lt ->
     nonzero a /\ compatible (lay a) (rsd a) lt) ->
  exists s0 s w' s1 s2 w2,
    (do s <- CreatePath open_write (slashes d); GoToPath s (slashes d)) = Ok s0 /\
    write_all T dflt sizeofT align type_name (s0, w) items = Ok (s, w') /\
    GetCurrentPath s = GetCurrentPath s0 /\
    (forall k a, nth_error (arrs w) k = Some a ->
       exists a', nth_error (arrs w') k = Some a' /\ same_reads (hp w) a (hp w') a') /\
    GoToPath (open_read (root s)) (slashes d) = Ok s1 /\
    read_all T sizeofT align (s1, {| hp := []; arrs := map (@new_arr T) lts |})
      (combine (seq 0 (List.length items)) (names items)) = Ok (s2, w2) /\
    GetCurrentPath s2 = GetCurrentPath s1 /\
    (forall i k n a, nth_error items i = Some (k, n) -> nth_error (arrs w) k = Some a ->
       exists b, nth_error (arrs w2) i = Some b /\ same_reads (hp w) a (hp w2) b).
Proof. exact round_trip. Qed.
Print Assumptions C11_round_trip.
(** A ragged array, a copy of it sharing its row starts, an empty one, a fixed
    and a max table, written to "/mesh" and read into five new arrays. *)
Example C11_round_trip_nonvacuous :
  let ls := [CSR; CSR; CSR; Fixed; Max] in
  let cs := [(0%nat, CResize 2); (0%nat, CResizeRow 0 2); (0%nat, CSet 0 1 7); (0%nat, CCompress);
             (1%nat, CCopyFrom 0); (3%nat, CResize2 2 3); (3%nat, CSet 1 2 9);
             (4%nat, CResize2 1 2); (4%nat, CResizeRow 0 1); (4%nat, CSet 0 0 4)] in
  exists w s0 s w' s1 s2 w2, run 0 {| hp := []; arrs := map (@new_arr Z) ls |} cs = Ok w /\
    (do s <- CreatePath open_write "/mesh"; GoToPath s "/mesh") = Ok s0 /\
    write_all Z 0 8 0 (fun _ => "t"%string) (s0, w)
      [(0%nat, "a"); (1%nat, "b"); (2%nat, "c"); (3%nat, "d"); (4%nat, "e")]%string = Ok (s, w') /\
    GoToPath (open_read (root s)) "/mesh" = Ok s1 /\
    read_all Z 8 0 (s1, {| hp := []; arrs := map (@new_arr Z) [CSR; CSR; CSR; StaticFixed 3; StaticMax 2] |})
      [(0%nat, "a"); (1%nat, "b"); (2%nat, "c"); (3%nat, "d"); (4%nat, "e")]%string = Ok (s2, w2) /\
    (do a <- vget (arrs w2) 1; at_ (hp w2) a 0 1) = Ok 7 /\
    (do a <- vget (arrs w2) 3; at_ (hp w2) a 1 2) = Ok 9 /\
    (do a <- vget (arrs w2) 4; at_ (hp w2) a 0 0) = Ok 4.
Proof.
  do 7 eexists. split; [vm_compute; reflexivity|]. split; [vm_compute; reflexivity|].
  split; [vm_compute; reflexivity|]. split; [vm_compute; reflexivity|]. split; [vm_compute; reflexivity|].
  split; [vm_compute; reflexivity|]. split; vm_compute; reflexivity.
Qed.

(** The signature string gives back what it was made of. *)
Theorem C11_signature : forall sizeofT align l,
  ParseArraySignatureTuple (GetArraySignature sizeofT align l) = Ok (sizeofT, row_size_of l, row_max_of l, align).
Proof. exact parse_signature. Qed.
Print Assumptions C11_signature.
Example C11_signature_nonvacuous :
  GetArraySignature 8 (-1) (StaticFixed 12) = "TABLE_StaticFixed__8_12_12_-1"%string.
Proof. reflexivity. Qed.

(** A max-layout array that was never resized cannot be written: a null pointer
    is dereferenced. *)
Theorem C11_write_new_max_refuted :
  WriteSerializer Z 0 8 0 (fun _ => "t"%string) open_write [] (new_arr Max) "x" = UB.
Proof. exact null_sizes. Qed.
Print Assumptions C11_write_new_max_refuted.

(** An array whose rows all have length 0 is written, but reading it divides by
    zero. *)
Theorem C11_zero_rows_refuted : exists s h a,
  run 0 {| hp := []; arrs := [new_arr Fixed] |} [(0%nat, CResize2 3 0)] = Ok {| hp := []; arrs := [zero_table] |} /\
  WriteSerializer Z 0 8 0 (fun _ => "t"%string) open_write [] zero_table "x" = Ok (s, h, a) /\
  ReadSerializer Z 8 0 (open_read (root s)) {| hp := []; arrs := [new_arr Fixed] |} 0 "x" = UB.
Proof. exact zero_rows. Qed.
Print Assumptions C11_zero_rows_refuted.

(** Rows of dynamic capacity 2 are accepted by an array of static capacity 3, and
    its elements are then wrong: the first element of row 1 was 6 and reads 0. *)
Theorem C11_capacity_not_checked_refuted : exists w a s h a' s' w' b,
  run 0 {| hp := []; arrs := [new_arr Max] |}
    [(0%nat, CResize2 2 2); (0%nat, CResizeRow 0 1); (0%nat, CResizeRow 1 1); (0%nat, CSet 0 0 5); (0%nat, CSet 1 0 6)] = Ok w /\
  nth_error (arrs w) 0 = Some a /\ at_ (hp w) a 1 0 = Ok 6 /\
  WriteSerializer Z 0 8 0 (fun _ => "t"%string) open_write (hp w) a "x" = Ok (s, h, a') /\
  ReadSerializer Z 8 0 (open_read (root s)) {| hp := []; arrs := [new_arr (StaticMax 3)] |} 0 "x" = Ok (s', w') /\
  nth_error (arrs w') 0 = Some b /\ at_ (hp w') b 1 0 = Ok 0.
Proof. exact capacity_differs. Qed.
Print Assumptions C11_capacity_not_checked_refuted.
