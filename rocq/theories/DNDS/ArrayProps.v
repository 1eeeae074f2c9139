(** C08, C09, C10: arrays are independent lists of rows. *)
From Coq Require Import List ZArith Bool.
From Verif Require Import Base.Prelude DNDS.ArrayModel DNDS.ArraySpec DNDS.ArrayProofs
  DNDS.ArrayCases.
Import ListNotations.
Local Open Scope Z_scope.

(** ** C08 *)

(** Any history of calls on variable-row arrays: reads give what the same calls
    leave on plain lists of rows, and a call fails exactly when the lists reject
    it.  [covered] excludes resizing an empty array that was compressed (see
    below) and rows of 2^31 elements or more. *)
Theorem C08_history : forall T (dflt : T) n cs,
  covered_history dflt (repeat (snew CSR) n) cs ->
  match run dflt {| hp := []; arrs := repeat (new_arr CSR) n |} cs with
  | Ok w => exists ss, history dflt (repeat (snew CSR) n) cs ss /\ world_looks_like w ss
  | Abort => rejected dflt (repeat (snew CSR) n) cs
  | UB => False
  end.
Proof. exact csr_history. Qed.
Print Assumptions C08_history.

(** Compressing and decompressing never change anything a reader returns, in any
    array, and never fail. *)
Theorem C08_compress_invisible : forall T (dflt : T) ls cs id c w o a,
  c = CCompress \/ c = CDecompress ->
  covered_history dflt (map snew ls) cs -> (id < length ls)%nat ->
  run dflt {| hp := []; arrs := map new_arr ls |} cs = Ok w ->
  nth_error (arrs w) o = Some a ->
  exists w' a', do_call dflt w id c = Ok w' /\ nth_error (arrs w') o = Some a' /\
    same_reads (hp w) a (hp w') a'.
Proof. exact compress_invisible. Qed.
Print Assumptions C08_compress_invisible.

(** The address of a row is where its elements are; compressed rows follow each
    other without gaps and lie inside the buffer. *)
Theorem C08_row_address : forall T (dflt : T) ls cs w id a i n,
  covered_history dflt (map snew ls) cs ->
  run dflt {| hp := []; arrs := map new_arr ls |} cs = Ok w ->
  nth_error (arrs w) id = Some a -> lay a = CSR ->
  0 <= i < size a -> RowSize (hp w) a i = Ok n ->
  exists p, row_ (hp w) a i = Ok p /\
  match p with
  | PData off =>
      0 <= off /\ off + n <= zlen (dat a) /\
      (forall j, 0 <= j < n -> at_ (hp w) a i j = vat (dat a) (off + j)) /\
      row_ (hp w) a (i + 1) = Ok (PData (off + n))
  | PRow i' => i' = i /\ exists r, vat (unc a) i = Ok r /\ zlen r = n /\
      (forall j, 0 <= j < n -> at_ (hp w) a i j = vat r j)
  | PNull => False
  end.
Proof. exact csr_storage. Qed.
Print Assumptions C08_row_address.

(** The excluded case: after compressing an empty array (as writing or exchanging
    it does), resizing it is accepted but its rows are unreadable. *)
Theorem C08_resize_after_empty_compress_refuted :
  exists w a, run 0 {| hp := []; arrs := [new_arr CSR] |} [(0%nat, CCompress); (0%nat, CResize 2)] = Ok w /\
    nth_error (arrs w) 0 = Some a /\ size a = 2 /\ RowSize (hp w) a 0 = Abort /\
    do_call 0 w 0 (CResizeRow 0 1) = Abort.
Proof. exact empty_compress_resize. Qed.
Print Assumptions C08_resize_after_empty_compress_refuted.

(** Building row by row, compressing, writing, decompressing and growing. *)
Example C08_example :
  let cs := [(0%nat, CResize 3); (0%nat, CResizeRow 2 2); (0%nat, CSet 2 1 7); (0%nat, CCompress);
             (0%nat, CSet 2 0 5); (0%nat, CDecompress); (0%nat, CResizeRow 0 1); (0%nat, CResize 4);
             (1%nat, CResizeF [1; 0; 2]%nat); (1%nat, CSet 2 1 9)] in
  covered_history 0 (repeat (snew CSR) 2) cs /\
  exists w a b, run 0 {| hp := []; arrs := repeat (new_arr CSR) 2 |} cs = Ok w /\
    arrs w = [a; b] /\ unc a = [[0]; []; [5; 7]; []] /\ dat b = [0; 0; 9] /\
    at_ (hp w) b 2 1 = Ok 9 /\ row_ (hp w) b 2 = Ok (PData 1).
Proof. exact c08_example. Qed.

(** ** C09 *)

(** Any history on arrays of the table layouts (also mixed with variable-row
    ones).  [covered] excludes resizing a max-layout table to a width below one of
    the row sizes it keeps. *)
Theorem C09_history : forall T (dflt : T) ls cs,
  covered_history dflt (map snew ls) cs ->
  match run dflt {| hp := []; arrs := map new_arr ls |} cs with
  | Ok w => exists ss, history dflt (map snew ls) cs ss /\ world_looks_like w ss
  | Abort => rejected dflt (map snew ls) cs
  | UB => False
  end.
Proof. exact arrays_refine. Qed.
Print Assumptions C09_history.

(** Element (i,j) is at offset i*stride+j, inside the buffer. *)
Theorem C09_offset : forall T (dflt : T) ls cs w id a i j,
  covered_history dflt (map snew ls) cs ->
  run dflt {| hp := []; arrs := map new_arr ls |} cs = Ok w ->
  nth_error (arrs w) id = Some a -> is_csr (lay a) = false ->
  forall n, 0 <= i < size a -> RowSize (hp w) a i = Ok n -> 0 <= j < n ->
  n <= stride a /\
  locate (hp w) a i j = Ok (InData (i * stride a + j)) /\ 0 <= i * stride a + j < zlen (dat a) /\
  row_ (hp w) a i = Ok (PData (i * stride a)).
Proof. exact table_storage. Qed.
Print Assumptions C09_offset.

(** Distinct elements are never stored at the same place. *)
Theorem C09_no_alias : forall T (dflt : T) ls cs w id a i j i' j' p,
  covered_history dflt (map snew ls) cs ->
  run dflt {| hp := []; arrs := map new_arr ls |} cs = Ok w ->
  nth_error (arrs w) id = Some a -> is_csr (lay a) = false ->
  locate (hp w) a i j = Ok p -> locate (hp w) a i' j' = Ok p -> i = i' /\ j = j'.
Proof. exact table_no_alias. Qed.
Print Assumptions C09_no_alias.

(** The excluded case: after narrowing a max-layout table, two elements share
    their storage. *)
Theorem C09_narrowing_aliases_refuted :
  exists w w' a a', run 0 {| hp := []; arrs := [new_arr Max] |}
      [(0%nat, CResize2 2 3); (0%nat, CResizeRow 0 3); (0%nat, CResizeRow 1 1); (0%nat, CResize2 2 1)] = Ok w /\
    do_call 0 w 0 (CSet 0 1 5) = Ok w' /\ arrs w = [a] /\ arrs w' = [a'] /\
    at_ (hp w) a 1 0 = Ok 0 /\ at_ (hp w') a' 1 0 = Ok 5.
Proof. exact narrowing_aliases. Qed.
Print Assumptions C09_narrowing_aliases_refuted.

(** The layout of an array is the one its template arguments declare. *)
Theorem C09_layout : forall rs rm l, GetDataLayout rs rm = Some l <-> declares rs rm l.
Proof. exact layout_choice. Qed.
Print Assumptions C09_layout.

Example C09_example :
  let ls := [Fixed; Max; StaticFixed 2; StaticMax 3] in
  let cs := [(0%nat, CResize2 2 2); (0%nat, CSet 1 0 4); (1%nat, CResize2 2 3); (1%nat, CResizeRow 1 2);
             (1%nat, CSet 1 1 6); (2%nat, CResize 2); (2%nat, CSet 0 1 8); (3%nat, CResize 2);
             (3%nat, CResizeRow 0 3); (3%nat, CSet 0 2 9); (0%nat, CResize2 4 1)] in
  covered_history 0 (map snew ls) cs /\
  exists w a b c d, run 0 {| hp := []; arrs := map new_arr ls |} cs = Ok w /\ arrs w = [a; b; c; d] /\
    dat a = [0; 0; 4; 0] /\ at_ (hp w) b 1 1 = Ok 6 /\ at_ (hp w) b 0 0 = Abort /\
    at_ (hp w) c 0 1 = Ok 8 /\ at_ (hp w) d 0 2 = Ok 9.
Proof. exact c09_example. Qed.

(** ** C10 *)

(** Whatever arrays were copied from each other before, a call on one changes
    nothing a reader of another one returns. *)
Theorem C10_isolation : forall T (dflt : T) ls cs id c w w' o a a',
  covered_history dflt (map snew ls) (cs ++ [(id, c)]) ->
  run dflt {| hp := []; arrs := map new_arr ls |} cs = Ok w ->
  do_call dflt w id c = Ok w' ->
  o <> id -> (forall q, c = CSwapWith q -> o <> q) ->
  nth_error (arrs w) o = Some a -> nth_error (arrs w') o = Some a' ->
  same_reads (hp w) a (hp w') a'.
Proof. exact isolation. Qed.
Print Assumptions C10_isolation.

(** A copy reads like the original; a swap exchanges what readers return. *)
Theorem C10_copy : forall T (dflt : T) ls cs id o w a b w',
  covered_history dflt (map snew ls) (cs ++ [(id, CCopyFrom o)]) ->
  run dflt {| hp := []; arrs := map new_arr ls |} cs = Ok w ->
  nth_error (arrs w) o = Some b -> do_call dflt w id (CCopyFrom o) = Ok w' ->
  nth_error (arrs w') id = Some a -> same_reads (hp w) b (hp w') a.
Proof. exact copy_reads. Qed.
Print Assumptions C10_copy.

Theorem C10_swap : forall T (dflt : T) ls cs id o w a b w' a' b',
  covered_history dflt (map snew ls) (cs ++ [(id, CSwapWith o)]) ->
  run dflt {| hp := []; arrs := map new_arr ls |} cs = Ok w ->
  nth_error (arrs w) id = Some a -> nth_error (arrs w) o = Some b ->
  do_call dflt w id (CSwapWith o) = Ok w' ->
  nth_error (arrs w') id = Some a' -> nth_error (arrs w') o = Some b' ->
  same_reads (hp w) b (hp w') a' /\ same_reads (hp w) a (hp w') b'.
Proof. exact swap_reads. Qed.
Print Assumptions C10_swap.

(** [covered] asks that swapped arrays have the same storage mode, width and row
    sizes.  Without equal row sizes, a swap of max-layout tables does not
    exchange them. *)
Theorem C10_swap_sizes_refuted :
  exists w w' a b a', run 0 {| hp := []; arrs := [new_arr Max; new_arr Max] |}
      [(0%nat, CResize2 1 2); (1%nat, CResize2 1 2); (1%nat, CResizeRow 0 2)] = Ok w /\
    arrs w = [a; b] /\ do_call 0 w 0 (CSwapWith 1) = Ok w' /\ nth_error (arrs w') 0 = Some a' /\
    RowSize (hp w) b 0 = Ok 2 /\ RowSize (hp w') a' 0 = Ok 0.
Proof. exact swap_sizes. Qed.
Print Assumptions C10_swap_sizes_refuted.

(** With different storage modes (and no elements) the swapped rows become
    unreadable. *)
Theorem C10_swap_mode_refuted :
  exists w w' b b', run 0 {| hp := []; arrs := [new_arr CSR; new_arr CSR] |}
      [(0%nat, CResize 1); (0%nat, CCompress); (1%nat, CResize 1)] = Ok w /\
    nth_error (arrs w) 1 = Some b /\ RowSize (hp w) b 0 = Ok 0 /\
    do_call 0 w 0 (CSwapWith 1) = Ok w' /\ nth_error (arrs w') 0 = Some b' /\
    RowSize (hp w') b' 0 = Abort.
Proof. exact swap_mode. Qed.
Print Assumptions C10_swap_mode_refuted.

(** Whether a max-layout resize keeps the row sizes depends on the existence of a
    copy: the array's own history does not determine what it reads. *)
Theorem C10_resize_depends_on_copies_refuted :
  exists w1 w2 a1 a2,
    let cs := [(0%nat, CResize2 1 2); (0%nat, CResizeRow 0 2)] in
    run 0 {| hp := []; arrs := [new_arr Max; new_arr Max] |} (cs ++ [(0%nat, CResize2 2 2)]) = Ok w1 /\
    run 0 {| hp := []; arrs := [new_arr Max; new_arr Max] |}
      (cs ++ [(1%nat, CCopyFrom 0); (0%nat, CResize2 2 2)]) = Ok w2 /\
    nth_error (arrs w1) 0 = Some a1 /\ nth_error (arrs w2) 0 = Some a2 /\
    RowSize (hp w1) a1 0 = Ok 2 /\ RowSize (hp w2) a2 0 = Ok 0.
Proof. exact resize_depends. Qed.
Print Assumptions C10_resize_depends_on_copies_refuted.

(** A copy with shared row sizes, then changes on both sides. *)
Example C10_example :
  let cs := [(0%nat, CResize2 2 2); (0%nat, CResizeRow 0 1); (1%nat, CCopyFrom 0);
             (1%nat, CResizeRow 0 2); (0%nat, CSet 0 0 3)] in
  covered_history 0 (map snew [Max; Max]) (cs ++ [(1%nat, CSet 0 1 4)]) /\
  exists w a b, run 0 {| hp := []; arrs := map new_arr [Max; Max] |} cs = Ok w /\ arrs w = [a; b] /\
    RowSize (hp w) a 0 = Ok 1 /\ RowSize (hp w) b 0 = Ok 2 /\ at_ (hp w) a 0 0 = Ok 3 /\
    at_ (hp w) b 0 0 = Ok 0 /\ pSizes a <> pSizes b.
Proof. exact c10_example. Qed.
