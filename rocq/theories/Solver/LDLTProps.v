(** C23: block LDLT. *)
From Coq Require Import List ZArith.
From Verif Require Import Base.Prelude Base.PreludeFacts Solver.DirectModel Solver.DirectSpec Solver.DirectMore
  Solver.LUModel Solver.LUSpec Solver.LUExamples Solver.LDLTMul.
Import ListNotations.
Local Open Scope Z_scope.

(** With the complete factorization, solving gives the solution of A x = b and there is no other:
    any symmetric adjacency, any ordering, any symmetric block matrix, any right-hand side,
    whatever the result vector and the temporary pivots held before. *)
Theorem C23_complete_solves {T V} (O : ops T V) invert tr junk n adj o2n n2o iluCode s A M F :
  laws O -> transposes O tr -> inverts O invert -> (forall d, invert d <> UB) ->
  graph_ok n adj -> ordering_ok n o2n n2o -> iluCode < 0 -> symbolic n adj o2n n2o iluCode = Ok s ->
  stored_sym O tr s A M -> vanishes O s M ->
  ldlt_decompose T (tsub O) (tmul O) tr invert junk s {| ldu := A; isDecomposed := false |} = Ok F ->
  forall b y, zlen b = n -> zlen y = n ->
  exists x, ldlt_solve T V tr (act O) (vsub O) s F b y = Ok x /\ zlen x = n /\
    (forall i, 0 <= i < n -> product O n M x i = nth (Z.to_nat i) b (v0 O)) /\
    (forall z, zlen z = n -> (forall i, 0 <= i < n -> product O n M z i = nth (Z.to_nat i) b (v0 O)) -> z = x).
Proof. exact (sym_complete_solves O invert tr junk n adj o2n n2o iluCode s A M F). Qed.
Print Assumptions C23_complete_solves.
Example C23_ring : laws blocks /\ transposes blocks btr /\ inverts blocks binv /\ graph_ok 4 ring4 /\ ordering_ok 4 ring4_o2n ring4_n2o /\
  match symbolic 4 ring4 ring4_o2n ring4_n2o (-1) with
  | Ok s =>
      let b := [(1, 2); (3, 4); (5, 6); (7, 8)] in
      match ldlt_decompose blk (tsub blocks) (tmul blocks) btr binv (9, 9, 9, 9) s {| ldu := store_half s ring4_symmetric; isDecomposed := false |} with
      | Ok F => match ldlt_solve blk (Z * Z) btr (act blocks) (vsub blocks) s F b (repeat (9, 9) 4) with
                | Ok x => map (product blocks 4 ring4_symmetric x) (range 4) = b /\ x <> b
                | _ => False
                end
      | _ => False
      end
  | _ => False
  end.
Proof.
  split; [exact blocks_laws|]. split; [exact btr_transposes|]. split; [exact binv_inverts|].
  split; [apply graph_check; reflexivity|]. split; [apply ordering_check; reflexivity|].
  vm_compute. split; [reflexivity|discriminate].
Qed.

(** With any level of fill, it solves a system that differs from the given one only where the
    factorization has no entries. *)
Theorem C23_incomplete_solves {T V} (O : ops T V) invert tr junk n adj o2n n2o iluCode s A M F :
  laws O -> transposes O tr -> inverts O invert -> (forall d, invert d <> UB) ->
  graph_ok n adj -> ordering_ok n o2n n2o -> symbolic n adj o2n n2o iluCode = Ok s ->
  stored_sym O tr s A M ->
  ldlt_decompose T (tsub O) (tmul O) tr invert junk s {| ldu := A; isDecomposed := false |} = Ok F ->
  exists P : Z -> Z -> T,
    (forall i j, 0 <= i < n -> In j (i :: row (lowOld s) i ++ row (uppOld s) i) -> P i j = M i j) /\
    forall b y, zlen b = n -> zlen y = n ->
    exists x, ldlt_solve T V tr (act O) (vsub O) s F b y = Ok x /\ zlen x = n /\
      (forall i, 0 <= i < n -> product O n P x i = nth (Z.to_nat i) b (v0 O)) /\
      (forall z, zlen z = n -> (forall i, 0 <= i < n -> product O n P z i = nth (Z.to_nat i) b (v0 O)) -> z = x).
Proof. exact (sym_incomplete_solves O invert tr junk n adj o2n n2o iluCode s A M F). Qed.
Print Assumptions C23_incomplete_solves.

(** It reads and writes inside its storage only, and can fail only at a pivot. *)
Theorem C23_fails_only_at_pivots {T V} (O : ops T V) invert tr junk n adj o2n n2o iluCode s A M :
  laws O -> transposes O tr -> inverts O invert -> (forall d, invert d <> UB) ->
  graph_ok n adj -> ordering_ok n o2n n2o -> symbolic n adj o2n n2o iluCode = Ok s -> stored_sym O tr s A M ->
  match ldlt_decompose T (tsub O) (tmul O) tr invert junk s {| ldu := A; isDecomposed := false |} with
  | Ok F => isDecomposed F = true
  | Abort => exists d, invert d = Abort
  | UB => False
  end.
Proof. exact (sym_fails_only_at_pivots O invert tr junk n adj o2n n2o iluCode s A M). Qed.
Print Assumptions C23_fails_only_at_pivots.
Example C23_singular : match symbolic 4 ring4 ring4_o2n ring4_n2o (-1) with
  | Ok s => ldlt_decompose blk (tsub blocks) (tmul blocks) btr binv (0, 0, 0, 0) s {| ldu := store_half s (fun _ _ => t0 blocks); isDecomposed := false |} = Abort
  | _ => False
  end.
Proof. vm_compute. reflexivity. Qed.

(** The product, before the factorization *)
Theorem C23_product {T V} (O : ops T V) tr n adj o2n n2o iluCode s A M x y :
  laws O -> graph_ok n adj -> ordering_ok n o2n n2o -> symbolic n adj o2n n2o iluCode = Ok s ->
  stored_sym O tr s A M -> vanishes O s M -> zlen x = n -> zlen y = n ->
  exists y', ldlt_mul T V tr (act O) (vadd O) s {| ldu := A; isDecomposed := false |} x y = Ok y' /\ zlen y' = n /\
    forall i, 0 <= i < n -> nth (Z.to_nat i) y' (v0 O) = product O n M x i.
Proof. exact (sym_product_computed O tr n adj o2n n2o iluCode s A M x y). Qed.
Print Assumptions C23_product.
Example C23_ring_product : match symbolic 4 ring4 ring4_o2n ring4_n2o 0 with
  | Ok s => let x := [(1, 0); (0, 1); (2, 3); (-1, 1)] in
            ldlt_mul blk (Z * Z) btr (act blocks) (vadd blocks) s {| ldu := store_half s ring4_symmetric; isDecomposed := false |} x (repeat (9, 9) 4) =
            Ok (map (product blocks 4 ring4_symmetric x) (range 4))
  | _ => False
  end.
Proof. vm_compute. reflexivity. Qed.

(** Solving with a matrix that is not factorized, and multiplying with one that is, are
    refused. *)
Theorem C23_phase_checked {T V} (O : ops T V) tr s (F : mat T) b y :
  (isDecomposed F = false -> ldlt_solve T V tr (act O) (vsub O) s F b y = Abort) /\
  (isDecomposed F = true -> ldlt_mul T V tr (act O) (vadd O) s F b y = Abort).
Proof. exact (ldlt_phase O tr s F b y). Qed.
Print Assumptions C23_phase_checked.
