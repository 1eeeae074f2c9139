(** C22: block LU. *)
From Coq Require Import List ZArith.
From Verif Require Import Base.Prelude Base.PreludeFacts Solver.DirectModel Solver.DirectSpec Solver.DirectMore
  Solver.LUModel Solver.LUSpec Solver.LUExamples Solver.LUFinal.
Import ListNotations.
Local Open Scope Z_scope.

(** With the complete factorization, solving gives the solution of A x = b and there is no other:
    any symmetric adjacency, any ordering, blocks from any ring, any right-hand side, whatever
    the result vector held before. *)
Theorem C22_complete_solves {T V} (O : ops T V) invert n adj o2n n2o iluCode s A M F :
  laws O -> inverts O invert -> (forall d, invert d <> UB) ->
  graph_ok n adj -> ordering_ok n o2n n2o -> iluCode < 0 -> symbolic n adj o2n n2o iluCode = Ok s ->
  stored O s A M -> vanishes O s M ->
  lu_decompose T (tsub O) (tmul O) invert s {| ldu := A; isDecomposed := false |} = Ok F ->
  forall b y, zlen b = n -> zlen y = n ->
  exists x, lu_solve T V (act O) (vsub O) s F b y = Ok x /\ zlen x = n /\
    (forall i, 0 <= i < n -> product O n M x i = nth (Z.to_nat i) b (v0 O)) /\
    (forall z, zlen z = n -> (forall i, 0 <= i < n -> product O n M z i = nth (Z.to_nat i) b (v0 O)) -> z = x).
Proof. exact (complete_solves O invert n adj o2n n2o iluCode s A M F). Qed.
Print Assumptions C22_complete_solves.
Example C22_ring : laws blocks /\ inverts blocks binv /\ graph_ok 4 ring4 /\ ordering_ok 4 ring4_o2n ring4_n2o /\
  match symbolic 4 ring4 ring4_o2n ring4_n2o (-1) with
  | Ok s =>
      let b := [(1, 2); (3, 4); (5, 6); (7, 8)] in
      match lu_decompose blk (tsub blocks) (tmul blocks) binv s {| ldu := store s ring4_matrix; isDecomposed := false |} with
      | Ok F => match lu_solve blk (Z * Z) (act blocks) (vsub blocks) s F b (repeat (9, 9) 4) with
                | Ok x => map (product blocks 4 ring4_matrix x) (range 4) = b /\ x <> b
                | _ => False
                end
      | _ => False
      end
  | _ => False
  end.
Proof.
  split; [exact blocks_laws|]. split; [exact binv_inverts|]. split; [apply graph_check; reflexivity|]. split; [apply ordering_check; reflexivity|].
  vm_compute. split; [reflexivity|discriminate].
Qed.

(** With any level of fill, it solves a system that differs from the given one only where the
    factorization has no entries, and that does not depend on the right-hand side. *)
Theorem C22_incomplete_solves {T V} (O : ops T V) invert n adj o2n n2o iluCode s A M F :
  laws O -> inverts O invert -> (forall d, invert d <> UB) ->
  graph_ok n adj -> ordering_ok n o2n n2o -> symbolic n adj o2n n2o iluCode = Ok s ->
  stored O s A M ->
  lu_decompose T (tsub O) (tmul O) invert s {| ldu := A; isDecomposed := false |} = Ok F ->
  exists P : Z -> Z -> T,
    (forall i j, 0 <= i < n -> In j (i :: row (lowOld s) i ++ row (uppOld s) i) -> P i j = M i j) /\
    forall b y, zlen b = n -> zlen y = n ->
    exists x, lu_solve T V (act O) (vsub O) s F b y = Ok x /\ zlen x = n /\
      (forall i, 0 <= i < n -> product O n P x i = nth (Z.to_nat i) b (v0 O)) /\
      (forall z, zlen z = n -> (forall i, 0 <= i < n -> product O n P z i = nth (Z.to_nat i) b (v0 O)) -> z = x).
Proof. exact (incomplete_solves O invert n adj o2n n2o iluCode s A M F). Qed.
Print Assumptions C22_incomplete_solves.
Example C22_ring0 : let M i j : blk := if i =? j then (1, 0, 0, 1) else if j =? 2 then (0, 0, 1, 0) else if i =? 2 then (1, 0, 0, 0) else (0, 0, 0, 0) in
  let b := [(1, 2); (3, 4); (5, 6); (7, 8)] in
  match symbolic 4 ring4 ring4_o2n ring4_n2o 0 with
  | Ok s => match lu_decompose blk (tsub blocks) (tmul blocks) binv s {| ldu := store s M; isDecomposed := false |} with
            | Ok F => match lu_solve blk (Z * Z) (act blocks) (vsub blocks) s F b (repeat (9, 9) 4) with
                      | Ok x => map (product blocks 4 M x) (range 4) <> b
                      | _ => False
                      end
            | _ => False
            end
  | _ => False
  end.
Proof. vm_compute. discriminate. Qed.

(** The factorization reads and writes inside its storage only; it can fail only where a pivot
    cannot be inverted. *)
Theorem C22_fails_only_at_pivots {T V} (O : ops T V) invert n adj o2n n2o iluCode s A M :
  laws O -> (forall d, invert d <> UB) ->
  graph_ok n adj -> ordering_ok n o2n n2o -> symbolic n adj o2n n2o iluCode = Ok s -> stored O s A M ->
  match lu_decompose T (tsub O) (tmul O) invert s {| ldu := A; isDecomposed := false |} with
  | Ok F => isDecomposed F = true
  | Abort => exists d, invert d = Abort
  | UB => False
  end.
Proof. exact (fails_only_at_pivots O invert n adj o2n n2o iluCode s A M). Qed.
Print Assumptions C22_fails_only_at_pivots.
Example C22_singular : match symbolic 4 ring4 ring4_o2n ring4_n2o (-1) with
  | Ok s => lu_decompose blk (tsub blocks) (tmul blocks) binv s {| ldu := store s (fun _ _ => t0 blocks); isDecomposed := false |} = Abort
  | _ => False
  end.
Proof. vm_compute. reflexivity. Qed.

(** The product, before the factorization *)
Theorem C22_product {T V} (O : ops T V) n adj o2n n2o iluCode s A M x y :
  laws O -> graph_ok n adj -> ordering_ok n o2n n2o -> symbolic n adj o2n n2o iluCode = Ok s ->
  stored O s A M -> vanishes O s M -> zlen x = n -> zlen y = n ->
  exists y', lu_mul T V (act O) (vadd O) s {| ldu := A; isDecomposed := false |} x y = Ok y' /\ zlen y' = n /\
    forall i, 0 <= i < n -> nth (Z.to_nat i) y' (v0 O) = product O n M x i.
Proof. exact (product_computed O n adj o2n n2o iluCode s A M x y). Qed.
Print Assumptions C22_product.
Example C22_ring_product : match symbolic 4 ring4 ring4_o2n ring4_n2o 0 with
  | Ok s => lu_mul blk (Z * Z) (act blocks) (vadd blocks) s {| ldu := store s ring4_matrix; isDecomposed := false |} [(1, 0); (0, 1); (2, 3); (-1, 1)] (repeat (9, 9) 4) =
            Ok [(2, -1); (-1, 0); (7, 2); (-4, -1)]
  | _ => False
  end.
Proof. vm_compute. reflexivity. Qed.

(** Solving with a matrix that is not factorized, and multiplying with one that is, are
    refused. *)
Theorem C22_phase_checked {T V} (O : ops T V) s (F : mat T) b y :
  (isDecomposed F = false -> lu_solve T V (act O) (vsub O) s F b y = Abort) /\
  (isDecomposed F = true -> lu_mul T V (act O) (vadd O) s F b y = Abort).
Proof. exact (lu_phase O s F b y). Qed.
Print Assumptions C22_phase_checked.
