(** C19, C20: integer and sequence helpers of Defines.hpp. *)
From Coq Require Import List ZArith Bool Ascii.
From Verif Require Import Base.Prelude Base.PreludeFacts
  DNDS.DefinesModel DNDS.DefinesSpec DNDS.DefinesProofs.
Import ListNotations.
Local Open Scope Z_scope.

(** Checked addition on 64-bit integers: returns the exact sum when it fits,
    aborts exactly when it does not; never overflows internally. *)
Theorem C19_safe_add_int64 : forall v inc,
  int64_min <= v <= int64_max -> int64_min <= inc <= int64_max ->
  signedIntSafeAdd int64_min int64_max v inc =
  if (int64_min <=? v + inc) && (v + inc <=? int64_max) then Ok (v + inc) else Abort.
Proof. intros; apply safe_add_exact; unfold int64_min, int64_max in *; auto; now compute. Qed.
Print Assumptions C19_safe_add_int64.

(** The same on 32-bit integers. *)
Theorem C19_safe_add_int32 : forall v inc,
  int32_min <= v <= int32_max -> int32_min <= inc <= int32_max ->
  signedIntSafeAdd int32_min int32_max v inc =
  if (int32_min <=? v + inc) && (v + inc <=? int32_max) then Ok (v + inc) else Abort.
Proof. intros; apply safe_add_exact; unfold int32_min, int32_max in *; auto; now compute. Qed.
Print Assumptions C19_safe_add_int32.

Example C19_safe_add_example :
  signedIntSafeAdd int64_min int64_max int64_max 1 = Abort /\
  signedIntSafeAdd int64_min int64_max int64_max (-1) = Ok (int64_max - 1) /\
  signedIntSafeAdd int64_min int64_max int64_min (-1) = Abort /\
  signedIntSafeAdd int64_min int64_max int64_min int64_max = Ok (-1).
Proof. vm_compute. repeat split. Qed.

(** Row starts: the i-th start is the sum of the first i sizes, and the call
    aborts exactly when the total does not fit the start type. *)
Theorem C19_row_starts : forall sizes,
  Forall (fun s => 0 <= s <= int64_max) sizes ->
  AccumulateRowSize int64_min int64_max sizes =
  (if zsum sizes <=? int64_max
   then Ok (map (fun i => zsum (firstn i sizes)) (seq 0 (S (length sizes))))
   else Abort).
Proof. exact row_starts_exact. Qed.
Print Assumptions C19_row_starts.

Example C19_row_starts_example :
  AccumulateRowSize int64_min int64_max [2; 0; 3] = Ok [0; 2; 2; 5] /\
  AccumulateRowSize int32_min int32_max [int32_max; 1] = Abort.
Proof. vm_compute. repeat split. Qed.

(** [divide_ceil] is the ceiling of the quotient. *)
Theorem C19_divide_ceil : forall a b, 0 <= a -> 0 < b ->
  exists c, divide_ceil a b = Ok c /\ (c - 1) * b < a <= c * b.
Proof. exact divide_ceil_exact. Qed.
Print Assumptions C19_divide_ceil.

Example C19_divide_ceil_example : divide_ceil 23 11 = Ok 3 /\ divide_ceil 22 11 = Ok 2.
Proof. vm_compute. repeat split. Qed.

(** [divCeil] (Defines.hpp 311-314) is not the ceiling of the quotient: operator
    precedence makes it return 1 for every positive dividend. *)
Theorem C19_divCeil_refuted : exists l r, 0 <= l /\ 0 < r /\
  ~ exists c, divCeil l r = Ok c /\ (c - 1) * r < l <= c * r.
Proof. exact divCeil_wrong. Qed.
Print Assumptions C19_divCeil_refuted.

Theorem C19_divCeil_actual : forall l r, 0 <= l -> 0 < r ->
  divCeil l r = Ok (if l =? 0 then 0 else 1).
Proof. exact divCeil_value. Qed.
Print Assumptions C19_divCeil_actual.

(** [mod] is the non-negative remainder. *)
Theorem C19_mod : forall a b, 0 < b ->
  exists m q, cmod a b = Ok m /\ 0 <= m < b /\ a = q * b + m.
Proof. exact cmod_spec. Qed.
Print Assumptions C19_mod.

Example C19_mod_example : cmod (-1) 3 = Ok 2 /\ cmod (-3) 3 = Ok 0 /\ cmod 7 3 = Ok 1.
Proof. vm_compute. repeat split. Qed.

(** Narrowing keeps the value or aborts, and aborts only when it must. *)
Theorem C19_checked_narrowing : forall v,
  checkedIndexTo32 v = if in_int32 v then Ok v else Abort.
Proof. exact checkedIndexTo32_exact. Qed.
Print Assumptions C19_checked_narrowing.

(** A size converts to a signed type with its value, or the call aborts; it
    aborts exactly when the value is above the largest one of the type. *)
Theorem C19_size_to_signed : forall hi v,
  (v <= hi -> size_t_to_signed hi v = Ok v) /\
  (hi < v -> size_t_to_signed hi v = Abort).
Proof. exact size_t_to_signed_exact. Qed.
Print Assumptions C19_size_to_signed.

Example C19_size_to_signed_example :
  size_t_to_signed int32_max int32_max = Ok int32_max /\
  size_t_to_signed int32_max (int32_max + 1) = Abort.
Proof. vm_compute. repeat split. Qed.

Theorem C19_check_uniform : forall l v,
  checkUniformVector l = Some v <-> l <> [] /\ forall x, In x l -> x = v.
Proof. exact checkUniform_exact. Qed.
Print Assumptions C19_check_uniform.

(** Walking two strictly ascending sequences calls the visitor on exactly the
    matching position pairs in order, until it asks to stop; the return value
    tells whether it did. *)
Theorem C20_iterate_identical : forall S (F : S -> Z -> nat -> nat -> S * bool) l1 l2 s,
  sasc l1 -> sasc l2 -> iterateIdentical F l1 l2 s = visit F (matches l1 l2) s.
Proof. exact iterateIdentical_spec. Qed.
Print Assumptions C20_iterate_identical.

Theorem C20_matches_are_all_common : forall l1 l2 x i j,
  In (x, i, j) (matches l1 l2) <-> nth_error l1 i = Some x /\ nth_error l2 j = Some x.
Proof. exact matches_complete. Qed.
Print Assumptions C20_matches_are_all_common.

Example C20_example :
  iterateIdentical (fun s x i j => (s ++ [(x, i, j)], false)) [1; 3; 5; 9] [3; 4; 9] [] =
  (false, [(3, 1%nat, 0%nat); (9, 3%nat, 2%nat)]) /\ sasc [1; 3; 5; 9].
Proof.
  split; [vm_compute; reflexivity|].
  repeat (apply sasc_cons; split; [|simpl; intuition (subst; reflexivity)]). apply sasc_nil.
Qed.

(** Splitting and joining strings are inverse; suffix test. *)
Theorem C20_split_join : forall d p ps,
  Forall (fun q => ~ In d q) (p :: ps) -> splitSString (join d (p :: ps)) d = p :: ps.
Proof. exact split_join. Qed.
Print Assumptions C20_split_join.

Theorem C20_join_split : forall d s, join d (splitSString s d) = s /\
  Forall (fun q => ~ In d q) (splitSString s d).
Proof. exact join_split_full. Qed.
Print Assumptions C20_join_split.

Theorem C20_has_suffix : forall s t, sstringHasSuffix s t = true <-> exists p, s = p ++ t.
Proof. exact hasSuffix_exact. Qed.
Print Assumptions C20_has_suffix.
