(** The weighted norms do not depend on the direction of the axes. *)
From Coq Require Import Reals List Lra Lia Psatz.
From Verif Require Import Base.Prelude.
From Verif Require Import CFV.LimiterModel CFV.LimiterSpec.
Import ListNotations.
Open Scope R_scope.

Lemma rotate2 : forall c s u v w, c * c + s * s = 1 -> length v = length u ->
  norm_weights 2 (length u) = Ok w ->
  (forall x y, hpoly2 v x y = hpoly2 u (c * x - s * y) (s * x + c * y)) ->
  wsq w v = wsq w u.
Proof.
  intros c s u v w Hc L W H.
  destruct u as [|a [|b [|d [|e [|? ?]]]]]; try discriminate W;
    injection W as <-; cbn in L.
  - destruct v as [|a' [|b' [|? ?]]]; try discriminate L. cbn in H |- *.
    pose proof (H 1 0) as H1. pose proof (H 0 1) as H2.
    assert (A : a' = a * c + b * s) by lra. assert (B : b' = b * c - a * s) by lra.
    rewrite A, B.
    transitivity ((a * a + b * b) * (c * c + s * s)); [ring|]. rewrite Hc. ring.
  - destruct v as [|a' [|b' [|d' [|? ?]]]]; try discriminate L. cbn in H |- *.
    pose proof (H 1 0) as H1. pose proof (H 0 1) as H2. pose proof (H 1 1) as H3.
    assert (A : a' = a * c * c + b * c * s + d * s * s) by lra.
    assert (D : d' = a * s * s - b * s * c + d * c * c) by lra.
    assert (B : b' = - 2 * a * c * s + b * (c * c - s * s) + 2 * d * c * s) by nra.
    rewrite A, B, D.
    transitivity ((a * a + b * b * (1 / 2) + d * d) * ((c * c + s * s) * (c * c + s * s))); [field|].
    rewrite Hc. field.
  - destruct v as [|a' [|b' [|d' [|e' [|? ?]]]]]; try discriminate L. cbn in H |- *.
    pose proof (H 1 0) as H1. pose proof (H 0 1) as H2.
    pose proof (H 1 1) as H3. pose proof (H 1 (-1)) as H4.
    assert (A : a' = a * c * c * c + b * c * c * s + d * c * s * s + e * s * s * s) by lra.
    assert (E : e' = - a * s * s * s + b * s * s * c - d * s * c * c + e * c * c * c) by lra.
    assert (B : b' = - 3 * a * c * c * s + b * (c * c * c - 2 * c * s * s)
                     + d * (2 * c * c * s - s * s * s) + 3 * e * s * s * c).
    { transitivity (((a' + b' + d' + e') - (a' - b' + d' - e')) / 2 - e'); [field|].
      transitivity (((a' * 1 * 1 * 1 + b' * 1 * 1 * 1 + d' * 1 * 1 * 1 + e' * 1 * 1 * 1)
        - (a' * 1 * 1 * 1 + b' * 1 * 1 * -1 + d' * 1 * -1 * -1 + e' * -1 * -1 * -1)) / 2 - e'); [field|].
      rewrite H3, H4, E. field. }
    assert (D : d' = 3 * a * c * s * s + b * (s * s * s - 2 * c * c * s)
                     + d * (c * c * c - 2 * c * s * s) + 3 * e * c * c * s).
    { transitivity (((a' + b' + d' + e') + (a' - b' + d' - e')) / 2 - a'); [field|].
      transitivity (((a' * 1 * 1 * 1 + b' * 1 * 1 * 1 + d' * 1 * 1 * 1 + e' * 1 * 1 * 1)
        + (a' * 1 * 1 * 1 + b' * 1 * 1 * -1 + d' * 1 * -1 * -1 + e' * -1 * -1 * -1)) / 2 - a'); [field|].
      rewrite H3, H4, A. field. }
    rewrite A, B, D, E.
    transitivity ((a * a + b * b * (1 / 3) + d * d * (1 / 3) + e * e)
      * ((c * c + s * s) * (c * c + s * s) * (c * c + s * s))); [field|].
    rewrite Hc. field.
Qed.

(** ** Three dimensions, through the full tensors *)
Definition s3 (f : nat -> R) : R := f 0%nat + f 1%nat + f 2%nat.

Lemma s3_ext : forall f g, (forall i, (i < 3)%nat -> f i = g i) -> s3 f = s3 g.
Proof. intros f g H. unfold s3. rewrite !H by lia. reflexivity. Qed.

Section Ortho.
  Variable q : nat -> nat -> R.
  Hypothesis Hq : orthonormal q.

  Lemma rot_vec : forall v,
    s3 (fun a => s3 (fun i => q i a * v i) * s3 (fun i => q i a * v i)) = s3 (fun i => v i * v i).
  Proof.
    intros v.
    pose proof (Hq 0%nat 0%nat ltac:(lia) ltac:(lia)) as H00. pose proof (Hq 0%nat 1%nat ltac:(lia) ltac:(lia)) as H01.
    pose proof (Hq 0%nat 2%nat ltac:(lia) ltac:(lia)) as H02. pose proof (Hq 1%nat 1%nat ltac:(lia) ltac:(lia)) as H11.
    pose proof (Hq 1%nat 2%nat ltac:(lia) ltac:(lia)) as H12. pose proof (Hq 2%nat 2%nat ltac:(lia) ltac:(lia)) as H22.
    cbn [Nat.eqb] in *. unfold s3.
    transitivity (
      (q 0%nat 0%nat * q 0%nat 0%nat + q 0%nat 1%nat * q 0%nat 1%nat + q 0%nat 2%nat * q 0%nat 2%nat) * (v 0%nat * v 0%nat)
      + (q 1%nat 0%nat * q 1%nat 0%nat + q 1%nat 1%nat * q 1%nat 1%nat + q 1%nat 2%nat * q 1%nat 2%nat) * (v 1%nat * v 1%nat)
      + (q 2%nat 0%nat * q 2%nat 0%nat + q 2%nat 1%nat * q 2%nat 1%nat + q 2%nat 2%nat * q 2%nat 2%nat) * (v 2%nat * v 2%nat)
      + 2 * (q 0%nat 0%nat * q 1%nat 0%nat + q 0%nat 1%nat * q 1%nat 1%nat + q 0%nat 2%nat * q 1%nat 2%nat) * (v 0%nat * v 1%nat)
      + 2 * (q 0%nat 0%nat * q 2%nat 0%nat + q 0%nat 1%nat * q 2%nat 1%nat + q 0%nat 2%nat * q 2%nat 2%nat) * (v 0%nat * v 2%nat)
      + 2 * (q 1%nat 0%nat * q 2%nat 0%nat + q 1%nat 1%nat * q 2%nat 1%nat + q 1%nat 2%nat * q 2%nat 2%nat) * (v 1%nat * v 2%nat)); [ring|].
    rewrite H00, H01, H02, H11, H12, H22. ring.
  Qed.

  Definition rot2 (T : nat -> nat -> R) (a b : nat) : R :=
    s3 (fun j => q j b * s3 (fun i => q i a * T i j)).
  Definition rot3 (T : nat -> nat -> nat -> R) (a b c : nat) : R :=
    s3 (fun k => q k c * s3 (fun j => q j b * s3 (fun i => q i a * T i j k))).

  Lemma s3_swap : forall f, s3 (fun a => s3 (fun b => f a b)) = s3 (fun b => s3 (fun a => f a b)).
  Proof. intros. unfold s3. ring. Qed.

  Lemma rot2_norm : forall T,
    s3 (fun a => s3 (fun b => rot2 T a b * rot2 T a b)) = s3 (fun i => s3 (fun j => T i j * T i j)).
  Proof.
    intros T. transitivity (s3 (fun a => s3 (fun j => s3 (fun i => q i a * T i j) * s3 (fun i => q i a * T i j)))).
    - apply s3_ext. intros a _. unfold rot2. apply (rot_vec (fun j => s3 (fun i => q i a * T i j))).
    - rewrite s3_swap. rewrite (s3_swap (fun i j => T i j * T i j)).
      apply s3_ext. intros j _. apply (rot_vec (fun i => T i j)).
  Qed.

  Lemma rot3_norm : forall T,
    s3 (fun a => s3 (fun b => s3 (fun c => rot3 T a b c * rot3 T a b c)))
    = s3 (fun i => s3 (fun j => s3 (fun k => T i j k * T i j k))).
  Proof.
    intros T.
    transitivity (s3 (fun a => s3 (fun b => s3 (fun k =>
      rot2 (fun i j => T i j k) a b * rot2 (fun i j => T i j k) a b)))).
    - apply s3_ext. intros a _. apply s3_ext. intros b _. unfold rot3.
      apply (rot_vec (fun k => rot2 (fun i j => T i j k) a b)).
    - transitivity (s3 (fun k => s3 (fun a => s3 (fun b =>
        rot2 (fun i j => T i j k) a b * rot2 (fun i j => T i j k) a b)))); [unfold s3; ring|].
      transitivity (s3 (fun k => s3 (fun i => s3 (fun j => T i j k * T i j k)))); [|unfold s3; ring].
      apply s3_ext. intros k _. apply rot2_norm.
  Qed.
End Ortho.

(** The symmetric tensor of a quadratic and of a cubic form. *)
Definition ten2 (a b c d e f : R) (i j : nat) : R :=
  match i, j with
  | 0%nat, 0%nat => a | 1%nat, 1%nat => b | 2%nat, 2%nat => c
  | 0%nat, 1%nat | 1%nat, 0%nat => d / 2
  | 1%nat, 2%nat | 2%nat, 1%nat => e / 2
  | _, _ => f / 2
  end.

Definition ten3 (a b c d e f g h i j : R) (x y z : nat) : R :=
  match x, y, z with
  | 0%nat, 0%nat, 0%nat => a | 1%nat, 1%nat, 1%nat => b | 2%nat, 2%nat, 2%nat => c
  | 0%nat, 0%nat, 1%nat | 0%nat, 1%nat, 0%nat | 1%nat, 0%nat, 0%nat => d / 3
  | 0%nat, 1%nat, 1%nat | 1%nat, 0%nat, 1%nat | 1%nat, 1%nat, 0%nat => e / 3
  | 1%nat, 1%nat, 2%nat | 1%nat, 2%nat, 1%nat | 2%nat, 1%nat, 1%nat => f / 3
  | 1%nat, 2%nat, 2%nat | 2%nat, 1%nat, 2%nat | 2%nat, 2%nat, 1%nat => g / 3
  | 0%nat, 2%nat, 2%nat | 2%nat, 0%nat, 2%nat | 2%nat, 2%nat, 0%nat => h / 3
  | 0%nat, 0%nat, 2%nat | 0%nat, 2%nat, 0%nat | 2%nat, 0%nat, 0%nat => i / 3
  | _, _, _ => j / 6
  end.

Lemma quad_zero : forall a b c d e f,
  (forall x y z, hpoly3 [a; b; c; d; e; f] x y z = 0) ->
  a = 0 /\ b = 0 /\ c = 0 /\ d = 0 /\ e = 0 /\ f = 0.
Proof.
  intros a b c d e f H. cbn in H.
  pose proof (H 1 0 0). pose proof (H 0 1 0). pose proof (H 0 0 1).
  pose proof (H 1 1 0). pose proof (H 0 1 1). pose proof (H 1 0 1).
  repeat split; lra.
Qed.

Lemma cubic_zero : forall a b c d e f g h i j,
  (forall x y z, hpoly3 [a; b; c; d; e; f; g; h; i; j] x y z = 0) ->
  a = 0 /\ b = 0 /\ c = 0 /\ d = 0 /\ e = 0 /\ f = 0 /\ g = 0 /\ h = 0 /\ i = 0 /\ j = 0.
Proof.
  intros a b c d e f g h i j H. cbn in H.
  pose proof (H 1 0 0). pose proof (H 0 1 0). pose proof (H 0 0 1).
  pose proof (H 1 1 0). pose proof (H 0 1 1). pose proof (H 1 0 1).
  pose proof (H 1 (-1) 0). pose proof (H 0 1 (-1)). pose proof (H 1 0 (-1)).
  pose proof (H 1 1 1).
  repeat split; lra.
Qed.

Definition app3 (q : nat -> nat -> R) (i : nat) (x y z : R) : R :=
  q i 0%nat * x + q i 1%nat * y + q i 2%nat * z.

Lemma rotate3 : forall q u v w, orthonormal q -> length v = length u ->
  norm_weights 3 (length u) = Ok w ->
  (forall x y z, hpoly3 v x y z =
     hpoly3 u (app3 q 0%nat x y z) (app3 q 1%nat x y z) (app3 q 2%nat x y z)) ->
  wsq w v = wsq w u.
Proof.
  intros q u v w Hq L W H.
  destruct u as [|a [|b [|c [|d [|e [|f [|g [|h [|i [|j [|? ?]]]]]]]]]]]; try discriminate W;
    injection W as <-; cbn in L.
  - destruct v as [|a' [|b' [|c' [|? ?]]]]; try discriminate L.
    pose proof (H 1 0 0) as H1. pose proof (H 0 1 0) as H2. pose proof (H 0 0 1) as H3.
    unfold app3 in *. cbn [hpoly3] in *.
    pose proof (rot_vec q Hq (fun i => match i with 0%nat => a | 1%nat => b | _ => c end)) as N.
    unfold s3 in N. cbn [wsq].
    replace a' with (q 0%nat 0%nat * a + q 1%nat 0%nat * b + q 2%nat 0%nat * c) by lra.
    replace b' with (q 0%nat 1%nat * a + q 1%nat 1%nat * b + q 2%nat 1%nat * c) by lra.
    replace c' with (q 0%nat 2%nat * a + q 1%nat 2%nat * b + q 2%nat 2%nat * c) by lra.
    lra.
  - destruct v as [|a' [|b' [|c' [|d' [|e' [|f' [|? ?]]]]]]]; try discriminate L.
    pose (T := rot2 q (ten2 a b c d e f)).
    assert (Z : forall x y z, hpoly3 [a' - T 0%nat 0%nat; b' - T 1%nat 1%nat; c' - T 2%nat 2%nat;
        d' - 2 * T 0%nat 1%nat; e' - 2 * T 1%nat 2%nat; f' - 2 * T 0%nat 2%nat] x y z = 0).
    { intros x y z. specialize (H x y z). cbn [hpoly3] in *.
      apply Rminus_diag_eq in H. etransitivity; [|exact H].
      unfold T, rot2, s3, ten2, app3. field. }
    destruct (quad_zero _ _ _ _ _ _ Z) as (Ea & Eb & Ec & Ed & Ee & Ef).
    pose proof (rot2_norm q Hq (ten2 a b c d e f)) as N. fold T in N.
    assert (S01 : T 1%nat 0%nat = T 0%nat 1%nat) by (unfold T, rot2, s3, ten2; ring).
    assert (S12 : T 2%nat 1%nat = T 1%nat 2%nat) by (unfold T, rot2, s3, ten2; ring).
    assert (S02 : T 2%nat 0%nat = T 0%nat 2%nat) by (unfold T, rot2, s3, ten2; ring).
    unfold s3 in N. rewrite S01, S12, S02 in N. clearbody T. cbn [ten2] in N. cbn [wsq].
    apply Rminus_diag_uniq in Ea, Eb, Ec, Ed, Ee, Ef. rewrite Ea, Eb, Ec, Ed, Ee, Ef.
    transitivity ((T 0%nat 0%nat * T 0%nat 0%nat + T 0%nat 1%nat * T 0%nat 1%nat + T 0%nat 2%nat * T 0%nat 2%nat +
     (T 0%nat 1%nat * T 0%nat 1%nat + T 1%nat 1%nat * T 1%nat 1%nat + T 1%nat 2%nat * T 1%nat 2%nat) +
     (T 0%nat 2%nat * T 0%nat 2%nat + T 1%nat 2%nat * T 1%nat 2%nat + T 2%nat 2%nat * T 2%nat 2%nat))); [field|].
    rewrite N. field.
  - destruct v as [|a' [|b' [|c' [|d' [|e' [|f' [|g' [|h' [|i' [|j' [|? ?]]]]]]]]]]]; try discriminate L.
    pose (T := rot3 q (ten3 a b c d e f g h i j)).
    assert (Z : forall x y z, hpoly3 [a' - T 0%nat 0%nat 0%nat; b' - T 1%nat 1%nat 1%nat; c' - T 2%nat 2%nat 2%nat;
        d' - 3 * T 0%nat 0%nat 1%nat; e' - 3 * T 0%nat 1%nat 1%nat; f' - 3 * T 1%nat 1%nat 2%nat; g' - 3 * T 1%nat 2%nat 2%nat;
        h' - 3 * T 0%nat 2%nat 2%nat; i' - 3 * T 0%nat 0%nat 2%nat; j' - 6 * T 0%nat 1%nat 2%nat] x y z = 0).
    { intros x y z. specialize (H x y z). cbn [hpoly3] in *.
      apply Rminus_diag_eq in H. etransitivity; [|exact H].
      unfold T, rot3, s3, ten3, app3. field. }
    destruct (cubic_zero _ _ _ _ _ _ _ _ _ _ Z) as (Ea & Eb & Ec & Ed & Ee & Ef & Eg & Eh & Ei & Ej).
    pose proof (rot3_norm q Hq (ten3 a b c d e f g h i j)) as N. fold T in N.
    assert (S1 : T 0%nat 1%nat 0%nat = T 0%nat 0%nat 1%nat /\ T 1%nat 0%nat 0%nat = T 0%nat 0%nat 1%nat) by (unfold T, rot3, s3, ten3; split; ring).
    assert (S2 : T 1%nat 0%nat 1%nat = T 0%nat 1%nat 1%nat /\ T 1%nat 1%nat 0%nat = T 0%nat 1%nat 1%nat) by (unfold T, rot3, s3, ten3; split; ring).
    assert (S3 : T 1%nat 2%nat 1%nat = T 1%nat 1%nat 2%nat /\ T 2%nat 1%nat 1%nat = T 1%nat 1%nat 2%nat) by (unfold T, rot3, s3, ten3; split; ring).
    assert (S4 : T 2%nat 1%nat 2%nat = T 1%nat 2%nat 2%nat /\ T 2%nat 2%nat 1%nat = T 1%nat 2%nat 2%nat) by (unfold T, rot3, s3, ten3; split; ring).
    assert (S5 : T 2%nat 0%nat 2%nat = T 0%nat 2%nat 2%nat /\ T 2%nat 2%nat 0%nat = T 0%nat 2%nat 2%nat) by (unfold T, rot3, s3, ten3; split; ring).
    assert (S6 : T 0%nat 2%nat 0%nat = T 0%nat 0%nat 2%nat /\ T 2%nat 0%nat 0%nat = T 0%nat 0%nat 2%nat) by (unfold T, rot3, s3, ten3; split; ring).
    assert (S7 : T 0%nat 2%nat 1%nat = T 0%nat 1%nat 2%nat /\ T 1%nat 0%nat 2%nat = T 0%nat 1%nat 2%nat /\ T 1%nat 2%nat 0%nat = T 0%nat 1%nat 2%nat
      /\ T 2%nat 0%nat 1%nat = T 0%nat 1%nat 2%nat /\ T 2%nat 1%nat 0%nat = T 0%nat 1%nat 2%nat) by (unfold T, rot3, s3, ten3; repeat split; ring).
    destruct S1 as [S1 S1']. destruct S2 as [S2 S2']. destruct S3 as [S3 S3']. destruct S4 as [S4 S4'].
    destruct S5 as [S5 S5']. destruct S6 as [S6 S6']. destruct S7 as (S7 & S8 & S9 & S10 & S11).
    clearbody T. unfold s3 in N. 
    rewrite S1, S1', S2, S2', S3, S3', S4, S4', S5, S5', S6, S6', S7, S8, S9, S10, S11 in N. cbn [ten3] in N. cbn [wsq].
    apply Rminus_diag_uniq in Ea, Eb, Ec, Ed, Ee, Ef, Eg, Eh, Ei, Ej.
    rewrite Ea, Eb, Ec, Ed, Ee, Ef, Eg, Eh, Ei, Ej.
    match type of N with ?l = ?r => transitivity l; [field|rewrite N; field] end.
Qed.
