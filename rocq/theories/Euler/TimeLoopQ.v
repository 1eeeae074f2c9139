(** Facts about the comparisons and about one turn of the time loop. *)

From Coq Require Import List ZArith Bool QArith Lqa Lia Sorted.
From Verif Require Import Base.Prelude Base.PreludeFacts Euler.TimeLoopModel Euler.TimeLoopSpec.
Import ListNotations.
Local Open Scope Q_scope.

Lemma qlt_cases : forall a b, (qlt a b = true /\ a < b) \/ (qlt a b = false /\ b <= a).
Proof.
  intros a b. unfold qlt. destruct (Qle_bool b a) eqn:E; cbn.
  - right. split; [reflexivity | apply Qle_bool_iff; exact E].
  - left. split; [reflexivity|]. apply Qnot_le_lt. intro H. apply Qle_bool_iff in H. congruence.
Qed.

Lemma qle_cases : forall a b, (Qle_bool a b = true /\ a <= b) \/ (Qle_bool a b = false /\ b < a).
Proof.
  intros a b. destruct (Qle_bool a b) eqn:E.
  - left. split; [reflexivity | apply Qle_bool_iff; exact E].
  - right. split; [reflexivity|]. apply Qnot_le_lt. intro H. apply Qle_bool_iff in H. congruence.
Qed.

Lemma qmin_spec : forall a b, (qmin a b = a /\ a <= b) \/ (qmin a b = b /\ b < a).
Proof.
  intros a b. unfold qmin. destruct (qlt_cases b a) as [[E H]|[E H]]; rewrite E; auto.
Qed.

Lemma qmax_spec : forall a b, (qmax a b = a /\ b <= a) \/ (qmax a b = b /\ a < b).
Proof.
  intros a b. unfold qmax. destruct (qlt_cases a b) as [[E H]|[E H]]; rewrite E; auto.
Qed.

Lemma small_pos : 0 < smallReal.
Proof. reflexivity. Qed.
Lemma small_lt1 : smallReal < 1.
Proof. reflexivity. Qed.

Lemma wished_pos : forall c h e,
  0 < c_dt c -> 0 < c_scale c -> 0 < c_inc c -> 0 < e_cfl e ->
  (forall m, e_lim e = Some m -> 0 < m) -> Forall (fun d => 0 < d) h ->
  0 < wished c h e.
Proof.
  intros c h e Hdt Hs Hi He Hl Hh. unfold wished. cbv zeta.
  assert (A : 0 < qmin (e_cfl e * c_scale c) (c_dt c)).
  { assert (0 < e_cfl e * c_scale c) by nra.
    destruct (qmin_spec (e_cfl e * c_scale c) (c_dt c)) as [[-> _]|[-> _]]; assumption. }
  set (d := qmin (e_cfl e * c_scale c) (c_dt c)) in *. clearbody d.
  match goal with |- 0 < qmax ?x _ => assert (B : 0 < x); [| destruct (qmax_spec x (c_dtMin c)) as [[-> _]|[-> H]]; [exact B | lra]] end.
  destruct (c_ppLimit c); [|exact A].
  assert (D : 0 < match e_lim e with Some m => qmin d (m * d) | None => d end).
  { destruct (e_lim e) as [m|]; [|exact A]. specialize (Hl m eq_refl).
    assert (0 < m * d) by nra.
    destruct (qmin_spec d (m * d)) as [[-> _]|[-> _]]; assumption. }
  destruct h as [|a h]; [exact D|].
  assert (0 < a) by (inversion Hh; assumption).
  destruct (qlt_cases (a * c_inc c) (match e_lim e with Some m => qmin d (m * d) | None => d end)) as [[-> _]|[-> _]];
    [nra | exact D].
Qed.

(** The wish is no more than the one without the positivity limits. *)
Lemma wished_le : forall c h e, wished c h e <= wish c e.
Proof.
  intros c h e. unfold wished, wish. cbv zeta.
  set (d := qmin (e_cfl e * c_scale c) (c_dt c)). clearbody d.
  assert (M : forall a b m, a <= b -> qmax a m <= qmax b m).
  { intros a b m H. destruct (qmax_spec a m) as [[-> ?]|[-> ?]], (qmax_spec b m) as [[-> ?]|[-> ?]]; lra. }
  apply M. destruct (c_ppLimit c); [|apply Qle_refl].
  assert (D : match e_lim e with Some m => qmin d (m * d) | None => d end <= d).
  { destruct (e_lim e) as [m|]; [|apply Qle_refl].
    destruct (qmin_spec d (m * d)) as [[-> _]|[-> ?]]; lra. }
  destruct h as [|a h]; [exact D|].
  destruct (qlt_cases (a * c_inc c) (match e_lim e with Some m => qmin d (m * d) | None => d end)) as [[-> H]|[-> _]]; lra.
Qed.

Lemma wished_inc : forall c a h e, c_ppLimit c = true ->
  wished c (a :: h) e <= qmax (a * c_inc c) (c_dtMin c).
Proof.
  intros c a h e Hp. unfold wished. cbv zeta. rewrite Hp.
  set (d := match e_lim e with Some m => _ | None => _ end). clearbody d.
  assert (M : forall a b m, a <= b -> qmax a m <= qmax b m).
  { intros x y m H. destruct (qmax_spec x m) as [[-> ?]|[-> ?]], (qmax_spec y m) as [[-> ?]|[-> ?]]; lra. }
  apply M. destruct (qlt_cases (a * c_inc c) d) as [[-> H]|[-> H]]; lra.
Qed.

(** A wish kept away from zero. *)
Lemma wished_ge_min : forall c h e, c_dtMin c <= wished c h e.
Proof.
  intros c h e. unfold wished. cbv zeta.
  match goal with |- _ <= qmax ?x _ => destruct (qmax_spec x (c_dtMin c)) as [[-> ?]|[-> ?]] end; lra.
Qed.

Lemma wished_plain : forall c h e, c_ppLimit c = false -> wished c h e = wish c e.
Proof. intros c h e H. unfold wished, wish. rewrite H. reflexivity. Qed.

Lemma meet_spec : forall t next d b d',
  0 < d -> t < next -> meet t next d = (b, d') ->
  0 < d' /\ d' <= (1 + smallReal) * d
  /\ ((b = true /\ d' == next - t) \/ (b = false /\ d' = d /\ t + d < next)).
Proof.
  intros t next d b d' Hd Ht H. unfold meet in H. pose proof small_pos as Hs.
  destruct (qle_cases (next - d * smallReal) (t + d)) as [[E L]|[E L]]; rewrite E in H.
  - injection H as <- <-. unfold qmax.
    destruct (qlt_cases 0 (next - t)) as [[E2 L2]|[E2 L2]]; [rewrite E2|lra].
    split; [exact L2|]. split; [lra|]. left. split; [reflexivity | apply Qeq_refl].
  - injection H as <- <-. assert (0 < d * smallReal) by nra.
    split; [exact Hd|]. split; [nra|]. right. repeat split; lra.
Qed.

(** The positivity-preserving step only shortens. *)
Lemma ppstep_ok : forall c e old d count,
  0 < old -> 0 < d -> 0 < c_inc c ->
  (forall d, 0 < d -> 0 < e_vbdf e d /\ e_vbdf e d <= d) ->
  forall d' count', ppstep c e old d count = Ok (d', count') ->
  0 < d' /\ d' <= d /\ (c_pp c = false -> d' = d).
Proof.
  intros c e old d count Ho Hd Hi Hv d' count' H. unfold ppstep in H.
  destruct (c_pp c); cbn [negb] in H.
  - destruct (c_ode c =? 1)%Z; [discriminate|].
    destruct (c_ode c =? 102)%Z; [|discriminate]. cbv zeta in H.
    destruct (Hv d Hd) as [V1 V2].
    destruct (qlt_cases old (e_vbdf e d)) as [[E L]|[E L]]; rewrite E in H.
    + apply bind_Ok in H. destruct H as [k [_ H]].
      destruct (c_incAfter c <? k)%Z; injection H as <- <-.
      * assert (0 < old * c_inc c) by nra.
        destruct (qmin_spec (old * c_inc c) (e_vbdf e d)) as [[-> ?]|[-> ?]]; repeat split; try lra; discriminate.
      * repeat split; try lra; discriminate.
    + injection H as <- <-. repeat split; try lra; discriminate.
  - injection H as <- <-. repeat split; try lra; auto.
Qed.
