(** Proofs about the radial equilibrium and the distribution of nodes. *)
From Coq Require Import Reals List Arith ZArith Bool Lia Lra Psatz FunctionalExtensionality.
From Verif Require Import Base.Prelude Base.PreludeFacts Euler.GasModel Euler.RiemannModel Euler.DriverModel Euler.DriverProofs Solver.ScalarModel Solver.ScalarProofs
  Euler.RecorderModel Euler.RecorderSpec Euler.RecorderProofs Euler.RecorderMore.
Import ListNotations.
Local Open Scope R_scope.

Definition averaged (b : bin) : bin := {| b_v := fun c => b_v b c / (b_div b + verySmallReal); b_div := 1 |}.
Lemma normalise_eq : forall p, (forall b, In b (p_bins p) -> 0 <= b_div b) ->
  normalise p = Ok {| p_nodes := p_nodes p; p_bins := map averaged (p_bins p) |}.
Proof.
  intros [n bs] H. unfold normalise. cbn [p_nodes p_bins] in *.
  replace (mapM _ bs) with (Ok (map averaged bs)); [ reflexivity | ]. pose proof vs_pos. induction bs as [|b bs IH]; cbn [mapM map]; [ reflexivity | ].
  unfold rdiv. destruct (Req_EM_T (b_div b + verySmallReal) 0) as [E | E]; [ specialize (H b (or_introl eq_refl)); lra | ]. cbn [bind].
  unfold rdiv in IH. rewrite <- IH by (intros; apply H; right; assumption). reflexivity.
Qed.

Section Radial.
Variables (E : nat) (p : profile).
Hypothesis HE : (E <> 0 /\ E <> 2)%nat.
Hypothesis W : well_formed p.
Hypothesis INC : increasing (p_nodes p).
Hypothesis POS : forall i, (1 <= i < p_size p)%nat -> 0 < node p i.
Hypothesis RHO : forall i, (i < p_size p)%nat -> avg p i 0 <> 0.

Definition state_at (k : nat) (q : profile) : Prop :=
  p_nodes q = p_nodes p /\ List.length (p_bins q) = p_size p /\
  (forall i, (i < p_size p)%nat -> b_div (bin_of q i) = 1 /\ forall c, c <> E -> b_v (bin_of q i) c = avg p i c) /\
  forall i, (i < k)%nat -> (i < p_size p)%nat -> b_v (bin_of q i) E = equilibrium p i.

Lemma step_at : forall k q, (1 <= k)%nat -> (k < p_size p)%nat -> state_at k q -> exists q', set_pressure E q k = Ok q' /\ state_at (S k) q'.
Proof.
  intros k q K1 K2 (N & L & A & P). destruct W as (W1 & W2 & W3). unfold set_pressure, rise. rewrite N.
  rewrite !(vget_nth _ (p_bins q) _ bin0) by lia. rewrite !(vget_nth _ (p_nodes p) _ 0) by (unfold p_size in *; lia). cbn [bind].
  fold (bin_of q (k - 1)) (bin_of q k).
  destruct (A (k - 1)%nat) as (_ & A0); [ lia | ]. destruct (A k) as (_ & A1); [ lia | ].
  rewrite !A0, !A1 by lia.
  assert (R0 : avg p (k - 1) 0 <> 0) by (apply RHO; lia). assert (R1 : avg p k 0 <> 0) by (apply RHO; lia).
  assert (I0 : nth (k - 1) (p_nodes p) 0 < nth k (p_nodes p) 0) by (apply INC; unfold p_size in *; lia).
  assert (I1 : nth k (p_nodes p) 0 < nth (k + 1) (p_nodes p) 0) by (apply INC; unfold p_size in *; lia).
  assert (IP : 0 < nth k (p_nodes p) 0) by (apply POS; lia).
  unfold rdiv. destruct (Req_EM_T (avg p (k - 1) 0) 0); [ contradiction | ]. destruct (Req_EM_T (avg p k 0) 0); [ contradiction | ]. cbn [bind].
  destruct (Req_EM_T (nth k (p_nodes p) 0 - nth (k - 1) (p_nodes p) 0 + (nth (k + 1) (p_nodes p) 0 - nth k (p_nodes p) 0)) 0); [ lra | ]. cbn [bind].
  destruct (Req_EM_T (nth k (p_nodes p) 0) 0); [ lra | ]. cbn [bind]. rewrite vset_upd by lia. cbn [bind].
  eexists. split; [ reflexivity | ]. unfold state_at. cbn [p_nodes p_bins]. rewrite upd_length. split; [ reflexivity | ]. split; [ exact L | ].
  unfold bin_of. cbn [p_bins]. split.
  - intros i Hi. rewrite nth_upd by lia. destruct (Nat.eqb_spec k i) as [<- | Ne]; [ | apply A; assumption ].
    unfold with_comp. cbn [b_div b_v]. split; [ apply (A k); assumption | ]. intros c Hc. destruct (Nat.eqb_spec c E); [ contradiction | ]. apply A; assumption.
  - intros i Hi Hi2. rewrite nth_upd by lia. destruct (Nat.eqb_spec k i) as [<- | Ne]; [ | apply P; lia ].
    unfold with_comp. cbn [b_v]. rewrite Nat.eqb_refl. destruct k as [|k]; [ lia | ]. cbn [equilibrium].
    replace (S k - 1)%nat with k in * by lia. fold (bin_of q k). rewrite P by lia. f_equal.
    unfold across, mid, node. replace (k + 1)%nat with (S k) in * by lia. replace (k + 2)%nat with (S k + 1)%nat in * by lia. field.
    repeat split; try assumption; lra.
Qed.
Lemma loop_at : forall n k q, (1 <= k)%nat -> (k + n <= p_size p)%nat -> state_at k q -> exists q', foldM (set_pressure E) q (seq k n) = Ok q' /\ state_at (k + n) q'.
Proof.
  induction n as [|n IH]; intros k q K1 K2 S; cbn [seq foldM].
  - exists q. rewrite Nat.add_0_r. auto.
  - destruct (step_at k q K1) as (q1 & E1 & S1); [ lia | assumption | ]. rewrite E1. cbn [bind]. destruct (IH (Datatypes.S k) q1) as (q' & E2 & S2); [ lia | lia | assumption | ].
    exists q'. split; [ exact E2 | ]. replace (k + Datatypes.S n)%nat with (Datatypes.S k + n)%nat by lia. exact S2.
Qed.
Lemma radial_ok : (forall i, (i < p_size p)%nat -> 0 <= b_div (bin_of p i)) -> exists p', radial_eq E p = Ok p' /\ p_nodes p' = p_nodes p /\ well_formed p' /\
  forall i, (i < p_size p)%nat -> b_v (bin_of p' i) E = equilibrium p i /\ b_div (bin_of p' i) = 1 /\ forall c, c <> E -> b_v (bin_of p' i) c = avg p i c.
Proof.
  intro D. pose proof W as (W1 & W2 & W3). assert (P0 : (0 < p_size p)%nat) by (unfold p_size; lia). unfold radial_eq. rewrite normalise_eq.
  2:{ intros b Hb. apply (In_nth _ _ bin0) in Hb. destruct Hb as (i & Hi & <-). apply D. unfold p_size. lia. }
  cbn [bind p_bins p_nodes]. assert (LM : List.length (map averaged (p_bins p)) = p_size p) by (rewrite map_length; exact W3).
  change (vget (map averaged (p_bins p)) 0) with (vget (map averaged (p_bins p)) (Z.of_nat 0)).
  rewrite (vget_nth _ _ 0 bin0) by lia. cbn [bind].
  match goal with |- context [vset ?l 0%Z ?x] => change (vset l 0%Z x) with (vset l (Z.of_nat 0) x) end. rewrite vset_upd by lia. cbn [bind p_nodes].
  assert (NA : forall i, (i < p_size p)%nat -> nth i (map averaged (p_bins p)) bin0 = averaged (bin_of p i)).
  { intros i Hi. rewrite (nth_indep _ bin0 (averaged bin0)) by lia. rewrite map_nth. reflexivity. }
  unfold p_size at 1. cbn [p_nodes]. fold (p_size p).
  match goal with |- context [foldM _ ?q0 _] => destruct (loop_at (p_size p - 1) 1 q0) as (q' & E1 & N' & L' & A' & P') end.
  - lia.
  - lia.
  - unfold state_at. cbn [p_nodes p_bins]. rewrite upd_length. split; [ reflexivity | ]. split; [ assumption | ]. unfold bin_of. cbn [p_bins]. split.
    + intros i Hi. rewrite nth_upd by lia. destruct (Nat.eqb_spec 0 i) as [<- | Ne]; rewrite NA by lia; unfold with_comp, averaged, avg; cbn [b_v b_div]; (split; [ reflexivity | ]); intros c Hc; [ | reflexivity ].
      destruct (Nat.eqb_spec c E); [ contradiction | reflexivity ].
    + intros i Hi _. replace i with 0%nat by lia. rewrite nth_upd by lia. cbn [Nat.eqb with_comp b_v]. rewrite Nat.eqb_refl. reflexivity.
  - rewrite E1. exists q'. split; [ reflexivity | ]. split; [ exact N' | ]. split; [ unfold well_formed; rewrite N', L'; auto | ].
    intros i Hi. split; [ apply P'; lia | ]. apply A'. assumption.
Qed.
End Radial.

(** a gap *)
Lemma radial_gap : forall E p i, (E <> 0 /\ E <> 2)%nat -> well_formed p -> (forall i, (i < p_size p)%nat -> 0 <= b_div (bin_of p i)) ->
  (i < p_size p)%nat -> (2 <= p_size p)%nat -> b_v (bin_of p i) 0%nat = 0 -> radial_eq E p = UB.
Proof.
  intros E p i HE (W1 & W2 & W3) D Hi Sz Z. unfold radial_eq. rewrite normalise_eq.
  2:{ intros b Hb. apply (In_nth _ _ bin0) in Hb. destruct Hb as (j & Hj & <-). apply D. unfold p_size. lia. }
  cbn [bind p_bins p_nodes]. assert (LM : List.length (map averaged (p_bins p)) = p_size p) by (rewrite map_length; exact W3).
  change (vget (map averaged (p_bins p)) 0) with (vget (map averaged (p_bins p)) (Z.of_nat 0)).
  rewrite (vget_nth _ _ 0 bin0) by lia. cbn [bind].
  match goal with |- context [vset ?l 0%Z ?x] => change (vset l 0%Z x) with (vset l (Z.of_nat 0) x) end. rewrite vset_upd by lia. cbn [bind p_nodes].
  set (q0 := {| p_nodes := p_nodes p; p_bins := _ |}).
  assert (Q0 : p_nodes q0 = p_nodes p /\ List.length (p_bins q0) = p_size p /\ b_v (bin_of q0 i) 0%nat = 0).
  { unfold q0. cbn [p_nodes p_bins]. rewrite upd_length. split; [ reflexivity | ]. split; [ assumption | ]. unfold bin_of. cbn [p_bins]. rewrite nth_upd by lia.
    assert (AV : b_v (nth i (map averaged (p_bins p)) bin0) 0%nat = 0).
    { rewrite (nth_indep _ bin0 (averaged bin0)) by lia. rewrite map_nth. fold (bin_of p i). unfold averaged. cbn [b_v]. rewrite Z. unfold Rdiv. ring. }
    destruct (Nat.eqb_spec 0 i) as [<- | Ne]; [ | exact AV ]. unfold with_comp. cbn [b_v]. destruct (Nat.eqb_spec 0 E); [ lia | ]. exact AV. }
  unfold p_size at 1. cbn [p_nodes]. fold (p_size p).
  assert (G : forall n k q, (1 <= k)%nat -> (k + n = p_size p)%nat -> (k <= S i)%nat -> (k <= p_size p - 1)%nat -> p_nodes q = p_nodes p -> List.length (p_bins q) = p_size p -> b_v (bin_of q i) 0%nat = 0 ->
    foldM (set_pressure E) q (seq k n) = UB).
  { induction n as [|n IH]; intros k q K1 K2 K3 K4 N L B; [ lia | ]. cbn [seq foldM]. unfold set_pressure at 1, rise. rewrite N.
    rewrite !(vget_nth _ (p_bins q) _ bin0) by lia. rewrite !(vget_nth _ (p_nodes p) _ 0) by (unfold p_size in *; lia). cbn [bind]. fold (bin_of q (k - 1)) (bin_of q k).
    unfold rdiv. destruct (Req_EM_T (b_v (bin_of q (k - 1)) 0%nat) 0) as [B0 | B0]; [ reflexivity | ]. cbn [bind].
    destruct (Req_EM_T (b_v (bin_of q k) 0%nat) 0) as [B1 | B1]; [ reflexivity | ]. cbn [bind].
    destruct (Req_EM_T _ 0); [ reflexivity | ]. cbn [bind]. destruct (Req_EM_T (nth k (p_nodes p) 0) 0); [ reflexivity | ]. cbn [bind]. rewrite vset_upd by lia. cbn [bind].
    assert (Ni : i <> (k - 1)%nat /\ i <> k) by (split; intros ->; contradiction).
    apply IH; try lia; cbn [p_nodes p_bins]; auto.
    - rewrite upd_length. exact L.
    - unfold bin_of. cbn [p_bins]. rewrite nth_upd by lia. destruct (Nat.eqb_spec k i); [ lia | ]. exact B. }
  apply (G (p_size p - 1)%nat); try lia; apply Q0.
Qed.

Lemma solid_body : forall p a h rho w, 0 < h -> 0 <= a -> rho <> 0 -> (forall i, (i <= p_size p)%nat -> node p i = a + INR i * h) ->
  (forall i, (i < p_size p)%nat -> avg p i 0 = rho /\ avg p i 2 = rho * (w * mid p i)) ->
  forall i, (i < p_size p)%nat -> equilibrium p i = rho * w ^ 2 / 2 * (mid p i ^ 2 - mid p 0 ^ 2).
Proof.
  intros p a h rho w H A R N AV. induction i as [|k IH]; intro Hk; cbn [equilibrium]; [ ring | ]. rewrite IH by lia.
  destruct (AV k) as (A1 & A2); [ lia | ]. replace (k + 1)%nat with (S k) by lia. destruct (AV (S k)) as (B1 & B2); [ lia | ].
  unfold across. replace (k + 2)%nat with (S (S k)) by lia. replace (k + 1)%nat with (S k) by lia. rewrite A1, A2, B1, B2. unfold mid. replace (k + 1)%nat with (S k) by lia. replace (S k + 1)%nat with (S (S k)) by lia.
  rewrite (N k), (N (S k)), (N (S (S k))) by lia. rewrite !S_INR. pose proof (pos_INR k).
  assert (0 < a + (INR k + 1) * h) by nra. field. repeat split; try assumption; lra.
Qed.
Lemma equilibrium_grows : forall p, increasing (p_nodes p) -> (forall i, (1 <= i < p_size p)%nat -> 0 < node p i) -> (forall i, (i < p_size p)%nat -> 0 < avg p i 0) ->
  forall i, (S i < p_size p)%nat -> equilibrium p i <= equilibrium p (S i).
Proof.
  intros p INC POS RHO i Hi. cbn [equilibrium].
  assert (I0 : node p i < node p (i + 1)) by (apply INC; unfold p_size in *; lia). assert (I1 : node p (i + 1) < node p (i + 2)) by (apply INC; unfold p_size in *; lia).
  assert (P : 0 < node p (i + 1)) by (apply POS; lia). pose proof (RHO i ltac:(lia)). pose proof (RHO (i + 1)%nat ltac:(lia)).
  assert (0 <= across p (fun j => avg p j 0) i).
  { unfold across. apply Rmult_le_pos; [ nra | left; apply Rinv_0_lt_compat; lra ]. }
  assert (0 <= mid p (i + 1) - mid p i) by (unfold mid; replace (i + 1 + 1)%nat with (i + 2)%nat by lia; lra).
  assert (0 <= across p (fun j => avg p j 0) i * across p (fun j => avg p j 2 / avg p j 0) i ^ 2 / node p (i + 1) * (mid p (i + 1) - mid p i)); [ | lra ].
  apply Rmult_le_pos; [ | assumption ]. apply Rmult_le_pos; [ | left; apply Rinv_0_lt_compat; assumption ]. apply Rmult_le_pos; [ assumption | apply pow2_ge_0 ].
Qed.

(** *** the nodes *)
Lemma lin_nth : forall n a b i, (i <= n)%nat -> nth i (lin_spaced n a b) 0 = a + INR i * ((b - a) / INR n).
Proof.
  intros n a b i H. unfold lin_spaced. set (f := fun i => a + INR i * ((b - a) / INR n)).
  rewrite (nth_indep _ 0 (f 0%nat)) by (rewrite map_length, seq_length; lia). rewrite map_nth, seq_nth by lia. reflexivity.
Qed.
Lemma lin_ok : forall n a b, (0 < n)%nat -> a < b -> List.length (lin_spaced n a b) = S n /\ nth 0 (lin_spaced n a b) 0 = a /\ nth n (lin_spaced n a b) 0 = b /\ increasing (lin_spaced n a b).
Proof.
  intros n a b N H. assert (L : List.length (lin_spaced n a b) = S n) by (unfold lin_spaced; rewrite map_length, seq_length; reflexivity).
  assert (0 < INR n) by (apply lt_0_INR; assumption). split; [ exact L | ]. split; [ rewrite lin_nth by lia; cbn; ring | ]. split; [ rewrite lin_nth by lia; field; lra | ].
  intros i j Hij. rewrite L in Hij. rewrite !lin_nth by lia. assert (INR i < INR j) by (apply lt_INR; lia). assert (0 < (b - a) / INR n) by (apply Rdiv_lt_0_compat; lra). nra.
Qed.
Lemma tanh_form : forall x, tanh x = 1 - 2 / (exp (2 * x) + 1).
Proof.
  intro x. unfold tanh, sinh, cosh. pose proof (exp_pos x). pose proof (exp_pos (- x)). replace (2 * x) with (x + x) by ring. rewrite exp_plus.
  rewrite exp_Ropp. field. split; nra.
Qed.
Lemma tanh_inc : forall x y, x < y -> tanh x < tanh y.
Proof.
  intros x y H. rewrite !tanh_form. pose proof (exp_pos (2 * x)). assert (exp (2 * x) < exp (2 * y)) by (apply exp_increasing; lra).
  assert (/ (exp (2 * y) + 1) < / (exp (2 * x) + 1)) by (apply Rinv_lt_contravar; nra). unfold Rdiv. lra.
Qed.
Lemma tanh_zero : tanh 0 = 0.
Proof. unfold tanh. rewrite sinh_0. unfold Rdiv. ring. Qed.
Lemma tanh_opp : forall x, tanh (- x) = - tanh x.
Proof.
  intro x. unfold tanh, sinh, cosh. rewrite Ropp_involutive. pose proof (exp_pos x). pose proof (exp_pos (- x)). field. lra.
Qed.
Section Tanh.
Variables (x0 x1 h : R) (n : nat).
Hypothesis X : x0 < x1.
Hypothesis H : 0 < h.
Hypothesis N : (0 < n)%nat.
Let g (i : nat) : R := (tanh (- h + INR i * ((h - - h) / INR n)) + tanh h) / (2 * tanh h) * (x1 - x0) + x0.
Lemma th_pos : 0 < tanh h.
Proof. pose proof (tanh_inc 0 h H). rewrite tanh_zero in H0. assumption. Qed.
Lemma n_pos : 0 < INR n.
Proof. apply lt_0_INR. assumption. Qed.
Lemma g_nth : forall i, (i <= n)%nat -> nth i (tanh_nodes x0 x1 n h) 0 = g i.
Proof.
  pose proof th_pos. pose proof n_pos. intros i Hi. unfold tanh_nodes.
  set (f := fun i => if (i =? 0)%nat then x0 else if (i =? n)%nat then x1 else g i).
  change (nth i (map f (seq 0 (S n))) 0 = g i). rewrite (nth_indep _ 0 (f 0%nat)) by (rewrite map_length, seq_length; lia). rewrite map_nth, seq_nth by lia. unfold f. cbn [Nat.add].
  destruct (Nat.eqb_spec i 0) as [-> | E0].
  - unfold g. cbn [INR]. rewrite Rmult_0_l, Rplus_0_r, tanh_opp. field. lra.
  - destruct (Nat.eqb_spec i n) as [-> | E1]; [ | reflexivity ]. unfold g. replace (- h + INR n * ((h - - h) / INR n)) with h by (field; lra). field. lra.
Qed.
Lemma tanh_ok : List.length (tanh_nodes x0 x1 n h) = S n /\ nth 0 (tanh_nodes x0 x1 n h) 0 = x0 /\ nth n (tanh_nodes x0 x1 n h) 0 = x1 /\ increasing (tanh_nodes x0 x1 n h) /\
  (forall i, (i <= n)%nat -> nth i (tanh_nodes x0 x1 n h) 0 + nth (n - i) (tanh_nodes x0 x1 n h) 0 = x0 + x1) /\
  nth 1 (tanh_nodes x0 x1 n h) 0 - x0 = (1 - tanh (h - 2 * h / INR n) / tanh h) / 2 * (x1 - x0).
Proof.
  pose proof th_pos. pose proof n_pos. assert (L : List.length (tanh_nodes x0 x1 n h) = S n) by (unfold tanh_nodes; rewrite map_length, seq_length; reflexivity).
  split; [ exact L | ]. split; [ reflexivity | ]. split. { rewrite g_nth by lia. unfold g. replace (- h + INR n * ((h - - h) / INR n)) with h by (field; lra). field. lra. } split.
  - intros i j Hij. rewrite L in Hij. rewrite !g_nth by lia. unfold g. assert (INR i < INR j) by (apply lt_INR; lia).
    assert (Q : 0 < (h - - h) / INR n) by (apply Rdiv_lt_0_compat; lra).
    assert (T : tanh (- h + INR i * ((h - - h) / INR n)) < tanh (- h + INR j * ((h - - h) / INR n))) by (apply tanh_inc; nra).
    assert (K : 0 < / (2 * tanh h)) by (apply Rinv_0_lt_compat; lra). unfold Rdiv at 1 3. apply Rplus_lt_compat_r. apply Rmult_lt_compat_r; [ lra | ]. apply Rmult_lt_compat_r; [ assumption | ]. lra.
  - split.
    + intros i Hi. rewrite !g_nth by lia. unfold g. rewrite minus_INR by lia.
      replace (- h + (INR n - INR i) * ((h - - h) / INR n)) with (- (- h + INR i * ((h - - h) / INR n))) by (field; lra). rewrite tanh_opp. field. lra.
    + rewrite g_nth by lia. unfold g. replace (- h + INR 1 * ((h - - h) / INR n)) with (- (h - 2 * h / INR n)) by (cbn [INR]; field; lra). rewrite tanh_opp. field. lra.
Qed.
End Tanh.

(** width of the first interval as the solver computes it *)
Lemma tanh_distribution_ok : forall x0 x1 n d0 l, tanh_distribution x0 x1 n d0 = Ok l ->
  x0 < x1 /\ (0 < n)%nat /\ List.length l = S n /\ nth 0 l 0 = x0 /\ nth n l 0 = x1 /\ increasing l /\ (forall i, (i <= n)%nat -> nth i l 0 + nth (n - i) l 0 = x0 + x1) /\
  (((x1 - x0) / INR n <= d0 /\ l = lin_spaced n x0 x1) \/
   (d0 < (x1 - x0) / INR n /\ exists h hi, h < hi /\ (tanh_eq x0 x1 d0 n (/ 10 ^ 10) < 0 - verySmallReal -> hi - h <= 20 / 2 ^ 20) /\ l = tanh_nodes x0 x1 n h /\
      d0 <= (1 - tanh (h - 2 * h / INR n) / (tanh h + verySmallReal)) / 2 * (x1 - x0) /\
      (1 - tanh (hi - 2 * hi / INR n) / (tanh hi + verySmallReal)) / 2 * (x1 - x0) <= d0)).
Proof.
  intros x0 x1 n d0 l. unfold tanh_distribution. destruct (Rlt_dec x0 x1) as [X | X]; [ | discriminate ].
  destruct (Nat.ltb_spec 0 n) as [N | N]; cbn [assert_ bind]; [ | discriminate ].
  assert (NP : 0 < INR n) by (apply lt_0_INR; assumption).
  destruct (Rle_dec ((x1 - x0) / INR n) d0) as [D | D].
  - intro E. assert (l = lin_spaced n x0 x1) by congruence. subst l. destruct (lin_ok n x0 x1 N X) as (A1 & A2 & A3 & A4).
    repeat (split; [ assumption | ]). split; [ | left; auto ]. intros i Hi. rewrite !lin_nth by lia. rewrite minus_INR by lia. field. lra.
  - destruct (BisectSolveLower _ _ _ _ _) as [h| |] eqn:B; cbn [bind]; try discriminate.
    destruct (bisect_ok _ _ _ _ _ _ B) as (hi & B1 & B2 & B3 & B4 & B5 & B6 & B7).
    assert (HP : 0 < h). { assert (0 < / 10 ^ 10) by (apply Rinv_0_lt_compat; apply pow_lt; lra). lra. }
    pose proof (th_pos h HP) as TP.
    unfold rdiv. destruct (Req_EM_T (2 * tanh h) 0); [ lra | ]. cbn [bind]. intro E. assert (l = tanh_nodes x0 x1 n h) by congruence. subst l.
    destruct (tanh_ok x0 x1 h n X HP N) as (A1 & A2 & A3 & A4 & A5 & A6). repeat (split; [ assumption | ]). right. split; [ lra | ].
    exists h, hi. split; [ assumption | ]. split; [ intro LOW; rewrite (B6 LOW) | ].
    { change (Z.to_nat 20) with 20%nat. assert (0 < / 10 ^ 10) by (apply Rinv_0_lt_compat; apply pow_lt; lra). apply Rmult_le_compat_r; [ left; apply Rinv_0_lt_compat; apply pow_lt; lra | lra ]. }
    split; [ reflexivity | ]. unfold tanh_eq in B4, B5.
    set (q := tanh (h - 2 * h / INR n) / (tanh h + verySmallReal)) in *. set (q' := tanh (hi - 2 * hi / INR n) / (tanh hi + verySmallReal)) in *.
    assert (ED : d0 = d0 * 2 / (x1 - x0) * ((x1 - x0) / 2)) by (field; lra). set (e := d0 * 2 / (x1 - x0)) in *.
    replace ((1 - q) / 2 * (x1 - x0)) with ((1 - q) * ((x1 - x0) / 2)) by field. replace ((1 - q') / 2 * (x1 - x0)) with ((1 - q') * ((x1 - x0) / 2)) by field.
    split.
    + rewrite ED. apply Rmult_le_compat_r; lra.
    + rewrite ED. apply Rmult_le_compat_r; lra.
Qed.

(** *** examples *)
Lemma inc3 : forall a b c, a < b < c -> increasing [a; b; c].
Proof.
  intros a b c H i j (Hij & Hj). cbn [List.length] in Hj. destruct i as [|[|[|i]]], j as [|[|[|j]]]; cbn [nth]; try lia; lra.
Qed.
Lemma inc_nondec : forall l, increasing l -> nondecreasing l.
Proof. intros l H i j Hij. left. apply H. assumption. Qed.
Lemma met_fill : (2 <= List.length [0; 1; 2])%nat /\ nondecreasing [0; 1; 2] /\
  let f := {| f_v := fun _ => 5; f_area := 3; f_l := 1/2; f_r := 2 |} in
  nth 0 [0; 1; 2] 0 <= f_l f /\ f_l f < f_r f /\ f_r f <= nth (List.length [0; 1; 2] - 1) [0; 1; 2] 0 /\ share f 0 1 = 1 /\ share f 1 2 = 2.
Proof.
  split; [ cbn; lia | ]. split; [ apply inc_nondec; apply inc3; lra | ]. cbn [f_l f_r nth List.length Nat.sub]. split; [ lra | ]. split; [ lra | ]. split; [ lra | ].
  unfold share. cbn [f_area f_l f_r]. unfold overlap. rewrite (Rmin_right 2 1), (Rmax_left (1/2) 0), (Rmin_left 2 2), (Rmax_right (1/2) 1) by lra. rewrite !Rmax_left by lra. split; field.
Qed.
Definition swirl : profile :=
  {| p_nodes := [1; 2; 3];
     p_bins := [ {| b_v := fun c => match c with 0%nat => 2 | 2%nat => 2 * (3/2) | _ => 7 end; b_div := 1 - verySmallReal |};
                 {| b_v := fun c => match c with 0%nat => 2 | 2%nat => 2 * (5/2) | _ => 8 end; b_div := 1 - verySmallReal |} ] |}.
Lemma vs_one : verySmallReal < 1.
Proof.
  unfold verySmallReal. rewrite <- Rinv_1. apply Rinv_lt_contravar; [ | apply Rlt_pow_R1; [ lra | lia ] ]. rewrite Rmult_1_l. apply pow_lt. lra.
Qed.
Lemma met_swirl : (4 <> 0 /\ 4 <> 2)%nat /\ well_formed swirl /\ increasing (p_nodes swirl) /\ (forall i, (1 <= i < p_size swirl)%nat -> 0 < node swirl i) /\
  (forall i, (i < p_size swirl)%nat -> 0 <= b_div (bin_of swirl i)) /\
  (forall i, (i <= p_size swirl)%nat -> node swirl i = 1 + INR i * 1) /\
  (forall i, (i < p_size swirl)%nat -> avg swirl i 0 = 2 /\ avg swirl i 2 = 2 * (1 * mid swirl i)).
Proof.
  pose proof vs_pos. pose proof vs_one. assert (I3 : increasing [1; 2; 3]) by (apply inc3; lra).
  split; [ lia | ]. split; [ repeat split; [ cbn; lia | apply inc_nondec; exact I3 ] | ]. split; [ exact I3 | ]. cbn [swirl p_size p_nodes List.length Nat.sub].
  split; [ intros i Hi; replace i with 1%nat by lia; cbn; lra | ]. split; [ intros [|[|i]] Hi; try lia; cbn; lra | ].
  split; [ intros [|[|[|i]]] Hi; try lia; cbn; lra | ].
  intros [|[|i]] Hi; try lia; unfold avg, mid, node, bin_of; cbn [swirl p_bins p_nodes nth b_v b_div Nat.add]; replace (1 - verySmallReal + verySmallReal) with 1 by ring; lra.
Qed.
Lemma met_anchor : let xs := [[(fun _ : nat => 1, 3)]; [(fun _ : nat => 2, 2); (fun _ => 4, 5)]] in
  List.length [anchor_new; anchor_new] = List.length xs /\ exists l x, In l xs /\ In x l /\ snd x < veryLarge.
Proof.
  intro xs. split; [ reflexivity | ]. exists [(fun _ : nat => 1, 3)], (fun _ : nat => 1, 3). split; [ left; reflexivity | ]. split; [ left; reflexivity | ]. cbn [snd]. pose proof big. lra.
Qed.
Lemma thin_face_met : exists v a x, well_formed swirl /\ node swirl 0 <= x < node swirl (p_size swirl) /\ 0 < a /\ add_interval swirl v a x x = UB.
Proof.
  exists vzero, 1, 2. destruct met_swirl as (_ & W & _). assert (X : node swirl 0 <= 2 < node swirl (p_size swirl)) by (cbn; lra).
  split; [ exact W | ]. split; [ exact X | ]. split; [ lra | ]. apply thin_face; assumption.
Qed.
