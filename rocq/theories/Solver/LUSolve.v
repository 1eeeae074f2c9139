(** The substitutions and the products, and what they give together. *)
From Coq Require Import List ZArith Lia Bool Permutation.
From Verif Require Import Base.Prelude Base.PreludeFacts
  Solver.DirectModel Solver.DirectSpec Solver.DirectProofs Solver.DirectMore Solver.LUModel Solver.LUSpec Solver.LUProofs Solver.LUElim.
Import ListNotations.
Local Open Scope Z_scope.

Lemma foldM_down {S} (P : Z -> S -> Prop) (f : S -> Z -> res S) m s : 0 <= m -> P m s ->
  (forall k s, 0 <= k < m -> P (k + 1) s -> exists s', f s k = Ok s' /\ P k s') -> exists s', foldM f s (rev (range m)) = Ok s' /\ P 0 s'.
Proof.
  intros Hm H0 Hs.
  assert (G : forall k, 0 <= k -> k <= m -> forall s, P k s -> exists s', foldM f s (rev (range k)) = Ok s' /\ P 0 s').
  { intros k Hk. pattern k. apply natlike_ind; auto.
    - intros _ s1 H. exists s1. split; [reflexivity|auto].
    - intros x Hx IH L s1 H. unfold Z.succ in *. rewrite range_succ, rev_app_distr by auto. cbn [rev app foldM].
      destruct (Hs x s1) as (s2 & E2 & H2); [lia|auto|]. rewrite E2. cbn [bind]. apply IH; [lia|auto]. }
  apply (G m); auto. lia.
Qed.

Lemma NoDup_map_in {A B} (f : A -> B) l : (forall a b, In a l -> In b l -> f a = f b -> a = b) -> NoDup l -> NoDup (map f l).
Proof.
  intros H N. induction N as [|x l Nx N IH]; cbn; constructor.
  - intro I. apply in_map_iff in I. destruct I as (y & E & Iy). apply Nx. rewrite (H x y); auto; [now left|now right].
  - apply IH. intros a b Ha Hb. apply H; now right.
Qed.
Section Vec.
Context {T V : Type} (O : ops T V) (LW : laws O).
Context (n : Z) (o2n n2o : list Z) (HO : ordering_ok n o2n n2o).
Notation ord := (ord n2o).
Definition repv (y : list V) (Y : Z -> V) : Prop := zlen y = n /\ forall i, 0 <= i < n -> nth (Z.to_nat (ord i)) y (v0 O) = Y i.
Definition updV (Y : Z -> V) i x : Z -> V := fun a => if a =? i then x else Y a.
Lemma updV_same Y i x : updV Y i x i = x.
Proof. unfold updV. now rewrite Z.eqb_refl. Qed.
Lemma updV_other Y i x a : a <> i -> updV Y i x a = Y a.
Proof. intro H. unfold updV. destruct (Z.eqb_spec a i); [lia|auto]. Qed.
Lemma repv_get y Y i : repv y Y -> 0 <= i < n -> vget y (ord i) = Ok (Y i).
Proof. intros (L & R) Hi. rewrite (vget_z y _ (v0 O)); [now rewrite R|]. rewrite L. now apply (ord_rng n o2n n2o HO). Qed.
Lemma repv_set y Y i x : repv y Y -> 0 <= i < n -> exists y', vset y (ord i) x = Ok y' /\ repv y' (updV Y i x).
Proof.
  intros (L & R) Hi. pose proof (ord_rng n o2n n2o HO i Hi) as Ho. rewrite vset_z by lia. eexists. split; [reflexivity|].
  split; [now rewrite zlen_upd_|]. intros a Ha. rewrite nth_upd. pose proof (ord_rng n o2n n2o HO a Ha) as Hoa.
  destruct (Nat.eqb_spec (Z.to_nat (ord i)) (Z.to_nat (ord a))) as [E|E].
  - assert (a = i) by (apply (ord_inj n o2n n2o HO); auto; lia). subst a. unfold zlen in L. destruct (Nat.ltb_spec (Z.to_nat (ord i)) (length y)); [|lia].
    cbn [andb]. now rewrite updV_same.
  - cbn [andb]. rewrite R by auto. rewrite updV_other; auto. congruence.
Qed.
Lemma repv_ext y Y Y' : repv y Y -> (forall i, 0 <= i < n -> Y i = Y' i) -> repv y Y'.
Proof. intros (L & R) H. split; auto. intros i Hi. rewrite R by auto. auto. Qed.
Lemma repv_refl y : zlen y = n -> repv y (fun i => nth (Z.to_nat (ord i)) y (v0 O)).
Proof. intro L. split; auto. Qed.

(** y_i -= sum of c_j y_j *)
Lemma sub_loop f y Y i c l : repv y Y -> 0 <= i < n -> (forall j, In j l -> 0 <= j < n /\ j <> i) ->
  (forall y p j, nth_error l p = Some j -> f y (Z.of_nat p) = acc T V (act O) (vsub O) y (ord i) (c j) y (ord j)) ->
  exists y', foldM f y (range (zlen l)) = Ok y' /\ repv y' (updV Y i (vsub O (Y i) (vsum O (fun j => act O (c j) (Y j)) l))).
Proof.
  intros R Hi Hl Hf.
  destruct (foldM_range (fun m y' => repv y' (updV Y i (vsub O (Y i) (vsum O (fun j => act O (c j) (Y j)) (firstn (Z.to_nat m) l))))) f (zlen l) y) as (y' & E & D).
  - unfold zlen. lia.
  - apply (repv_ext _ _ _ R). intros a _. destruct (Z.eq_dec a i) as [->|]; [|now rewrite updV_other].
    rewrite updV_same. symmetry. apply (v_sub0 O LW).
  - clear y R. intros m y Hm R. destruct (nth_error_lt_Some _ l (Z.to_nat m)) as (j & Ej); [unfold zlen in Hm; lia|].
    destruct (Hl j (nth_error_In _ _ Ej)) as (Hj & Nj).
    rewrite <- (Z2Nat.id m) by lia. rewrite (Hf y _ _ Ej). rewrite Z2Nat.id by lia. unfold acc.
    rewrite (repv_get y _ i R Hi), (repv_get y _ j R Hj). cbn [bind]. rewrite updV_same, updV_other by auto.
    destruct (repv_set y _ i (vsub O (vsub O (Y i) (vsum O (fun j => act O (c j) (Y j)) (firstn (Z.to_nat m) l))) (act O (c j) (Y j))) R Hi) as (y' & E & R').
    exists y'. split; auto. apply (repv_ext _ _ _ R'). intros a _. destruct (Z.eq_dec a i) as [->|]; [|now rewrite !updV_other].
    rewrite !updV_same. rewrite (v_subsub O LW). f_equal.
    replace (Z.to_nat (m + 1)) with (S (Z.to_nat m)) by lia. rewrite (firstn_snoc _ _ _ Ej). unfold vsum. rewrite sum_app by apply LW. f_equal.
    cbn. symmetry. apply (v_add0r O LW).
  - exists y'. split; auto. unfold zlen in D. rewrite Nat2Z.id, firstn_all in D. exact D.
Qed.
(** y_i += sum of c_j x_j *)
Lemma add_loop f y Y x X i c l : repv y Y -> repv x X -> 0 <= i < n -> (forall j, In j l -> 0 <= j < n) ->
  (forall y p j, nth_error l p = Some j -> f y (Z.of_nat p) = acc T V (act O) (vadd O) y (ord i) (c j) x (ord j)) ->
  exists y', foldM f y (range (zlen l)) = Ok y' /\ repv y' (updV Y i (vadd O (Y i) (vsum O (fun j => act O (c j) (X j)) l))).
Proof.
  intros R RX Hi Hl Hf.
  destruct (foldM_range (fun m y' => repv y' (updV Y i (vadd O (Y i) (vsum O (fun j => act O (c j) (X j)) (firstn (Z.to_nat m) l))))) f (zlen l) y) as (y' & E & D).
  - unfold zlen. lia.
  - apply (repv_ext _ _ _ R). intros a _. destruct (Z.eq_dec a i) as [->|]; [|now rewrite updV_other].
    rewrite updV_same. symmetry. apply (v_add0r O LW).
  - clear y R. intros m y Hm R. destruct (nth_error_lt_Some _ l (Z.to_nat m)) as (j & Ej); [unfold zlen in Hm; lia|].
    pose proof (Hl j (nth_error_In _ _ Ej)) as Hj.
    rewrite <- (Z2Nat.id m) by lia. rewrite (Hf y _ _ Ej). rewrite Z2Nat.id by lia. unfold acc.
    rewrite (repv_get y _ i R Hi), (repv_get x _ j RX Hj). cbn [bind]. rewrite updV_same.
    destruct (repv_set y _ i (vadd O (vadd O (Y i) (vsum O (fun j => act O (c j) (X j)) (firstn (Z.to_nat m) l))) (act O (c j) (X j))) R Hi) as (y' & E & R').
    exists y'. split; auto. apply (repv_ext _ _ _ R'). intros a _. destruct (Z.eq_dec a i) as [->|]; [|now rewrite !updV_other].
    rewrite !updV_same. rewrite <- (vaddA O LW). f_equal.
    replace (Z.to_nat (m + 1)) with (S (Z.to_nat m)) by lia. rewrite (firstn_snoc _ _ _ Ej). unfold vsum. rewrite sum_app by apply LW. f_equal.
    cbn. symmetry. apply (v_add0r O LW).
  - exists y'. split; auto. unfold zlen in D. rewrite Nat2Z.id, firstn_all in D. exact D.
Qed.

(** ** Sums in the two numberings *)
Lemma ord_perm : Permutation (map ord (range n)) (range n).
Proof.
  assert (Ne : NoDup (map ord (range n))).
  { apply NoDup_map_in; [|apply range_NoDup]. intros a b Ha Hb E. apply range_In in Ha, Hb. now apply (ord_inj n o2n n2o HO). }
  apply NoDup_Permutation; auto; [apply range_NoDup|]. intro x. rewrite in_map_iff, range_In. split.
  - intros (a & <- & Ia). apply range_In in Ia. now apply (ord_rng n o2n n2o HO).
  - intro Hx. destruct (o_new _ _ _ HO x Hx) as (H1 & H2). exists (place o2n x). split; auto. now apply range_In.
Qed.
Lemma product_new (M : Z -> Z -> T) x X i : repv x X ->
  product O n M x (ord i) = vsum O (fun j => act O (M (ord i) (ord j)) (X j)) (range n).
Proof.
  intros (L & R). unfold product. fold (sum (v0 O) (vadd O) (fun j => act O (M (ord i) j) (nth (Z.to_nat j) x (v0 O))) (range n)).
  rewrite (sum_perm V (v0 O) (vadd O)) with (m := map ord (range n)); [|apply LW|apply LW|symmetry; apply ord_perm].
  rewrite sum_map. apply sum_ext. intros j Hj. apply range_In in Hj. now rewrite R.
Qed.
Lemma old_new i : 0 <= i < n -> exists a, 0 <= a < n /\ ord a = i.
Proof. intro H. destruct (o_new _ _ _ HO i H) as (H1 & H2). exists (place o2n i). auto. Qed.
End Vec.

Section Algebra.
Context {T V : Type} (O : ops T V) (LW : laws O).
Notation "a ** b" := (tmul O a b) (at level 40, left associativity).
(** a product of two matrices applied to a vector *)
Lemma product_assoc (n : Z) (L U : Z -> Z -> T) (X : Z -> V) i :
  vsum O (fun j => act O (tsum O (fun k => L i k ** U k j) (range n)) (X j)) (range n) =
  vsum O (fun k => act O (L i k) (vsum O (fun j => act O (U k j) (X j)) (range n))) (range n).
Proof.
  transitivity (vsum O (fun j => vsum O (fun k => act O (L i k) (act O (U k j) (X j))) (range n)) (range n)).
  - apply sum_ext. intros j _. rewrite (sum_act O LW). apply sum_ext. intros k _. apply LW.
  - unfold vsum. rewrite sum_swap by apply LW. apply sum_ext. intros k _. symmetry. apply (act_sum O LW).
Qed.
Lemma tsum_snoc {I} (f : I -> T) l j : tsum O f (l ++ [j]) = tadd O (tsum O f l) (f j).
Proof. unfold tsum. rewrite sum_app by apply LW. f_equal. apply (t_add0r O LW). Qed.
Lemma vsum_snoc {I} (f : I -> V) l j : vsum O f (l ++ [j]) = vadd O (vsum O f l) (f j).
Proof. unfold vsum. rewrite sum_app by apply LW. f_equal. apply (v_add0r O LW). Qed.
Lemma t_eqK a b c : c = b -> tadd O (tsub O a b) c = a.
Proof. intros ->. apply (t_subK O LW). Qed.
Lemma v_eqK a b c : c = b -> vadd O (vsub O a b) c = a.
Proof. intros ->. apply (v_subK O LW). Qed.
(** sums over a row with few entries *)
Lemma vsum_support (f : Z -> V) l n : NoDup l -> (forall k, In k l -> 0 <= k < n) -> (forall k, 0 <= k < n -> ~ In k l -> f k = v0 O) -> vsum O f (range n) = vsum O f l.
Proof.
  intros N H Hz. apply sum_support; auto; try apply LW; [apply range_NoDup|intros k Ik; apply range_In; auto|]. intros k Ik. apply Hz. now apply range_In.
Qed.
Lemma tsum_support (f : Z -> T) l n : NoDup l -> (forall k, In k l -> 0 <= k < n) -> (forall k, 0 <= k < n -> ~ In k l -> f k = t0 O) -> tsum O f (range n) = tsum O f l.
Proof.
  intros N H Hz. apply sum_support; auto; try apply LW; [apply range_NoDup|intros k Ik; apply range_In; auto|]. intros k Ik. apply Hz. now apply range_In.
Qed.
End Algebra.

Section LU.
Context {T V : Type} (O : ops T V) (LW : laws O) (invert : T -> res T) (HI : inverts O invert).
Context (n : Z) (o2n n2o : list Z) (s : symlu) (HO : ordering_ok n o2n n2o) (HS : shape n n2o s).
Notation ord := (ord n2o).
Notation rp := (rep n ord (slots s)).
Notation rv := (repv O n n2o).
Notation lo := (lo s). Notation up := (up s). Notation cm := (cm s).
Notation "a ** b" := (tmul O a b) (at level 40, left associativity).
Notation "a -- b" := (tsub O a b) (at level 50, left associativity).

Lemma forward_ok sl A (N : Z -> Z -> T) b B y : rep n ord sl A N -> (forall i p j, 0 <= i < n -> nth_error (lo i) p = Some j -> at_ (sl i) (1 + Z.of_nat p) j) ->
  rv b B -> zlen y = n ->
  exists y' Y, foldM (forward_row T V (act O) (vsub O) s A b) y (range n) = Ok y' /\ rv y' Y /\
    forall i, 0 <= i < n -> Y i = vsub O (B i) (vsum O (fun j => act O (N i j) (Y j)) (lo i)).
Proof.
  intros R Hsl RB Ly. pose proof (n_nonneg n n2o s HS) as Hn.
  destruct (foldM_range (fun m y' => exists Y, rv y' Y /\ forall i, 0 <= i < m -> Y i = vsub O (B i) (vsum O (fun j => act O (N i j) (Y j)) (lo i)))
    (forward_row T V (act O) (vsub O) s A b) n y) as (y' & E & Y & RY & HY); auto.
  - eexists. split; [now apply repv_refl|]. intros i Hi. lia.
  - clear y Ly. intros i y Hi (Y & RY & HY). unfold forward_row. rewrite (reord n o2n n2o s HO HS) by auto. cbn [bind].
    rewrite (repv_get O n o2n n2o HO b B i RB Hi). cbn [bind].
    destruct (repv_set O n o2n n2o HO y Y i (B i) RY Hi) as (y1 & -> & R1). cbn [bind].
    rewrite (vget_lowOld n o2n n2o s HO HS) by auto. cbn [bind]. rewrite zlen_map.
    match goal with |- context [foldM ?f y1 _] => destruct (sub_loop O LW n o2n n2o HO f y1 _ i (N i) (lo i) R1 Hi) as (y2 & E2 & R2) end.
    + intros j Ij. apply (lo_lt n n2o s HS) in Ij; auto. lia.
    + intros y0 p j Ej. rewrite (rep_get n ord sl (ord_rng n o2n n2o HO) A N i _ j R Hi (Hsl i p j Hi Ej)). cbn [bind].
      assert (Ev : vget (map ord (lo i)) (Z.of_nat p) = Ok (ord j)) by (apply vget_of_nat; now rewrite nth_error_map, Ej).
      rewrite Ev. reflexivity.
    + exists y2. split; auto. eexists. split; [exact R2|]. intros a Ha.
      assert (Sm : forall l v, (forall j, In j l -> j < i) -> vsum O (fun j => act O (N a j) (updV (updV Y i (B i)) i v j)) l = vsum O (fun j => act O (N a j) (Y j)) l).
      { intros l v Hl. apply sum_ext. intros j Ij. apply Hl in Ij. now rewrite !updV_other by lia. }
      assert (La : forall j, In j (lo a) -> j < i) by (intros j Ij; apply (lo_lt n n2o s HS) in Ij; lia).
      rewrite Sm by auto. destruct (Z.eq_dec a i) as [->|].
      * rewrite !updV_same. f_equal. apply sum_ext. intros j Ij. apply La in Ij. now rewrite updV_other by lia.
      * rewrite !updV_other by auto. apply HY. lia.
  - exists y', Y. auto.
Qed.
Lemma backward_ok A (W : Z -> Z -> T) y Y : rp A W -> rv y Y ->
  exists x X, foldM (lu_backward_row T V (act O) (vsub O) s A) y (rev (range n)) = Ok x /\ rv x X /\
    forall i, 0 <= i < n -> X i = act O (W i i) (vsub O (Y i) (vsum O (fun j => act O (W i j) (X j)) (up i))).
Proof.
  intros R RY. pose proof (n_nonneg n n2o s HS) as Hn.
  destruct (foldM_down (fun m x => exists X, rv x X /\ (forall i, 0 <= i < m -> X i = Y i) /\ 
      forall i, m <= i < n -> X i = act O (W i i) (vsub O (Y i) (vsum O (fun j => act O (W i j) (X j)) (up i))))
    (lu_backward_row T V (act O) (vsub O) s A) n y) as (x & E & X & RX & _ & HX); auto.
  - exists Y. split; auto. split; auto. intros i Hi. lia.
  - clear y RY. intros i y Hi (X & RX & H1 & H2). unfold lu_backward_row. rewrite (reord n o2n n2o s HO HS) by auto. cbn [bind].
    rewrite (vget_uppOld n o2n n2o s HO HS) by auto. cbn [bind]. rewrite (upper_off_ok n o2n n2o s HO HS) by lia. cbn [bind]. rewrite zlen_map.
    match goal with |- context [foldM ?f y _] => destruct (sub_loop O LW n o2n n2o HO f y _ i (W i) (up i) RX Hi) as (y2 & E2 & R2) end.
    + intros j Ij. apply (up_lt n n2o s HS) in Ij; auto. lia.
    + intros y0 p j Ej. rewrite (get n o2n n2o s HO A W i _ j R Hi (at_up s i p j Ej)). cbn [bind].
      assert (Ev : vget (map ord (up i)) (Z.of_nat p) = Ok (ord j)) by (apply vget_of_nat; now rewrite nth_error_map, Ej).
      rewrite Ev. reflexivity.
    + rewrite E2. cbn [bind]. rewrite (get n o2n n2o s HO A W i 0 i R Hi (at_diag s i)). cbn [bind].
      rewrite (repv_get O n o2n n2o HO y2 _ i R2 Hi). cbn [bind]. rewrite updV_same.
      match goal with |- context [vset y2 _ ?v] => destruct (repv_set O n o2n n2o HO y2 _ i v R2 Hi) as (y3 & E3 & R3) end.
      exists y3. split; auto. eexists. split; [exact R3|]. split.
      * intros a Ha. rewrite !updV_other by lia. apply H1. lia.
      * intros a Ha.
        assert (Sm : forall l v v', (forall j, In j l -> i < j) -> vsum O (fun j => act O (W a j) (updV (updV X i v') i v j)) l = vsum O (fun j => act O (W a j) (X j)) l).
        { intros l v v' Hl. apply sum_ext. intros j Ij. apply Hl in Ij. now rewrite !updV_other by lia. }
        assert (La : forall j, In j (up a) -> i < j) by (intros j Ij; apply (up_lt n n2o s HS) in Ij; lia).
        rewrite Sm by auto. destruct (Z.eq_dec a i) as [->|].
        -- rewrite !updV_same. rewrite (H1 i) by lia. reflexivity.
        -- rewrite !updV_other by auto. apply H2. lia.
  - exists x, X. split; [auto|split; auto].
Qed.

(** ** The factors as matrices *)
Variables (M W : Z -> Z -> T) (D : Z -> T).
Hypothesis HF : factors O invert n s M W D.
Definition Lm i k : T := if k =? i then t1 O else if member k (lo i) then W i k else t0 O.
Definition Um k j : T := if j =? k then D k else if member j (up k) then W k j else t0 O.
Definition LU i j : T := tsum O (fun k => Lm i k ** Um k j) (range n).
Lemma Lm_diag i : Lm i i = t1 O.
Proof. unfold Lm. now rewrite Z.eqb_refl. Qed.
Lemma Lm_low i k : 0 <= i < n -> In k (lo i) -> Lm i k = W i k.
Proof.
  intros Hi I. pose proof (lo_lt n n2o s HS i k Hi I). unfold Lm. destruct (Z.eqb_spec k i); [lia|]. apply member_In in I. now rewrite I.
Qed.
Lemma Lm_zero i k : k <> i -> ~ In k (lo i) -> Lm i k = t0 O.
Proof.
  intros H I. unfold Lm. destruct (Z.eqb_spec k i); [lia|]. destruct (member k (lo i)) eqn:E; auto. apply member_In in E. tauto.
Qed.
Lemma Um_diag i : Um i i = D i.
Proof. unfold Um. now rewrite Z.eqb_refl. Qed.
Lemma Um_upp k j : 0 <= k < n -> In j (up k) -> Um k j = W k j.
Proof.
  intros Hi I. pose proof (up_lt n n2o s HS k j Hi I). unfold Um. destruct (Z.eqb_spec j k); [lia|]. apply member_In in I. now rewrite I.
Qed.
Lemma Um_zero k j : j <> k -> ~ In j (up k) -> Um k j = t0 O.
Proof.
  intros H I. unfold Um. destruct (Z.eqb_spec j k); [lia|]. destruct (member j (up k)) eqn:E; auto. apply member_In in E. tauto.
Qed.
Lemma cm_rng i j k : 0 <= i < n -> 0 <= j < n -> In k (cm i j) -> 0 <= k < i /\ k < j.
Proof.
  intros Hi Hj I. apply cm_In in I. destruct I as (I1 & I2). apply (lo_lt n n2o s HS) in I1; auto. apply (lo_lt n n2o s HS) in I2; auto. lia.
Qed.
Lemma cm_term i j k : 0 <= i < n -> 0 <= j < n -> In k (cm i j) -> Lm i k ** Um k j = W i k ** W k j.
Proof.
  intros Hi Hj I. pose proof (cm_rng i j k Hi Hj I). apply cm_In in I. destruct I as (I1 & I2).
  rewrite Lm_low, Um_upp; auto; [lia|]. apply (lo_up n n2o s HS); auto. lia.
Qed.
(** an entry outside the pattern *)
Lemma LU_off i j : 0 <= i < n -> 0 <= j < n -> ~ In j (slots s i) -> LU i j = tsum O (fun k => W i k ** W k j) (cm i j).
Proof.
  intros Hi Hj Nj. unfold LU. rewrite (tsum_support O LW _ (cm i j)).
  - apply sum_ext. intros k Ik. now apply cm_term.
  - now apply (cm_nd n n2o s HS).
  - intros k Ik. apply cm_rng in Ik; auto. lia.
  - intros k Hk Nk. destruct (Z.eq_dec k i) as [->|].
    + rewrite Um_zero; [apply (t_mul0r O LW)| |]; intro I; apply Nj; [now left|right; apply in_app_iff; auto].
    + destruct (in_dec Z.eq_dec k (lo i)) as [I|I]; [|rewrite Lm_zero by auto; apply (t_mul0l O LW)].
      rewrite Um_zero; [apply (t_mul0r O LW)| |].
      * intros ->. apply Nj. right. apply in_app_iff. auto.
      * intro I2. apply Nk. apply cm_In. split; auto. now apply (lo_up n n2o s HS).
Qed.
(** the factors multiply to the matrix on the pattern *)
Lemma LU_on i j : 0 <= i < n -> 0 <= j < n -> In j (slots s i) -> LU i j = M i j.
Proof.
  intros Hi Hj Ij. destruct HF as [F1 F2 F3].
  assert (Nc : forall k, In k (cm i j) -> k <> i /\ k <> j) by (intros k Ik; apply cm_rng in Ik; auto; lia).
  destruct Ij as [->|Ij]; [|apply in_app_iff in Ij; destruct Ij as [Ij|Ij]].
  - unfold LU. rewrite (tsum_support O LW _ (lo j ++ [j])).
    + rewrite (tsum_snoc O LW). rewrite Lm_diag, Um_diag, (tmul1l O LW).
      destruct (F2 j Hi) as (-> & _). rewrite (taddC O LW). apply (t_eqK O LW). apply sum_ext.
      intros k Ik. pose proof (lo_lt n n2o s HS j k Hi Ik). rewrite Lm_low, Um_upp; auto; [lia|]. apply (lo_up n n2o s HS); auto. lia.
    + apply NoDup_app_; [now apply sasc_NoDup, (lo_sasc n n2o s HS)|constructor; [auto|constructor]|]. intros x Ix [<-|[]]. apply (lo_lt n n2o s HS) in Ix; [lia|auto].
    + intros k Ik. apply in_app_iff in Ik. destruct Ik as [Ik|[<-|[]]]; auto. apply (lo_lt n n2o s HS) in Ik; auto. lia.
    + intros k Hk Nk. rewrite in_app_iff in Nk. rewrite Lm_zero; [apply (t_mul0l O LW)| |].
      * intros ->. apply Nk. right. now left.
      * tauto.
  - pose proof (lo_lt n n2o s HS i j Hi Ij) as Lj. unfold LU. rewrite (tsum_support O LW _ (cm i j ++ [j])).
    + rewrite (tsum_snoc O LW). rewrite Lm_low, Um_diag by auto.
      destruct (F2 j Hj) as (_ & HD). destruct (HI _ _ HD) as (_ & HD').
      rewrite (F1 i j Hi Ij). rewrite <- (tmulA O LW), HD', (tmul1r O LW). rewrite (taddC O LW). apply (t_eqK O LW). apply sum_ext.
      intros k Ik. now apply cm_term.
    + apply NoDup_app_; [now apply (cm_nd n n2o s HS)|constructor; [auto|constructor]|]. intros x Ix [<-|[]]. apply Nc in Ix. lia.
    + intros k Ik. apply in_app_iff in Ik. destruct Ik as [Ik|[<-|[]]]; auto. apply cm_rng in Ik; auto. lia.
    + intros k Hk Nk. rewrite in_app_iff in Nk. destruct (Z.eq_dec k i) as [->|].
      * rewrite Um_zero; [apply (t_mul0r O LW)|lia|]. intro I. apply (up_lt n n2o s HS) in I; [lia|auto].
      * destruct (in_dec Z.eq_dec k (lo i)) as [I|I]; [|rewrite Lm_zero by auto; apply (t_mul0l O LW)].
        rewrite Um_zero; [apply (t_mul0r O LW)| |].
        -- intros ->. apply Nk. right. now left.
        -- intro I2. apply Nk. left. apply cm_In. split; auto. now apply (lo_up n n2o s HS).
  - pose proof (up_lt n n2o s HS i j Hi Ij) as Lj. unfold LU. rewrite (tsum_support O LW _ (cm i j ++ [i])).
    + rewrite (tsum_snoc O LW). rewrite Lm_diag, Um_upp by auto.
      rewrite (tmul1l O LW).
      rewrite (F3 i j Hi Ij). rewrite (taddC O LW). apply (t_eqK O LW). apply sum_ext.
      intros k Ik. now apply cm_term.
    + apply NoDup_app_; [now apply (cm_nd n n2o s HS)|constructor; [auto|constructor]|]. intros x Ix [<-|[]]. apply Nc in Ix. lia.
    + intros k Ik. apply in_app_iff in Ik. destruct Ik as [Ik|[<-|[]]]; auto. apply cm_rng in Ik; auto. lia.
    + intros k Hk Nk. rewrite in_app_iff in Nk. destruct (Z.eq_dec k i) as [->|].
      * exfalso. apply Nk. right. now left.
      * destruct (in_dec Z.eq_dec k (lo i)) as [I|I]; [|rewrite Lm_zero by auto; apply (t_mul0l O LW)].
        rewrite Um_zero; [apply (t_mul0r O LW)| |].
        -- intros ->. apply (lo_lt n n2o s HS) in I; [lia|auto].
        -- intro I2. apply Nk. left. apply cm_In. split; auto. now apply (lo_up n n2o s HS).
Qed.
(** the substitutions solve with the factors *)
Lemma L_solves B Y i : 0 <= i < n -> Y i = vsub O (B i) (vsum O (fun j => act O (W i j) (Y j)) (lo i)) ->
  vsum O (fun k => act O (Lm i k) (Y k)) (range n) = B i.
Proof.
  intros Hi HY. rewrite (vsum_support O LW _ (lo i ++ [i])).
  - rewrite (vsum_snoc O LW), Lm_diag, (act1 O LW), HY.
    rewrite (vaddC O LW). apply (v_eqK O LW). apply sum_ext. intros k Ik. now rewrite Lm_low.
  - apply NoDup_app_; [now apply sasc_NoDup, (lo_sasc n n2o s HS)|constructor; [auto|constructor]|]. intros x Ix [<-|[]]. apply (lo_lt n n2o s HS) in Ix; [lia|auto].
  - intros k Ik. apply in_app_iff in Ik. destruct Ik as [Ik|[<-|[]]]; auto. apply (lo_lt n n2o s HS) in Ik; auto. lia.
  - intros k Hk Nk. rewrite in_app_iff in Nk. rewrite Lm_zero; [apply (act0 O LW)| |]; [intros ->; apply Nk; right; now left|tauto].
Qed.
Lemma U_solves Y X i : 0 <= i < n -> X i = act O (W i i) (vsub O (Y i) (vsum O (fun j => act O (W i j) (X j)) (up i))) ->
  vsum O (fun k => act O (Um i k) (X k)) (range n) = Y i.
Proof.
  intros Hi HX. rewrite (vsum_support O LW _ (up i ++ [i])).
  - rewrite (vsum_snoc O LW), Um_diag.
    destruct (f_diag _ _ _ _ _ _ _ HF i Hi) as (_ & HD). destruct (HI _ _ HD) as (HD' & _).
    rewrite HX, <- (actM O LW), HD', (act1 O LW).
    rewrite (vaddC O LW). apply (v_eqK O LW). apply sum_ext. intros k Ik. now rewrite Um_upp.
  - apply NoDup_app_; [now apply sasc_NoDup, (up_sasc n n2o s HS)|constructor; [auto|constructor]|]. intros x Ix [<-|[]]. apply (up_lt n n2o s HS) in Ix; [lia|auto].
  - intros k Ik. apply in_app_iff in Ik. destruct Ik as [Ik|[<-|[]]]; auto. apply (up_lt n n2o s HS) in Ik; auto. lia.
  - intros k Hk Nk. rewrite in_app_iff in Nk. rewrite Um_zero; [apply (act0 O LW)| |]; [intros ->; apply Nk; right; now left|tauto].
Qed.
Lemma LU_solves A b y : rp A W -> zlen b = n -> zlen y = n ->
  exists x X, lu_solve T V (act O) (vsub O) s {| ldu := A; isDecomposed := true |} b y = Ok x /\ rv x X /\
    forall i, 0 <= i < n -> vsum O (fun j => act O (LU i j) (X j)) (range n) = nth (Z.to_nat (ord i)) b (v0 O).
Proof.
  intros R Lb Ly. unfold lu_solve. cbn [isDecomposed assert_ bind ldu]. rewrite (h_num _ _ _ HS).
  destruct (forward_ok (slots s) A W b _ y R (fun i p j _ E => at_lo s i p j E) (repv_refl O n n2o b Lb) Ly) as (y1 & Y & -> & RY & HY). cbn [bind].
  destruct (backward_ok A W y1 Y R RY) as (x & X & E & RX & HX). exists x, X. split; auto. split; auto.
  intros i Hi. unfold LU. rewrite (product_assoc O LW). transitivity (vsum O (fun k => act O (Lm i k) (Y k)) (range n)).
  - apply sum_ext. intros k Ik. apply range_In in Ik. f_equal. now apply U_solves, HX.
  - apply (L_solves (fun i => nth (Z.to_nat (ord i)) b (v0 O)) Y i Hi). auto.
Qed.
End LU.
