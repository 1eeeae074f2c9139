From Coq Require Import List ZArith Bool Arith Permutation Lia.
From Verif Require Import Base.Prelude Base.PreludeFacts Base.MPIModel Geom.ElemModel Geom.AdjModel Geom.VtkModel Geom.VtkSpec Geom.VtkPut Geom.VtkFlags Geom.VtkNumber.
Import ListNotations.
Local Open Scope Z_scope.

Section Recreate.
Variable P : Type.
Variable turn : P -> Z -> res P.
Notation mesh := (list (part P)).
Implicit Types m : mesh.

(** What holds of a rank's output, [ks]: its points (node and periods) in order. *)
Record shows (m : mesh) (periodic : bool) (all : list (Z * Z)) (r : nat) (p : part P) (new : option (newpart P)) (ks : list (Z * Z)) : Prop := {
  s_size : out_size (p, new) = zlen ks;
  s_len : length (out_points (p, new)) = length ks;
  s_pts : forall k g b, nth_error ks k = Some (g, b) -> exists y, nth_error (out_points (p, new)) k = Some (Some y) /\ place turn m g b y;
  s_vlen : forall D (data : Z -> D), length (point_values data (p, new)) = length ks;
  s_vals : forall k g b, nth_error ks k = Some (g, b) -> exists i, 0 <= i < nOwn p /\ g = Z.of_nat (nodes_before m r) + i /\
    forall D (data : Z -> D), nth_error (point_values data (p, new)) k = Some (Some (data i));
  s_rows : match new with None => periodic = false | Some nw => periodic = true /\ length (n_cells nw) = length (p_cells p) /\
    forall j c row, nth_error (p_cells p) j = Some c -> nth_error (n_cells nw) j = Some row -> length row = length (c_nodes c) /\
      forall n id, nth_error row n = Some id -> exists g b, has_corner m true r c n g b /\ 0 <= id /\ nth_error all (Z.to_nat id) = Some (g, b) end }.

Definition to_global (s : nat) (q : Z * Z) : Z * Z := (Z.of_nat s + fst q, snd q).
Definition gkeys m (fls : list (list Z)) : list (list (Z * Z)) :=
  map (fun q => map (to_global (nodes_before m (fst q))) (keysr (snd q))) (combine (seq 0 (length m)) fls).

Lemma gkeys_nth m fls r fl : length fls = length m -> nth_error fls r = Some fl ->
  nth_error (gkeys m fls) r = Some (map (to_global (nodes_before m r)) (keysr fl)).
Proof.
  intros L H. unfold gkeys. rewrite nth_error_map. assert (Lr : (r < length m)%nat) by (apply nth_error_Some_lt in H; lia).
  rewrite (nth_combine_eq _ _ _ _ r r fl); auto. rewrite nth_error_seq, (proj2 (Nat.ltb_lt _ _) Lr). auto.
Qed.
Lemma gkeys_len m fls : length fls = length m -> length (gkeys m fls) = length m.
Proof. intros L. unfold gkeys. rewrite map_length, combine_length, seq_length. lia. Qed.

Definition good_flags m (fls : list (list Z)) : Prop := length fls = length m /\
  forall r p fl, nth_error m r = Some p -> nth_error fls r = Some fl -> length fl = length (p_nodes p) /\
    forall l b, (l < length (p_nodes p))%nat -> 0 <= b -> (B fl l b = true <-> b = 0 \/ used P m (Z.of_nat (nodes_before m r + l)) b).

Lemma used_range m g b : distributed m -> used P m g b -> 0 <= g < zlen (all_nodes m) /\ 0 <= b < 8.
Proof.
  intros D (r & j & c & n & C & l & N1 & (p & Hp & G) & N2). destruct (d_cells _ _ D _ _ _ _ C Hp) as (_ & _ & _ & Fn & Fb).
  rewrite Forall_forall in Fn, Fb. specialize (Fn l (nth_error_In _ _ N1)). specialize (Fb b (nth_error_In _ _ N2)). split; auto.
  destruct G as [[G1 ->]|[G1 G2]].
  - pose proof (before_all P m r p Hp). unfold nOwn, zlen in *. lia.
  - apply nth_error_In in G2. apply (d_ghosts _ _ D r p g Hp G2).
Qed.

Lemma gkeys_in m fls g b : distributed m -> good_flags m fls ->
  In (g, b) (concat (gkeys m fls)) <-> 0 <= g < zlen (all_nodes m) /\ (b = 0 \/ used P m g b).
Proof.
  intros D [L F]. split.
  - intros I. apply in_concat in I as (x & I1 & I2). unfold gkeys in I1. apply in_map_iff in I1 as ([r fl] & <- & I1).
    apply in_combine_nth in I1 as (k & K1 & K2). assert (Lk : (k < length m)%nat) by (apply nth_error_Some_lt in K2; lia).
    rewrite nth_error_seq, (proj2 (Nat.ltb_lt _ _) Lk) in K1. injection K1 as <-. cbn [fst snd Nat.add] in I2.
    apply in_map_iff in I2 as ([u v] & Q & I2). unfold to_global in Q. cbn [fst snd] in Q. injection Q as <- ->.
    destruct (nth_error_lt_Some _ m k Lk) as [p Hp]. destruct (F _ _ _ Hp K2) as [Lf X].
    apply keysr_in in I2 as [I2 I3]. pose proof (before_all P m k p Hp). unfold zlen in *. split; [lia|].
    destruct I3 as [->|[Hb I3]]; auto. apply X in I3; [|lia|lia]. destruct I3 as [->|I3]; auto. right.
    replace (Z.of_nat (nodes_before m k) + u) with (Z.of_nat (nodes_before m k + Z.to_nat u)) by lia. auto.
  - intros [G U]. destruct (find_rank P m (Z.to_nat g)) as (r & p & i & Hp & Li & E); [unfold zlen in *; lia|].
    destruct (nth_error_lt_Some _ fls r) as [fl Hf]; [apply nth_error_Some_lt in Hp; lia|].
    destruct (F _ _ _ Hp Hf) as [Lf X]. apply in_concat. eexists. split; [eapply nth_error_In, gkeys_nth; eauto|].
    apply in_map_iff. exists (Z.of_nat i, b). split; [unfold to_global; cbn; f_equal; lia|].
    apply keysr_in. split; [unfold zlen; lia|]. destruct U as [->|U]; auto.
    destruct (used_range m g b D U) as [_ Hb]. destruct (Z.eq_dec b 0); auto. right. split; [lia|].
    rewrite Nat2Z.id. apply X; auto; [lia|]. right. replace (Z.of_nat (nodes_before m r + i)) with g by lia. auto.
Qed.

Lemma NoDup_concat A (ll : list (list A)) : (forall r l, nth_error ll r = Some l -> NoDup l) ->
  (forall r s l l' x, nth_error ll r = Some l -> nth_error ll s = Some l' -> In x l -> In x l' -> r = s) -> NoDup (concat ll).
Proof.
  induction ll as [|l ll IH]; intros H1 H2; cbn; [constructor|]. apply NoDup_app_.
  - apply (H1 0%nat); auto.
  - apply IH; [intros r; apply (H1 (S r))|]. intros r s a b x A1 A2 A3 A4. specialize (H2 (S r) (S s) a b x A1 A2 A3 A4). lia.
  - intros x I J. apply in_concat in J as (y & J1 & J2). apply In_nth_error in J1 as [r J1].
    specialize (H2 0%nat (S r) l y x eq_refl J1 I J2). discriminate.
Qed.
Lemma gkeys_nodup m fls : good_flags m fls -> NoDup (concat (gkeys m fls)).
Proof.
  intros [L F].
  assert (G : forall r l, nth_error (gkeys m fls) r = Some l -> exists p fl, nth_error m r = Some p /\ nth_error fls r = Some fl /\ l = map (to_global (nodes_before m r)) (keysr fl)).
  { intros r l H. assert (Lr : (r < length m)%nat) by (apply nth_error_Some_lt in H; rewrite gkeys_len in H; auto).
    destruct (nth_error_lt_Some _ m r Lr) as [p Hp]. destruct (nth_error_lt_Some _ fls r) as [fl Hf]; [lia|].
    rewrite (gkeys_nth m fls r fl L Hf) in H. exists p, fl. repeat split; auto. congruence. }
  apply NoDup_concat.
  - intros r l H. destruct (G _ _ H) as (p & fl & _ & _ & ->). apply NoDup_map_; [|apply keysr_nodup].
    intros [u v] [u' v'] Q. unfold to_global in Q. cbn in Q. injection Q as Q1 Q2. f_equal; lia.
  - intros r s l l' [g b] H1 H2 I1 I2. destruct (G _ _ H1) as (p & fl & Hp & Hf & ->). destruct (G _ _ H2) as (q & fl' & Hq & Hf' & ->).
    apply in_map_iff in I1 as ([u v] & Q & I1). apply in_map_iff in I2 as ([u' v'] & Q' & I2).
    unfold to_global in *. cbn in *. apply keysr_in in I1 as [I1 _]. apply keysr_in in I2 as [I2 _].
    destruct (F _ _ _ Hp Hf) as [Lf _]. destruct (F _ _ _ Hq Hf') as [Lf' _]. unfold zlen in *.
    destruct (same_rank P m r s p q (Z.to_nat u) (Z.to_nat u')) as [E _]; auto; try lia.
    assert (Z.of_nat (nodes_before m r) + u = Z.of_nat (nodes_before m s) + u') by congruence. lia.
Qed.

Lemma zsum_keys m fls : length fls = length m -> forall r, zsum (firstn r (map zlen (map keysr fls))) = zlen (concat (firstn r (gkeys m fls))).
Proof.
  intros L r. rewrite zlen_concat. f_equal. rewrite <- firstn_map. f_equal. unfold gkeys.
  rewrite map_map. rewrite (map_map _ zlen).
  assert (X : forall (f : list Z -> Z) (g : nat * list Z -> Z) s, (forall i x, g (i, x) = f x) -> length s = length fls -> map g (combine s fls) = map f fls).
  { clear. intros f g s H. revert s. induction fls as [|x l IH]; intros [|i s] E; cbn in *; try discriminate; auto. rewrite H, IH; auto. }
  symmetry. apply X; [|rewrite seq_length; auto]. intros i x. unfold zlen. rewrite map_length. auto.
Qed.

Lemma in_nat A (l : list A) k x : nth_error l k = Some x -> (k < length l)%nat.
Proof. apply nth_error_Some_lt. Qed.

Lemma recreate_ok m : distributed m -> can_turn turn ->
  exists fls news, good_flags m fls /\ recreate turn m = Ok news /\ length news = length m /\
    forall r p new ks, nth_error m r = Some p -> nth_error news r = Some new -> nth_error (gkeys m fls) r = Some ks ->
      shows m true (concat (gkeys m fls)) r p (Some new) ks.
Proof.
  intros D CT. destruct (flags_ok P m D) as (fls & E0 & L0 & F0). exists fls. unfold recreate. rewrite E0. cbn [bind].
  assert (GF : good_flags m fls) by (split; auto).
  (* the numbers *)
  destruct (mapM_Ok_ex _ _ (fun q : part P * list Z => number_rows 0 (nOwn (fst q)) (snd q)) (combine m fls)) as [nums E1].
  { intros [p fl] I. apply in_combine_nth in I as (r & I1 & I2). cbn [fst snd]. apply number_rows_total. intros l Hl.
    destruct (F0 _ _ _ I1 I2) as [Lf X]. apply X; auto; lia. }
  rewrite E1. cbn [bind]. destruct (mapM_nth _ _ _ _ _ E1) as [L1 N1]. rewrite combine_length in L1.
  assert (R1 : forall r p fl, nth_error m r = Some p -> nth_error fls r = Some fl -> exists rows n, nth_error nums r = Some (rows, n) /\ number_rows 0 (zlen fl) fl = Ok (rows, n)).
  { intros r p fl Hp Hf. destruct (N1 r (p, fl)) as ([rows n] & Y1 & Y2); [apply nth_combine_eq; auto|]. cbn [fst snd] in Y1.
    destruct (F0 _ _ _ Hp Hf) as [Lf _]. exists rows, n. split; auto. replace (zlen fl) with (nOwn p) by (unfold nOwn, zlen; lia). auto. }
  (* the points *)
  destruct (mapM_Ok_ex _ _ (fun q : part P * (list (list (option Z)) * Z) => fill turn (fst q) (fst (snd q)) (snd (snd q))) (combine m nums)) as [sl E2].
  { intros [p [rows n]] I. apply in_combine_nth in I as (r & I1 & I2). cbn [fst snd].
    destruct (nth_error_lt_Some _ fls r) as [fl Hf]; [apply in_nat in I1; lia|].
    destruct (R1 _ _ _ I1 Hf) as (rows' & n' & Q & E). assert (rows' = rows /\ n' = n) as [-> ->] by (split; congruence).
    destruct (fill_ok P turn p fl rows n CT (proj1 (F0 _ _ _ I1 Hf)) E) as (st & Es & _). eauto. }
  rewrite E2. cbn [bind]. destruct (mapM_nth _ _ _ _ _ E2) as [L2 N2]. rewrite combine_length in L2.
  set (own := map (fun q : Z * (list (list (option Z)) * Z) => shift (fst q) (fst (snd q))) (combine (starts (map snd nums)) nums)).
  set (all := concat own).
  assert (SZ : map snd nums = map zlen (map keysr fls)).
  { apply nth_error_ext. intros r. rewrite !nth_error_map. destruct (nth_error fls r) as [fl|] eqn:Hf.
    - destruct (nth_error_lt_Some _ m r) as [p Hp]; [apply in_nat in Hf; lia|]. destruct (R1 _ _ _ Hp Hf) as (rows & n & Q & E).
      rewrite Q. cbn. destruct (rows_keys _ _ _ E) as [-> _]. auto.
    - apply nth_error_None in Hf. rewrite (proj2 (nth_error_None nums r)) by lia. auto. }
  assert (O1 : forall r p fl rows n, nth_error m r = Some p -> nth_error fls r = Some fl -> nth_error nums r = Some (rows, n) ->
     nth_error own r = Some (shift (zlen (concat (firstn r (gkeys m fls)))) rows)).
  { intros r p fl rows n Hp Hf Q. unfold own. rewrite nth_error_map.
    rewrite (nth_combine_eq _ _ (starts (map snd nums)) nums r (zlen (concat (firstn r (gkeys m fls)))) (rows, n)); auto.
    unfold starts. rewrite psums_nth by (rewrite map_length; apply in_nat in Q; lia). rewrite SZ, (zsum_keys m fls L0). f_equal. }
  assert (OL : length own = length m).
  { unfold own. rewrite map_length, combine_length. unfold starts. rewrite psums_length, map_length. lia. }
  (* the row of a node, by its global number *)
  assert (ROW : forall g, 0 <= g < zlen (all_nodes m) -> exists row, vget all g = Ok row /\ length row = 8%nat /\
     forall b, 0 <= b < 8 -> (b = 0 \/ used P m g b) -> exists k, nth_error row (Z.to_nat b) = Some (Some k) /\ 0 <= k /\ nth_error (concat (gkeys m fls)) (Z.to_nat k) = Some (g, b)).
  { intros g G. destruct (find_rank P m (Z.to_nat g)) as (r & p & i & Hp & Li & E); [unfold zlen in *; lia|].
    destruct (nth_error_lt_Some _ fls r) as [fl Hf]; [apply in_nat in Hp; lia|]. destruct (F0 _ _ _ Hp Hf) as [Lf Xf].
    destruct (R1 _ _ _ Hp Hf) as (rows & n & Q & E3). destruct (rows_keys _ _ _ E3) as (Nn & Lr & Rk).
    destruct (nth_error_lt_Some _ rows i) as [row Hrow]; [lia|]. destruct (Rk _ _ Hrow) as (R8 & R0 & RR).
    set (st := zlen (concat (firstn r (gkeys m fls)))) in *.
    exists (map (option_map (Z.add st)) row). split; [|split; [rewrite map_length; auto|]].
    - apply vget_Ok. split; [lia|]. rewrite E.
      assert (PRE : nodes_before m r = length (concat (firstn r own))).
      { assert (LL : map (@length _) own = map (fun p => length (p_nodes p)) m).
        { apply nth_error_ext. intros s. rewrite !nth_error_map. destruct (nth_error m s) as [q|] eqn:Hq.
          - destruct (nth_error_lt_Some _ fls s) as [fl' Hf']; [apply in_nat in Hq; lia|]. destruct (R1 _ _ _ Hq Hf') as (rows' & n' & Q' & E').
            rewrite (O1 _ _ _ _ _ Hq Hf' Q'). cbn. f_equal. unfold shift. rewrite map_length.
            destruct (rows_keys _ _ _ E') as (_ & LL & _). rewrite LL. apply (F0 _ _ _ Hq Hf').
          - apply nth_error_None in Hq. rewrite (proj2 (nth_error_None own s)) by lia. auto. }
        assert (CL : forall A (ll : list (list A)), length (concat ll) = list_sum (map (@length A) ll)).
        { clear. induction ll; auto. cbn. rewrite app_length. f_equal. auto. }
        unfold nodes_before, all_nodes. rewrite !CL, map_map, <- !firstn_map, LL. auto. }
      rewrite PRE. unfold all. rewrite (nth_error_concat _ own r i (shift st rows)).
      + unfold shift. rewrite nth_error_map, Hrow. auto.
      + eapply O1; eauto.
      + unfold shift. rewrite map_length. lia.
    - intros b Hb U. assert (IK : In (Z.of_nat i, b) (keysr fl)).
      { apply keysr_in. split; [unfold zlen; lia|]. destruct U as [->|U]; auto. destruct (Z.eq_dec b 0); auto. right. split; [lia|].
        rewrite Nat2Z.id. apply Xf; auto; [lia|]. right. replace (Z.of_nat (nodes_before m r + i)) with g by lia. auto. }
      apply In_nth_error in IK as [k IK]. exists (st + Z.of_nat k). split; [|split].
      + rewrite nth_error_map. rewrite (proj2 (RR b Hb (Z.of_nat k))); auto. rewrite Nat2Z.id. split; [lia|auto].
      + unfold st, zlen. lia.
      + unfold st, zlen. rewrite Z2Nat.inj_add, !Nat2Z.id by lia.
        rewrite (nth_error_concat _ _ r k (map (to_global (nodes_before m r)) (keysr fl))).
        * rewrite nth_error_map, IK. cbn. unfold to_global. cbn. do 2 f_equal. lia.
        * apply gkeys_nth; auto.
        * rewrite map_length. apply in_nat in IK. auto. }
  (* the cells *)
  assert (CELL : forall r p ow c j, nth_error m r = Some p -> nth_error own r = Some ow -> nth_error (p_cells p) j = Some c ->
    exists row, recreate_cell p ow all c = Ok row /\ length row = length (c_nodes c) /\
      forall n id, nth_error row n = Some id -> exists g b, has_corner m true r c n g b /\ 0 <= id /\ nth_error (concat (gkeys m fls)) (Z.to_nat id) = Some (g, b)).
  { intros r p ow c j Hp Ho Hc. destruct (d_cells _ _ D r j c p) as (_ & _ & Lb & Fn & Fb); [exists p; auto|auto|].
    unfold recreate_cell, corners. rewrite zip_ok by auto. cbn [bind].
    assert (ONE : forall n l b, nth_error (c_nodes c) n = Some l -> nth_error (c_bits c) n = Some b ->
      exists g k, corner p ow all (l, b) = Ok k /\ has_corner m true r c n g b /\ 0 <= k /\ nth_error (concat (gkeys m fls)) (Z.to_nat k) = Some (g, b)).
    { intros n l b Hl Hb. rewrite Forall_forall in Fn, Fb. specialize (Fn l (nth_error_In _ _ Hl)). specialize (Fb b (nth_error_In _ _ Hb)).
      assert (NN : exists g, node_number m r l g /\ row_of p ow all l = vget all g).
      { unfold row_of. destruct (Z.ltb_spec l (nOwn p)) as [Lo|Lo].
        - exists (Z.of_nat (nodes_before m r) + l). split; [exists p; split; auto; left; split; auto; lia|].
          assert (Lf : exists row, nth_error ow (Z.to_nat l) = Some row /\ nth_error all (nodes_before m r + Z.to_nat l) = Some row).
          { destruct (nth_error_lt_Some _ fls r) as [fl Hf]; [apply in_nat in Hp; lia|]. destruct (R1 _ _ _ Hp Hf) as (rows & nn & Q & E3).
            destruct (ROW (Z.of_nat (nodes_before m r) + l)) as (row & V & _). { pose proof (before_all P m r p Hp). unfold nOwn, zlen in *. lia. }
            apply vget_Ok in V as [_ V]. replace (Z.to_nat (Z.of_nat (nodes_before m r) + l)) with (nodes_before m r + Z.to_nat l)%nat in V by lia.
            exists row. split; auto.
            assert (LL : map (@length _) own = map (fun p => length (p_nodes p)) m).
            { apply nth_error_ext. intros s. rewrite !nth_error_map. destruct (nth_error m s) as [q|] eqn:Hq.
              - destruct (nth_error_lt_Some _ fls s) as [fl' Hf']; [apply in_nat in Hq; lia|]. destruct (R1 _ _ _ Hq Hf') as (rows' & n' & Q' & E').
                rewrite (O1 _ _ _ _ _ Hq Hf' Q'). cbn. f_equal. unfold shift. rewrite map_length.
                destruct (rows_keys _ _ _ E') as (_ & LL & _). rewrite LL. apply (F0 _ _ _ Hq Hf').
              - apply nth_error_None in Hq. rewrite (proj2 (nth_error_None own s)) by lia. auto. }
            assert (CL : forall A (ll : list (list A)), length (concat ll) = list_sum (map (@length A) ll)).
            { clear. induction ll; auto. cbn. rewrite app_length. f_equal. auto. }
            assert (PRE : nodes_before m r = length (concat (firstn r own))).
            { unfold nodes_before, all_nodes. rewrite !CL, map_map, <- !firstn_map, LL. auto. }
            assert (LO : length ow = length (p_nodes p)).
            { pose proof (f_equal (fun l => nth_error l r) LL) as X. cbn beta in X. rewrite !nth_error_map, Ho, Hp in X. cbn in X. congruence. }
            unfold all in V. rewrite PRE in V. rewrite (nth_error_concat _ own r (Z.to_nat l) ow) in V; auto. unfold nOwn, zlen in *. lia. }
          destruct Lf as (row & A1 & A2). unfold vget.
          destruct (Z.ltb_spec l 0); [lia|]. destruct (Z.ltb_spec (Z.of_nat (nodes_before m r) + l) 0); [lia|].
          replace (Z.to_nat (Z.of_nat (nodes_before m r) + l)) with (nodes_before m r + Z.to_nat l)%nat by lia. rewrite A1, A2. auto.
        - destruct (vget_ok _ (p_ghosts p) (l - nOwn p)) as (g & V1 & V2); [lia|]. rewrite V1. cbn [bind]. exists g. split; auto.
          exists p. split; auto. }
      destruct NN as (g & G & RO). assert (HC : has_corner m true r c n g b) by (exists l; auto).
      assert (U : used P m g b) by (exists r, j, c, n; split; auto; exists p; auto).
      destruct (used_range m g b D U) as [Gr _]. destruct (ROW g Gr) as (row & V & R8 & RK).
      unfold corner. cbn [fst snd]. rewrite RO, V. cbn [bind].
      destruct (RK 0 ltac:(lia) (or_introl eq_refl)) as (k0 & K0 & K1 & K2). cbn [Z.to_nat] in K0.
      assert (V0 : vget row 0 = Ok (Some k0)) by (apply vget_Ok; split; [lia|auto]). rewrite V0. cbn [bind].
      destruct (Z.eqb_spec b 0) as [->|Nb].
      - exists g, k0. repeat split; auto.
      - destruct (RK b Fb (or_intror U)) as (k & Q0 & Q1 & Q2).
        assert (Vb : vget row b = Ok (Some k)) by (apply vget_Ok; split; [lia|auto]). rewrite Vb. cbn [bind]. exists g, k. repeat split; auto. }
    destruct (mapM_Ok_ex _ _ (corner p ow all) (combine (c_nodes c) (c_bits c))) as [row E].
    { intros [l b] I. apply in_combine_nth in I as (n & I1 & I2). destruct (ONE _ _ _ I1 I2) as (g & k & A & _). eauto. }
    exists row. split; auto. destruct (mapM_nth _ _ _ _ _ E) as [LR NR]. rewrite combine_length in LR. split; [lia|].
    intros n id Hn. assert (Ln : (n < length (c_nodes c))%nat) by (apply in_nat in Hn; lia).
    destruct (nth_error_lt_Some _ (c_nodes c) n Ln) as [l Hl]. destruct (nth_error_lt_Some _ (c_bits c) n) as [b Hb]; [lia|].
    destruct (NR n (l, b)) as (y & Y1 & Y2); [apply nth_combine_eq; auto|]. assert (y = id) by congruence. subst y.
    destruct (ONE _ _ _ Hl Hb) as (g & k & A1 & A2 & A3 & A4). assert (k = id) by congruence. subst k. eauto. }
  destruct (mapM_Ok_ex _ _ (fun q : part P * list (list (option Z)) => mapM (recreate_cell (fst q) (snd q) all) (p_cells (fst q))) (combine m own)) as [cs E3].
  { intros [p ow] I. apply in_combine_nth in I as (r & I1 & I2). cbn [fst snd]. apply mapM_Ok_ex. intros c Ic. apply In_nth_error in Ic as [j Ic].
    destruct (CELL _ _ _ _ _ I1 I2 Ic) as (row & A & _). eauto. }
  rewrite E3. cbn [bind]. destruct (mapM_nth _ _ _ _ _ E3) as [L3 N3]. rewrite combine_length in L3.
  eexists. split; [exact GF|]. split; [reflexivity|]. split; [rewrite map_length, combine_length; lia|].
  intros r p new ks Hp Hn Hk. rewrite nth_error_map in Hn. destruct (nth_error (combine sl cs) r) as [[st rows]|] eqn:Q; [|discriminate].
  cbn in Hn. injection Hn as <-. apply nth_combine_some in Q as [Hs Hc].
  destruct (nth_error_lt_Some _ fls r) as [fl Hf]; [apply in_nat in Hp; lia|]. destruct (F0 _ _ _ Hp Hf) as [Lf Xf].
  rewrite (gkeys_nth m fls r fl L0 Hf) in Hk. injection Hk as <-.
  destruct (R1 _ _ _ Hp Hf) as (nrows & n & Qn & En).
  destruct (fill_ok P turn p fl nrows n CT Lf En) as (st' & Es & Ls & Fs).
  destruct (N2 r (p, (nrows, n))) as (y & Y1 & Y2); [apply nth_combine_eq; auto|]. cbn [fst snd] in Y1.
  assert (st' = st) by congruence. subst st'.
  destruct (nth_error_lt_Some _ own r) as [ow Ho]; [apply in_nat in Hp; lia|].
  destruct (N3 r (p, ow)) as (rows' & Z1 & Z2); [apply nth_combine_eq; auto|]. cbn [fst snd] in Z1.
  assert (rows' = rows) by congruence. subst rows'. destruct (mapM_nth _ _ _ _ _ Z1) as [L4 N4].
  assert (KEY : forall k g b, nth_error (map (to_global (nodes_before m r)) (keysr fl)) k = Some (g, b) -> exists i x y, 0 <= i < nOwn p /\ g = Z.of_nat (nodes_before m r) + i /\
     nth_error (p_nodes p) (Z.to_nat i) = Some x /\ nth_error st k = Some (Some y, i) /\ (if b =? 0 then y = x else turn x b = Ok y)).
  { intros k g b H. rewrite nth_error_map in H. destruct (nth_error (keysr fl) k) as [[i v]|] eqn:Hi; [|discriminate]. cbn in H.
    unfold to_global in H. cbn in H. injection H as <- <-. destruct (Fs _ _ _ Hi) as (s & S1 & x & y' & X1 & -> & X3).
    apply nth_error_In in Hi. apply keysr_in in Hi as [Hi _]. exists i, x, y'. repeat split; auto; unfold nOwn, zlen in *; lia. }
  split.
  - unfold out_size. cbn. unfold zlen. rewrite map_length. lia.
  - unfold out_points. cbn. rewrite !map_length. auto.
  - intros k g b H. destruct (KEY _ _ _ H) as (i & x & y' & Hi & -> & X1 & X2 & X3). exists y'. unfold out_points. cbn [snd n_slots]. rewrite nth_error_map, X2. split; auto.
    exists x. split; [lia|]. split; auto. replace (Z.to_nat (Z.of_nat (nodes_before m r) + i)) with (nodes_before m r + Z.to_nat i)%nat by lia.
    rewrite (all_nth P m r p); auto. unfold nOwn, zlen in *. lia.
  - intros. unfold point_values. cbn [snd n_slots]. rewrite !map_length. auto.
  - intros k g b H. destruct (KEY _ _ _ H) as (i & x & y' & Hi & -> & X1 & X2 & X3). exists i. split; auto. split; auto.
    intros. unfold point_values. cbn [snd n_slots]. rewrite nth_error_map, X2. auto.
  - split; auto. cbn [n_cells]. split; auto. intros j c row Hj Hr. destruct (CELL _ _ _ _ _ Hp Ho Hj) as (row' & A1 & A2 & A3).
    destruct (N4 _ _ Hj) as (row2 & B1 & B2). assert (row' = row) by congruence. subst row'. auto.
Qed.

(** A mesh that is not periodic. *)
Definition plain_keys m : list (list (Z * Z)) :=
  map (fun q => map (fun i => (Z.of_nat (nodes_before m (fst q) + i), 0)) (seq 0 (length (p_nodes (snd q))))) (combine (seq 0 (length m)) m).
Lemma plain_nth m r p : nth_error m r = Some p ->
  nth_error (plain_keys m) r = Some (map (fun i => (Z.of_nat (nodes_before m r + i), 0)) (seq 0 (length (p_nodes p)))).
Proof.
  intros H. unfold plain_keys. rewrite nth_error_map. assert (Lr : (r < length m)%nat) by (apply in_nat in H; lia).
  rewrite (nth_combine_eq _ _ _ _ r r p); auto. rewrite nth_error_seq, (proj2 (Nat.ltb_lt _ _) Lr). auto.
Qed.
Lemma plain_concat m : concat (plain_keys m) = map (fun i => (Z.of_nat i, 0)) (seq 0 (length (all_nodes m))).
Proof.
  unfold plain_keys.
  assert (X : forall l a, concat (map (fun q : nat * part P => map (fun i => (Z.of_nat (a + nodes_before l (fst q) + i), 0)) (seq 0 (length (p_nodes (snd q))))) (combine (seq 0 (length l)) l)) =
     map (fun i => (Z.of_nat (a + i), 0)) (seq 0 (length (all_nodes l)))).
  { induction l as [|p l IH]; intros a; auto. cbn [length seq combine map concat fst snd]. rewrite <- seq_shift.
    assert (C : forall A (ss : list nat) (ll : list A), combine (map S ss) ll = map (fun q => (S (fst q), snd q)) (combine ss ll)).
    { clear. induction ss; intros [|]; cbn; auto. rewrite IHss. auto. }
    rewrite C, map_map. cbn [fst snd]. unfold all_nodes. cbn [map concat]. rewrite app_length, seq_app, map_app. f_equal.
    - unfold nodes_before. cbn. apply map_ext. intros. do 2 f_equal. lia.
    - cbn [Nat.add]. transitivity (map (fun i => (Z.of_nat (a + length (p_nodes p) + i), 0)) (seq 0 (length (all_nodes l)))).
      + rewrite <- IH. f_equal. apply map_ext. intros [s q]. cbn [fst snd]. apply map_ext. intros i. do 2 f_equal.
        unfold nodes_before, all_nodes. cbn [firstn map concat]. rewrite app_length. lia.
      + unfold all_nodes. generalize (length (concat (map p_nodes l))) as k. generalize (length (p_nodes p)) as d. clear. intros d k.
        apply nth_error_ext. intros i. rewrite !nth_error_map, !nth_error_seq. destruct (Nat.ltb_spec i k); cbn; auto. do 3 f_equal. lia. }
  specialize (X m 0%nat). cbn [Nat.add] in X. exact X.
Qed.
Lemma plain_ok m r p ks : distributed m -> nth_error m r = Some p -> nth_error (plain_keys m) r = Some ks -> shows m false (concat (plain_keys m)) r p None ks.
Proof.
  intros D Hp Hk. rewrite (plain_nth m r p Hp) in Hk. injection Hk as <-.
  assert (KEY : forall k g b, nth_error (map (fun i => (Z.of_nat (nodes_before m r + i), 0)) (seq 0 (length (p_nodes p)))) k = Some (g, b) ->
    (k < length (p_nodes p))%nat /\ g = Z.of_nat (nodes_before m r + k) /\ b = 0).
  { intros k g b H. rewrite nth_error_map, nth_error_seq in H. destruct (Nat.ltb_spec k (length (p_nodes p))); [|discriminate]. cbn in H. injection H as <- <-. auto. }
  split.
  - unfold out_size, nOwn, zlen. cbn. rewrite map_length, seq_length. auto.
  - unfold out_points. cbn. rewrite !map_length, seq_length. auto.
  - intros k g b H. destruct (KEY _ _ _ H) as (L & -> & ->). destruct (nth_error_lt_Some _ _ _ L) as [x Hx]. exists x. unfold out_points. cbn [fst snd].
    rewrite nth_error_map, Hx. split; auto. exists x. split; [lia|]. rewrite Nat2Z.id. split; [|cbn; auto]. rewrite (all_nth P m r p); auto.
  - intros. unfold point_values. cbn. rewrite !map_length. auto.
  - intros k g b H. destruct (KEY _ _ _ H) as (L & -> & ->). exists (Z.of_nat k). split; [unfold nOwn, zlen; lia|]. split; [lia|].
    intros. unfold point_values. cbn [fst snd]. rewrite nth_error_map, nth_error_seq, (proj2 (Nat.ltb_lt _ _) L). auto.
  - auto.
Qed.
End Recreate.
