From Coq Require Import ZArith List Bool Lia.
From Verif Require Import Base.Prelude Base.PreludeFacts DNDS.BatchModel DNDS.BatchSpec.
Import ListNotations.
Open Scope Z_scope.

(** ** Bit fields *)
Lemma bit_mod n x i : 0 <= n -> 0 <= i -> Z.testbit (x mod 2 ^ n) i = (i <? n) && Z.testbit x i.
Proof.
  intros Hn Hi. destruct (Z.ltb_spec i n).
  - rewrite Z.mod_pow2_bits_low by lia. reflexivity.
  - rewrite Z.mod_pow2_bits_high by lia. reflexivity.
Qed.
Lemma bit_small n v i : 0 <= v < 2 ^ n -> n <= i -> Z.testbit v i = false.
Proof.
  intros H Hi. destruct (Z.eq_dec v 0) as [->|N]; [apply Z.bits_0|].
  apply Z.bits_above_log2; [lia|]. apply Z.log2_lt_pow2; [lia|].
  eapply Z.lt_le_trans; [apply H|]. apply Z.pow_le_mono_r; lia.
Qed.
Lemma bit_ones n i : 0 <= n -> 0 <= i -> Z.testbit (Z.ones n) i = (i <? n).
Proof. intros. apply Z.testbit_ones_nonneg; auto. Qed.

Lemma mask_A : 0x000000000000FFFF = Z.ones 16. Proof. reflexivity. Qed.
Lemma mask_B : 0x00000000FFFF0000 = Z.shiftl (Z.ones 16) 16. Proof. reflexivity. Qed.
Lemma mask_nA : 0xFFFFFFFFFFFF0000 = Z.shiftl (Z.ones 48) 16. Proof. reflexivity. Qed.
Lemma mask_nB : 0xFFFFFFFF0000FFFF = Z.lor (Z.shiftl (Z.ones 32) 32) (Z.ones 16). Proof. reflexivity. Qed.
Lemma mask_nN : 0x00000000FFFFFFFF = Z.ones 32. Proof. reflexivity. Qed.

Lemma getA_setA d v : 0 <= v < 2 ^ 16 -> getA (setA d v) = v.
Proof.
  intros H. unfold getA, setA, uint16. rewrite mask_A, mask_nA.
  apply Z.bits_inj'. intros i Hi.
  rewrite bit_mod, Z.land_spec, Z.lor_spec, Z.land_spec, Z.shiftl_spec, (bit_ones 16 i) by lia.
  destruct (Z.ltb_spec i 16).
  - rewrite (Z.testbit_neg_r (Z.ones 48) (i - 16)) by lia.
    rewrite andb_false_r, orb_false_l, andb_true_r. reflexivity.
  - symmetry. apply (bit_small 16); lia.
Qed.
Lemma getB_setA d v : 0 <= v < 2 ^ 16 -> getB (setA d v) = getB d.
Proof.
  intros H. unfold getB, setA, uint16. rewrite mask_B, mask_nA.
  apply Z.bits_inj'. intros i Hi.
  rewrite !bit_mod, !Z.shiftr_spec, !Z.land_spec, Z.lor_spec, Z.land_spec, !Z.shiftl_spec by lia.
  destruct (Z.ltb_spec i 16); [|reflexivity]. cbn [andb].
  rewrite !bit_ones by lia. rewrite (bit_small 16 v (i + 16)) by lia.
  destruct (Z.ltb_spec (i + 16 - 16) 48); [|lia].
  rewrite andb_true_r, orb_false_r. reflexivity.
Qed.
Lemma getN_setA d v : 0 <= v < 2 ^ 16 -> getN (setA d v) = getN d.
Proof.
  intros H. unfold getN, setA, uint32. rewrite mask_nA.
  apply Z.bits_inj'. intros i Hi.
  rewrite !bit_mod, !Z.shiftr_spec, Z.lor_spec, Z.land_spec, !Z.shiftl_spec by lia.
  destruct (Z.ltb_spec i 32); [|reflexivity]. cbn [andb].
  rewrite !bit_ones by lia. rewrite (bit_small 16 v (i + 32)) by lia.
  destruct (Z.ltb_spec (i + 32 - 16) 48); [|lia].
  rewrite andb_true_r, orb_false_r. reflexivity.
Qed.
Lemma getB_setB d v : 0 <= v < 2 ^ 16 -> getB (setB d v) = v.
Proof.
  intros H. unfold getB, setB, uint16. rewrite mask_B, mask_nB.
  apply Z.bits_inj'. intros i Hi.
  rewrite !bit_mod, !Z.shiftr_spec, !Z.land_spec, Z.lor_spec, Z.land_spec, Z.lor_spec, !Z.shiftl_spec by lia.
  destruct (Z.ltb_spec i 16).
  - cbn [andb]. rewrite (bit_ones 16 (i + 16)), (bit_ones 16 (i + 16 - 16)) by lia.
    rewrite (Z.testbit_neg_r (Z.ones 32) (i + 16 - 32)) by lia.
    destruct (Z.ltb_spec (i + 16) 16); [lia|]. destruct (Z.ltb_spec (i + 16 - 16) 16); [|lia].
    cbn [orb]. rewrite andb_false_r, andb_true_r. cbn [orb]. f_equal. lia.
  - symmetry. apply (bit_small 16); lia.
Qed.
Lemma getA_setB d v : 0 <= v < 2 ^ 16 -> getA (setB d v) = getA d.
Proof.
  intros H. unfold getA, setB, uint16. rewrite mask_A, mask_nB.
  apply Z.bits_inj'. intros i Hi.
  rewrite !bit_mod, !Z.land_spec, Z.lor_spec, Z.land_spec, Z.lor_spec, !Z.shiftl_spec by lia.
  destruct (Z.ltb_spec i 16); [|reflexivity].
  cbn [andb]. rewrite !(bit_ones 16 i) by lia.
  rewrite (Z.testbit_neg_r (Z.ones 32) (i - 32)) by lia.
  rewrite (Z.testbit_neg_r v) by lia.
  destruct (Z.ltb_spec i 16); [|lia]. cbn [orb].
  rewrite !andb_true_r, orb_false_r. reflexivity.
Qed.
Lemma getN_setB d v : 0 <= v < 2 ^ 16 -> getN (setB d v) = getN d.
Proof.
  intros H. unfold getN, setB, uint32. rewrite mask_nB.
  apply Z.bits_inj'. intros i Hi.
  rewrite !bit_mod, !Z.shiftr_spec, Z.lor_spec, Z.land_spec, Z.lor_spec, !Z.shiftl_spec by lia.
  destruct (Z.ltb_spec i 32); [|reflexivity]. cbn [andb].
  rewrite !bit_ones by lia. rewrite (bit_small 16 v (i + 32 - 16)) by lia.
  destruct (Z.ltb_spec (i + 32 - 32) 32); [|lia]. cbn [orb].
  rewrite andb_true_r, orb_false_r. reflexivity.
Qed.
Lemma getN_setN d v : 0 <= v < 2 ^ 32 -> getN (setN d v) = v.
Proof.
  intros H. unfold getN, setN, uint32. rewrite mask_nN.
  apply Z.bits_inj'. intros i Hi.
  rewrite !bit_mod, !Z.shiftr_spec, Z.lor_spec, Z.land_spec, !Z.shiftl_spec, bit_ones by lia.
  destruct (Z.ltb_spec i 32).
  - destruct (Z.ltb_spec (i + 32) 32); [lia|]. rewrite andb_false_r. cbn [andb orb]. f_equal. lia.
  - symmetry. apply (bit_small 32); lia.
Qed.
Lemma getA_setN d v : 0 <= v < 2 ^ 32 -> getA (setN d v) = getA d.
Proof.
  intros H. unfold getA, setN, uint16. rewrite mask_nN, mask_A.
  apply Z.bits_inj'. intros i Hi.
  rewrite !bit_mod, !Z.land_spec, Z.lor_spec, Z.land_spec, !Z.shiftl_spec, !bit_ones by lia.
  destruct (Z.ltb_spec i 16); [|reflexivity].
  destruct (Z.ltb_spec i 32); [|lia]. rewrite (Z.testbit_neg_r v) by lia.
  rewrite !andb_true_r, orb_false_r. reflexivity.
Qed.
Lemma getB_setN d v : 0 <= v < 2 ^ 32 -> getB (setN d v) = getB d.
Proof.
  intros H. unfold getB, setN, uint16. rewrite mask_nN, mask_B.
  apply Z.bits_inj'. intros i Hi.
  rewrite !bit_mod, !Z.shiftr_spec, !Z.land_spec, Z.lor_spec, Z.land_spec, !Z.shiftl_spec by lia.
  destruct (Z.ltb_spec i 16); [|reflexivity]. cbn [andb].
  rewrite !bit_ones by lia.
  destruct (Z.ltb_spec (i + 16) 32); [|lia]. rewrite (Z.testbit_neg_r v) by lia.
  rewrite !andb_true_r, orb_false_r. reflexivity.
Qed.

(** ** Words *)
Lemma vget_nat {A} (l : list A) i : (i < length l)%nat ->
  exists x, vget l (Z.of_nat i) = Ok x /\ nth_error l i = Some x.
Proof.
  intros H. destruct (nth_error_lt_Some _ _ _ H) as [x E]. exists x. split; [|exact E].
  unfold vget. rewrite Nat2Z.id, E. destruct (Z.ltb_spec (Z.of_nat i) 0); [lia|reflexivity].
Qed.
Lemma vset_nat {A} (l : list A) i x : (i < length l)%nat -> vset l (Z.of_nat i) x = Ok (upd i x l).
Proof.
  intros H. unfold vset. rewrite Nat2Z.id.
  destruct (Z.ltb_spec (Z.of_nat i) 0); [lia|].
  destruct (Z.leb_spec (Z.of_nat (length l)) (Z.of_nat i)); [lia|reflexivity].
Qed.

Lemma set_header_ok f buf k v : (S k < length buf)%nat ->
  exists d, nth_error buf (S k) = Some d /\
    set_header f buf (Z.of_nat k) v = Ok (upd (S k) (f d v) buf).
Proof.
  intros H. unfold set_header, zlen.
  destruct (Z.ltb_spec (Z.of_nat k) (Z.of_nat (length buf) - 1)); [|lia]. cbn [assert_ bind].
  replace (Z.of_nat k + 1) with (Z.of_nat (S k)) by lia.
  destruct (vget_nat buf (S k) H) as (d & E & N). rewrite E. cbn [bind].
  exists d. split; [exact N|]. apply vset_nat, H.
Qed.
Lemma header_ok f buf k d : nth_error buf (S k) = Some d ->
  header f buf (Z.of_nat k) = Ok (f d).
Proof.
  intros N. assert (H : (S k < length buf)%nat) by (apply nth_error_Some; congruence).
  unfold header, zlen.
  destruct (Z.ltb_spec (Z.of_nat k) (Z.of_nat (length buf) - 1)); [|lia]. cbn [assert_ bind].
  replace (Z.of_nat k + 1) with (Z.of_nat (S k)) by lia.
  destruct (vget_nat buf (S k) H) as (d' & E & N'). rewrite E. cbn [bind]. congruence.
Qed.

(** Writing [es] at [o]. *)
Lemma write_run (es : list Z) : forall (n : nat) s buf o,
  (n = length es - s)%nat -> (s <= length es)%nat -> (o + length es <= length buf)%nat ->
  exists b, foldM (fun b j => do e <- vget es (Z.of_nat j); vset b (Z.of_nat o + Z.of_nat j) e)
        buf (seq s n) = Ok b /\
    length b = length buf /\
    forall i, nth_error b i = if ((o + s <=? i) && (i <? o + length es))%nat
                              then nth_error es (i - o) else nth_error buf i.
Proof.
  induction n as [|n IH]; intros s buf o Hn Hs Hb; cbn [seq foldM].
  - exists buf. split; [reflexivity|]. split; [reflexivity|]. intros i.
    destruct (Nat.leb_spec (o + s) i), (Nat.ltb_spec i (o + length es)); cbn [andb]; try reflexivity; lia.
  - destruct (vget_nat es s) as (e & E & N); [lia|]. rewrite E. cbn [bind].
    replace (Z.of_nat o + Z.of_nat s) with (Z.of_nat (o + s)) by lia.
    rewrite vset_nat by lia. cbn [bind].
    destruct (IH (S s) (upd (o + s) e buf) o) as (b & F & L & V); [lia|lia|rewrite upd_length; lia|].
    exists b. split; [exact F|]. split; [rewrite L; apply upd_length|].
    intros i. rewrite V. 
    destruct (Nat.leb_spec (o + S s) i), (Nat.leb_spec (o + s) i),
      (Nat.ltb_spec i (o + length es)); cbn [andb]; try reflexivity; try lia.
    all: try (rewrite nth_error_upd_other by lia; reflexivity).
    replace i with (o + s)%nat by lia. rewrite nth_error_upd_same by lia.
    replace (o + s - o)%nat with s by lia. congruence.
Qed.

Definition msize (m : matrix) : nat := length (entries m).

Lemma msize_eq m : wf_matrix m -> Z.to_nat (rows m * cols m) = msize m /\ rows m * cols m = Z.of_nat (msize m).
Proof. intros (A & B & C). unfold msize, zlen in *. lia. Qed.

Lemma map_write_ok buf p m o : wf_matrix m -> moff p = Z.of_nat o -> mrows p = rows m -> mcols p = cols m ->
  (o + msize m <= length buf)%nat ->
  exists b, map_write buf p m = Ok b /\ length b = length buf /\
    forall i, nth_error b i = if ((o <=? i) && (i <? o + msize m))%nat
                              then nth_error (entries m) (i - o) else nth_error buf i.
Proof.
  intros W O R C H. unfold map_write. rewrite R, C, !Z.eqb_refl. cbn [andb assert_ bind].
  destruct (msize_eq m W) as [E _]. rewrite E, O. unfold msize in *.
  destruct (write_run (entries m) (length (entries m)) 0 buf o) as (b & F & L & V); try lia.
  exists b. split; [exact F|]. split; [exact L|]. intros i. rewrite V, Nat.add_0_r. reflexivity.
Qed.

Lemma map_read_ok buf p m o : wf_matrix m -> moff p = Z.of_nat o -> mrows p = rows m -> mcols p = cols m ->
  (forall e, (e < msize m)%nat -> nth_error buf (o + e) = nth_error (entries m) e) ->
  map_read buf p = Ok m.
Proof.
  intros W O R C H. unfold map_read. rewrite R, C, O.
  destruct (msize_eq m W) as [E _]. rewrite E.
  assert (G : forall n s, (s + n = msize m)%nat ->
     mapM (fun j => vget buf (Z.of_nat o + Z.of_nat j)) (seq s n) = Ok (skipn s (entries m))).
  { induction n as [|n IH]; intros s Hs; cbn [seq mapM].
    - rewrite skipn_all2 by (unfold msize in Hs; lia). reflexivity.
    - assert (L : (s < length (entries m))%nat) by (unfold msize in Hs; lia).
      destruct (nth_error_lt_Some _ _ _ L) as [x X].
      replace (Z.of_nat o + Z.of_nat s) with (Z.of_nat (o + s)) by lia.
      assert (B : nth_error buf (o + s) = Some x) by (rewrite H by (unfold msize in *; lia); exact X).
      destruct (vget_nat buf (o + s)) as (y & Y & Y'); [apply nth_error_Some; congruence|].
      rewrite Y. cbn [bind]. rewrite IH by lia. cbn [bind]. f_equal.
      replace y with x by congruence.
      clear -X. revert s X. induction (entries m) as [|a l IH]; intros [|s] X; cbn in *; try discriminate.
      + congruence.
      + apply IH, X. }
  rewrite (G (msize m) 0%nat) by lia. cbn [bind skipn]. destruct m; reflexivity.
Qed.

(** ** Sizes *)
Lemma zsum_cons x l : zsum (x :: l) = x + zsum l.
Proof. reflexivity. Qed.
Lemma zsum_nil : zsum [] = 0.
Proof. reflexivity. Qed.

Lemma zsum_nonneg ms : Forall (fun m => wf_matrix m /\ rows m < UINT16_MAX /\ cols m < UINT16_MAX) ms ->
  0 <= zsum (map (fun m => rows m * cols m) ms).
Proof.
  induction 1 as [|x l ((A & B & _) & _) F IH]; cbn [map]; rewrite ?zsum_cons, ?zsum_nil; [lia|].
  nia.
Qed.

Lemma bufsize_run ms : forall acc, 0 <= acc ->
  Forall (fun m => wf_matrix m /\ rows m < UINT16_MAX /\ cols m < UINT16_MAX) ms ->
  acc + zsum (map (fun m => rows m * cols m) ms) < DNDS_ROWSIZE_MAX ->
  foldM (fun bufSiz m =>
    let mSiz := rows m * cols m in
    do _ <- assert_ ((mSiz + bufSiz <? DNDS_ROWSIZE_MAX)
                     && (rows m <? UINT16_MAX) && (cols m <? UINT16_MAX));
    Ok (bufSiz + mSiz)) acc ms = Ok (acc + zsum (map (fun m => rows m * cols m) ms)).
Proof.
  induction ms as [|m ms IH]; intros acc Ha F H; cbn [foldM map] in *; rewrite ?zsum_cons, ?zsum_nil in *.
  - f_equal. lia.
  - inversion F as [|? ? (W & R & C) F']; subst.
    assert (P : 0 <= rows m * cols m) by (destruct W as (A & B & _); nia).
    pose proof (zsum_nonneg ms F') as Q.
    destruct (Z.ltb_spec (rows m * cols m + acc) DNDS_ROWSIZE_MAX); [|lia].
    destruct (Z.ltb_spec (rows m) UINT16_MAX); [|lia].
    destruct (Z.ltb_spec (cols m) UINT16_MAX); [|lia]. cbn [andb assert_ bind].
    rewrite IH; [f_equal; lia|lia|exact F'|lia].
Qed.

Lemma bufsize_ok ms : packable ms -> getBufSize ms = Ok (words ms).
Proof.
  intros (L & F). unfold getBufSize, words in *. pose proof (zsum_nonneg ms F).
  assert (0 <= zlen ms) by (unfold zlen; lia).
  destruct (Z.ltb_spec (zlen ms) DNDS_ROWSIZE_MAX); [|lia]. cbn [assert_ bind].
  rewrite bufsize_run; [f_equal; lia|lia|exact F|lia].
Qed.

Lemma bufsize_inv ms s : Forall wf_matrix ms -> getBufSize ms = Ok s -> (words ms < DNDS_ROWSIZE_MAX \/ ms = []) /\ s = words ms /\
  Forall (fun m => wf_matrix m /\ rows m < UINT16_MAX /\ cols m < UINT16_MAX) ms.
Proof.
  intros W E. unfold getBufSize in E. inv_bind. subst.
  assert (G : forall ms acc s, Forall wf_matrix ms ->
     foldM (fun bufSiz m =>
      let mSiz := rows m * cols m in
      do _ <- assert_ ((mSiz + bufSiz <? DNDS_ROWSIZE_MAX)
                     && (rows m <? UINT16_MAX) && (cols m <? UINT16_MAX));
      Ok (bufSiz + mSiz)) acc ms = Ok s ->
     s = acc + zsum (map (fun m => rows m * cols m) ms) /\
     (acc + zsum (map (fun m => rows m * cols m) ms) < DNDS_ROWSIZE_MAX \/ ms = []) /\
     Forall (fun m => wf_matrix m /\ rows m < UINT16_MAX /\ cols m < UINT16_MAX) ms).
  { clear. induction ms as [|m ms IH]; intros acc s W E; cbn [foldM map] in *; rewrite ?zsum_cons, ?zsum_nil in *.
    - inversion E; subst. split; [lia|]. split; [auto|constructor].
    - inversion W; subst. 
      destruct (rows m * cols m + acc <? DNDS_ROWSIZE_MAX) eqn:L1; [|discriminate].
      destruct (rows m <? UINT16_MAX) eqn:L2; [|discriminate].
      destruct (cols m <? UINT16_MAX) eqn:L3; [|discriminate]. cbn [andb assert_ bind] in E.
      apply Z.ltb_lt in L1, L2, L3.
      destruct (IH _ _ H2 E) as (A & B & C). split; [lia|].
      split; [|constructor; auto].
      left. destruct B as [B|B]; [lia|]. subst. cbn [map]. rewrite zsum_nil. lia. }
  destruct (G _ _ _ W E) as (A & B & C). unfold words. split; [|split; [lia|exact C]].
  destruct B as [B|B]; [left; lia|right; exact B].
Qed.

(** ** Packing *)
Definition okm (m : matrix) : Prop := wf_matrix m /\ rows m < UINT16_MAX /\ cols m < UINT16_MAX.
Definition nsum (ms : list matrix) : nat := list_sum (map msize ms).

Lemma nsum_cons m ms : nsum (m :: ms) = (msize m + nsum ms)%nat.
Proof. reflexivity. Qed.

Lemma nsum_zsum ms : Forall okm ms -> zsum (map (fun m => rows m * cols m) ms) = Z.of_nat (nsum ms).
Proof.
  induction 1 as [|m ms (W & _) F IH]; [reflexivity|]. cbn [map]. rewrite zsum_cons, nsum_cons, IH.
  destruct (msize_eq m W) as [_ ->]. lia.
Qed.

(** Matrix [m] is matrix number [i] of the buffer and starts at word [o]. *)
Definition holds (buf : list Z) (i o : nat) (m : matrix) : Prop :=
  exists d, nth_error buf (S i) = Some d /\ getA d = rows m /\ getB d = cols m /\
    getN d = Z.of_nat o /\
    forall e, (e < msize m)%nat -> nth_error buf (o + e) = nth_error (entries m) e.

Lemma batch_at_ok buf n i o m : nth_error buf 0 = Some (Z.of_nat n) -> (i < n)%nat -> (n < length buf)%nat ->
  zlen buf <= DNDS_ROWSIZE_MAX ->
  (exists d, nth_error buf (S i) = Some d /\ getA d = rows m /\ getB d = cols m /\ getN d = Z.of_nat o) ->
  batch_at buf (Z.of_nat i) = Ok {| moff := Z.of_nat o; mrows := rows m; mcols := cols m |}.
Proof.
  intros S0 Hi Hn Hl (d & D & A & B & N). unfold batch_at, Size.
  destruct (Z.ltb_spec 0 (zlen buf)); [|unfold zlen in *; lia]. cbn [assert_ bind].
  unfold vget. cbn [Z.ltb Z.compare Z.to_nat]. rewrite S0. cbn [bind].
  unfold uint64. unfold DNDS_ROWSIZE_MAX, zlen in *. rewrite Z.mod_small by lia.
  destruct (Z.ltb_spec (Z.of_nat i) (Z.of_nat n)); [|lia]. cbn [assert_ bind].
  unfold getNRow, getNCol, getOffset.
  rewrite !(header_ok _ _ _ _ D). cbn [bind]. rewrite A, B, N. reflexivity.
Qed.

Lemma holds_get buf n i o m : nth_error buf 0 = Some (Z.of_nat n) -> (i < n)%nat -> (n < length buf)%nat ->
  zlen buf <= DNDS_ROWSIZE_MAX -> wf_matrix m -> holds buf i o m ->
  batch_get buf (Z.of_nat i) = Ok m.
Proof.
  intros S0 Hi Hn Hl W (d & D & A & B & N & E). unfold batch_get.
  rewrite (batch_at_ok buf n i o m) by (auto; exists d; auto). cbn [bind].
  apply (map_read_ok _ _ _ o); auto.
Qed.

Lemma compress_one_ok buf n i o m : nth_error buf 0 = Some (Z.of_nat n) -> (i < n)%nat -> (n < o)%nat ->
  (o + msize m <= length buf)%nat -> zlen buf <= DNDS_ROWSIZE_MAX -> okm m ->
  exists buf', compress_one (buf, Z.of_nat o) (Z.of_nat i, m) = Ok (buf', Z.of_nat (o + msize m)) /\
    length buf' = length buf /\
    (forall x, x <> S i -> ~ (o <= x < o + msize m)%nat -> nth_error buf' x = nth_error buf x) /\
    holds buf' i o m.
Proof.
  intros S0 Hi Ho Hb Hl (W & R & C). unfold compress_one.
  assert (RW : 0 <= rows m < 2 ^ 16) by (destruct W as (A & _); unfold UINT16_MAX in *; lia).
  assert (CW : 0 <= cols m < 2 ^ 16) by (destruct W as (_ & A & _); unfold UINT16_MAX in *; lia).
  unfold uint16. rewrite !Z.mod_small by assumption.
  unfold setNRow, setNCol, setOffset.
  destruct (set_header_ok setA buf i (rows m)) as (d0 & D0 & E0); [lia|]. rewrite E0. cbn [bind].
  set (b1 := upd (S i) (setA d0 (rows m)) buf).
  assert (L1 : length b1 = length buf) by apply upd_length.
  destruct (set_header_ok setB b1 i (cols m)) as (d1 & D1 & E1); [lia|]. rewrite E1. cbn [bind].
  assert (X1 : d1 = setA d0 (rows m)).
  { unfold b1 in D1. rewrite nth_error_upd_same in D1 by lia. congruence. }
  set (b2 := upd (S i) (setB d1 (cols m)) b1).
  assert (L2 : length b2 = length buf) by (unfold b2; rewrite upd_length; exact L1).
  destruct (set_header_ok setN b2 i (Z.of_nat o)) as (d2 & D2 & E2); [lia|]. rewrite E2. cbn [bind].
  assert (X2 : d2 = setB d1 (cols m)).
  { unfold b2 in D2. rewrite nth_error_upd_same in D2 by lia. congruence. }
  set (b3 := upd (S i) (setN d2 (Z.of_nat o)) b2).
  assert (L3 : length b3 = length buf) by (unfold b3; rewrite upd_length; exact L2).
  assert (OW : 0 <= Z.of_nat o < 2 ^ 32) by (unfold zlen, DNDS_ROWSIZE_MAX in *; lia).
  assert (D3 : nth_error b3 (S i) = Some (setN d2 (Z.of_nat o))).
  { unfold b3. apply nth_error_upd_same. lia. }
  assert (FA : getA (setN d2 (Z.of_nat o)) = rows m).
  { rewrite getA_setN by exact OW. rewrite X2, getA_setB by exact CW. rewrite X1. apply getA_setA, RW. }
  assert (FB : getB (setN d2 (Z.of_nat o)) = cols m).
  { rewrite getB_setN by exact OW. rewrite X2. apply getB_setB, CW. }
  assert (FN : getN (setN d2 (Z.of_nat o)) = Z.of_nat o) by (apply getN_setN, OW).
  assert (O3 : forall x, x <> S i -> nth_error b3 x = nth_error buf x).
  { intros x Hx. unfold b3, b2, b1. rewrite !nth_error_upd_other by auto. reflexivity. }
  rewrite (batch_at_ok b3 n i o m).
  2:{ rewrite O3 by lia. exact S0. }
  2:{ exact Hi. }
  2:{ lia. }
  2:{ unfold zlen in *. rewrite L3. exact Hl. }
  2:{ eexists. split; [exact D3|]. auto. }
  cbn [bind].
  destruct (map_write_ok b3 {| moff := Z.of_nat o; mrows := rows m; mcols := cols m |} m o W)
    as (b4 & E4 & L4 & V4); try reflexivity; [lia|].
  rewrite E4. cbn [bind]. exists b4. split.
  - f_equal. f_equal. destruct (msize_eq m W) as [_ ->]. unfold uint32.
    rewrite Z.mod_small; [lia|]. unfold zlen, DNDS_ROWSIZE_MAX in *. lia.
  - split; [lia|]. split.
    + intros x Hx Hr. rewrite V4.
      destruct (Nat.leb_spec o x), (Nat.ltb_spec x (o + msize m)); cbn [andb]; try (apply O3, Hx). lia.
    + exists (setN d2 (Z.of_nat o)). split.
      * rewrite V4. destruct (Nat.leb_spec o (S i)); [lia|]. exact D3.
      * split; [exact FA|]. split; [exact FB|]. split; [exact FN|].
        intros e He. rewrite V4.
        destruct (Nat.leb_spec o (o + e)), (Nat.ltb_spec (o + e) (o + msize m)); cbn [andb]; try lia.
        f_equal. lia.
Qed.

Lemma holds_ext b b' i o m : holds b i o m ->
  nth_error b' (S i) = nth_error b (S i) ->
  (forall e, (e < msize m)%nat -> nth_error b' (o + e) = nth_error b (o + e)) ->
  holds b' i o m.
Proof.
  intros (d & D & A & B & N & E) H K. exists d. rewrite H.
  split; [exact D|]. split; [exact A|]. split; [exact B|]. split; [exact N|].
  intros e He. rewrite K by exact He. apply E, He.
Qed.

Lemma compress_run n : forall ms i o buf,
  nth_error buf 0 = Some (Z.of_nat n) -> (i + length ms <= n)%nat -> (n < o)%nat ->
  (o + nsum ms <= length buf)%nat -> zlen buf <= DNDS_ROWSIZE_MAX -> Forall okm ms ->
  exists buf', foldM compress_one (buf, Z.of_nat o) (number (Z.of_nat i) ms) = Ok (buf', Z.of_nat (o + nsum ms)) /\
    length buf' = length buf /\
    (forall x, (x < S i \/ S (i + length ms) <= x < o \/ o + nsum ms <= x)%nat ->
       nth_error buf' x = nth_error buf x) /\
    (forall k m, nth_error ms k = Some m -> holds buf' (i + k) (o + nsum (firstn k ms)) m).
Proof.
  induction ms as [|m ms IH]; intros i o buf S0 Hi Ho Hb Hl F; cbn [number foldM length] in *.
  - exists buf. split; [cbn; rewrite Nat.add_0_r; reflexivity|]. split; [reflexivity|].
    split; [reflexivity|]. intros [|k] m; discriminate.
  - inversion F as [|? ? M F']; subst. rewrite nsum_cons in *.
    destruct (compress_one_ok buf n i o m) as (b1 & E1 & L1 & O1 & H1); try assumption; try lia.
    rewrite E1. cbn [bind].
    replace (Z.of_nat i + 1) with (Z.of_nat (S i)) by lia.
    destruct (IH (S i) (o + msize m)%nat b1) as (b2 & E2 & L2 & O2 & H2).
    + rewrite O1 by lia. exact S0.
    + lia.
    + lia.
    + lia.
    + unfold zlen in *. rewrite L1. exact Hl.
    + exact F'.
    + exists b2. split; [rewrite E2; do 3 f_equal; lia|]. split; [lia|]. split.
      * intros x Hx. rewrite O2 by lia. apply O1; lia.
      * intros [|k] m' Hm; cbn in Hm.
        -- inversion Hm; subst. cbn [firstn]. unfold nsum at 1. cbn [map list_sum fold_right].
           rewrite !Nat.add_0_r. apply (holds_ext b1); [exact H1| |].
           ++ apply O2. lia.
           ++ intros e He. apply O2. lia.
        -- cbn [firstn]. rewrite nsum_cons.
           replace (i + S k)%nat with (S i + k)%nat by lia.
           replace (o + (msize m + nsum (firstn k ms)))%nat with (o + msize m + nsum (firstn k ms))%nat by lia.
           apply H2, Hm.
Qed.

Lemma firstn_ok {A} (P : A -> Prop) k l : Forall P l -> Forall P (firstn k l).
Proof. intros F. revert k. induction F; intros [|k]; cbn; constructor; auto. Qed.

Lemma first_word_nat ms k : Forall okm ms ->
  first_word ms k = Z.of_nat (1 + length ms + nsum (firstn k ms)).
Proof.
  intros F. unfold first_word, zlen. rewrite nsum_zsum by (apply firstn_ok, F). lia.
Qed.

Lemma words_nat ms : Forall okm ms -> words ms = Z.of_nat (1 + length ms + nsum ms).
Proof. intros F. unfold words, zlen. rewrite nsum_zsum by exact F. lia. Qed.

(** The state of the buffer after packing. *)
Definition packed (buf : list Z) (ms : list matrix) : Prop :=
  nth_error buf 0 = Some (zlen ms) /\
  forall k m, nth_error ms k = Some m -> holds buf k (Z.to_nat (first_word ms k)) m.

Lemma compress_in_ok buf ms : packable ms -> words ms <= zlen buf <= DNDS_ROWSIZE_MAX ->
  exists buf', CompressIn buf ms = Ok buf' /\ length buf' = length buf /\ packed buf' ms /\
    (forall x, (Z.to_nat (words ms) <= x)%nat -> nth_error buf' x = nth_error buf x).
Proof.
  intros P Hb. pose proof P as [PL PF]. unfold CompressIn. rewrite bufsize_ok by exact P.
  cbn [bind]. destruct (Z.leb_spec (words ms) (zlen buf)); [|lia]. cbn [assert_ bind].
  assert (F : Forall okm ms) by exact PF.
  rewrite words_nat in * by exact F.
  assert (B0 : (0 < length buf)%nat) by (unfold zlen in *; lia).
  unfold setSize, Size. destruct (Z.ltb_spec 0 (zlen buf)); [|lia]. cbn [assert_ bind].
  unfold uint64. rewrite Z.mod_small by (unfold zlen, DNDS_ROWSIZE_MAX in *; lia).
  change 0 with (Z.of_nat 0). rewrite vset_nat by exact B0. cbn [bind].
  set (b0 := upd 0 (zlen ms) buf).
  assert (L0 : length b0 = length buf) by apply upd_length.
  replace (zlen b0) with (zlen buf) by (unfold zlen; rewrite L0; reflexivity).
  destruct (Z.ltb_spec (Z.of_nat 0) (zlen buf)); [|lia]. cbn [assert_ bind].
  destruct (vget_nat b0 0) as (n & E & N); [lia|]. rewrite E. cbn [bind].
  assert (n = zlen ms) as -> by (unfold b0 in N; rewrite nth_error_upd_same in N by exact B0; congruence).
  assert (U : uint32 (uint32 (zlen ms) + 1) = Z.of_nat (1 + length ms)).
  { unfold uint32. rewrite Z.mod_small; rewrite ?Z.mod_small; unfold zlen, DNDS_ROWSIZE_MAX in *; lia. }
  rewrite U.
  destruct (compress_run (length ms) ms 0 (1 + length ms) b0) as (b & R & L & O & H2).
  - exact N.
  - lia.
  - lia.
  - unfold zlen in *. lia.
  - unfold zlen in *. rewrite L0. lia.
  - exact F.
  - change (Z.of_nat 0) with 0 in *. rewrite R. cbn [bind fst]. exists b.
    split; [reflexivity|]. split; [lia|]. split.
    + split; [rewrite O by lia; exact N|].
      intros k m Hm. rewrite first_word_nat by exact F. rewrite Nat2Z.id. apply (H2 k m Hm).
    + intros x Hx. rewrite Nat2Z.id in Hx. rewrite O by lia. unfold b0.
      apply nth_error_upd_other. lia.
Qed.

Lemma packed_get buf ms k m : packable ms -> words ms <= zlen buf <= DNDS_ROWSIZE_MAX ->
  packed buf ms -> nth_error ms k = Some m -> batch_get buf (Z.of_nat k) = Ok m.
Proof.
  intros (PL & F) Hb (S0 & H) Hm.
  assert (Hk : (k < length ms)%nat) by (apply nth_error_Some; congruence).
  rewrite words_nat in Hb by exact F.
  apply (holds_get buf (length ms) k (Z.to_nat (first_word ms k)) m); auto.
  - unfold zlen in *. lia.
  - lia.
  - apply nth_error_In in Hm. rewrite Forall_forall in F. apply (F m Hm).
Qed.

Lemma packed_reject buf ms k : packable ms -> words ms <= zlen buf -> packed buf ms ->
  int32_min <= k <= DNDS_ROWSIZE_MAX -> ~ (0 <= k < zlen ms) -> batch_get buf k = Abort.
Proof.
  intros (PL & F) Hb (S0 & _) Hk N. unfold batch_get, batch_at, Size.
  rewrite words_nat in Hb by exact F.
  destruct (Z.ltb_spec 0 (zlen buf)); [|lia]. cbn [assert_ bind].
  unfold vget. cbn [Z.ltb Z.compare Z.to_nat]. rewrite S0. cbn [bind].
  destruct (Z.ltb_spec (uint64 k) (zlen ms)) as [L|L]; [|reflexivity].
  exfalso. unfold uint64, DNDS_ROWSIZE_MAX in *.
  destruct (Z_lt_le_dec k 0) as [K|K].
  - assert (k mod 2 ^ 64 = k + 2 ^ 64).
    { symmetry. apply Z.mod_unique with (-1); [|lia]. left. unfold int32_min in *. lia. }
    rewrite words_nat in PL by exact F. unfold zlen, int32_min in *. lia.
  - rewrite Z.mod_small in L by lia. lia.
Qed.

(** Writing through the map of matrix [k]. *)
Lemma packed_set buf ms k m x : packable ms -> words ms <= zlen buf <= DNDS_ROWSIZE_MAX ->
  packed buf ms -> nth_error ms k = Some m -> wf_matrix x -> rows x = rows m -> cols x = cols m ->
  exists buf', batch_set buf (Z.of_nat k) x = Ok buf' /\ length buf' = length buf /\
    packed buf' (upd k x ms) /\
    (forall j, ~ (first_word ms k <= Z.of_nat j < first_word ms k + rows m * cols m) ->
       nth_error buf' j = nth_error buf j).
Proof.
  intros P Hb (S0 & H) Hm W R C. pose proof P as (PL & F). change (Forall okm ms) in F.
  assert (Hk : (k < length ms)%nat) by (apply nth_error_Some; congruence).
  rewrite words_nat in Hb by exact F.
  assert (Wm : wf_matrix m).
  { apply nth_error_In in Hm. rewrite Forall_forall in F. apply (F m Hm). }
  assert (SX : msize x = msize m).
  { destruct (msize_eq x W) as [<- _], (msize_eq m Wm) as [<- _]. congruence. }
  set (o := (1 + length ms + nsum (firstn k ms))%nat).
  assert (Eo : first_word ms k = Z.of_nat o) by (apply first_word_nat, F).
  pose proof (H k m Hm) as Hh. rewrite Eo, Nat2Z.id in Hh.
  destruct Hh as (d & D & A & B & N & E).
  assert (Sp : (nsum ms = nsum (firstn k ms) + (msize m + nsum (skipn (S k) ms)))%nat).
  { clear -Hm. revert k Hm. induction ms as [|a l IH]; intros [|k]; cbn [nth_error]; try discriminate.
    - intros X; inversion X; subst. cbn [firstn skipn]. rewrite nsum_cons. unfold nsum at 2. cbn. lia.
    - intros X. cbn [firstn skipn]. rewrite !nsum_cons, (IH k X). cbn [skipn]. lia. }
  unfold batch_set. rewrite (batch_at_ok buf (length ms) k o m); auto.
  2:{ unfold zlen in *; lia. }
  2:{ lia. }
  2:{ exists d; auto. }
  cbn [bind].
  destruct (map_write_ok buf {| moff := Z.of_nat o; mrows := rows m; mcols := cols m |} x o W)
    as (b & Eb & Lb & Vb); try reflexivity; try (symmetry; assumption).
  { unfold zlen in *. lia. }
  exists b. split; [exact Eb|]. split; [exact Lb|].
  assert (Out : forall j, ~ (o <= j < o + msize m)%nat -> nth_error b j = nth_error buf j).
  { intros j Hj. rewrite Vb, SX.
    destruct (Nat.leb_spec o j), (Nat.ltb_spec j (o + msize m)); cbn [andb]; try reflexivity; lia. }
  split.
  - split.
    + unfold zlen. rewrite upd_length. rewrite Out by lia. exact S0.
    + intros j m' Hj.
      assert (Sz : map msize (upd k x ms) = map msize ms).
      { clear -SX Hm. revert k Hm. induction ms as [|a l IH]; intros [|k]; cbn; try discriminate.
        - intros X; inversion X; subst. rewrite SX. reflexivity.
        - intros X. rewrite (IH k X). reflexivity. }
      assert (Fu : Forall okm (upd k x ms)).
      { rewrite Forall_forall. intros y I. apply In_nth_error in I. destruct I as [q I].
        destruct (Nat.eq_dec k q) as [Nq|Nq].
        - subst q. rewrite nth_error_upd_same in I by exact Hk. inversion I; subst y.
          apply nth_error_In in Hm. rewrite Forall_forall in F. destruct (F m Hm) as (_ & Q1 & Q2).
          split; [exact W|]. rewrite R, C. auto.
        - rewrite nth_error_upd_other in I by auto. apply nth_error_In in I.
          rewrite Forall_forall in F. apply (F y I). }
      assert (FW : first_word (upd k x ms) j = first_word ms j).
      { rewrite !first_word_nat by assumption. rewrite upd_length. unfold nsum.
        rewrite <- !firstn_map, Sz. reflexivity. }
      rewrite FW.
      destruct (Nat.eq_dec j k) as [->|Nj].
      * rewrite nth_error_upd_same in Hj by exact Hk. inversion Hj; subst m'.
        rewrite Eo, Nat2Z.id. exists d. split; [rewrite Out by lia; exact D|].
        split; [congruence|]. split; [congruence|]. split; [exact N|].
        intros e He. rewrite Vb.
        destruct (Nat.leb_spec o (o + e)), (Nat.ltb_spec (o + e) (o + msize x)); cbn [andb]; try lia.
        f_equal. lia.
      * rewrite nth_error_upd_other in Hj by auto.
        assert (Hjl : (j < length ms)%nat) by (apply nth_error_Some; congruence).
        apply (holds_ext buf); [apply H, Hj| |].
        -- apply Out. unfold o. lia.
        -- intros e He. apply Out. rewrite first_word_nat, Nat2Z.id by exact F. unfold o.
           assert (G : forall a b ma, nth_error ms a = Some ma -> (a < b)%nat ->
                     (nsum (firstn a ms) + msize ma <= nsum (firstn b ms))%nat).
           { clear. induction ms as [|y l IH]; intros [|a] [|b] ma; cbn [nth_error]; try discriminate; try lia.
             - intros X _; inversion X; subst. cbn [firstn]. rewrite nsum_cons. unfold nsum at 1. cbn. lia.
             - intros X Y. cbn [firstn]. rewrite !nsum_cons. specialize (IH a b ma X). lia. }
           destruct (Nat.lt_ge_cases j k).
           ++ pose proof (G j k m' Hj). lia.
           ++ pose proof (G k j m Hm). lia.
  - intros j Hj. apply Out. rewrite Eo in Hj. destruct (msize_eq m Wm) as [_ E2]. lia.
Qed.

(** ** Disjoint regions *)
Lemma regions ms k m : packable ms -> nth_error ms k = Some m ->
  1 + zlen ms <= first_word ms k /\ first_word ms k + rows m * cols m <= words ms /\
  forall j m', nth_error ms j = Some m' -> (k < j)%nat ->
    first_word ms k + rows m * cols m <= first_word ms j.
Proof.
  intros (_ & F) Hm. change (Forall okm ms) in F.
  assert (Wm : wf_matrix m).
  { apply nth_error_In in Hm. rewrite Forall_forall in F. apply (F m Hm). }
  rewrite words_nat, first_word_nat by exact F. destruct (msize_eq m Wm) as [_ E2]. rewrite E2.
  assert (G : forall a b ma, nth_error ms a = Some ma -> (a < b)%nat ->
         (nsum (firstn a ms) + msize ma <= nsum (firstn b ms))%nat).
  { clear. induction ms as [|y l IH]; intros [|a] [|b] ma; cbn [nth_error]; try discriminate; try lia.
    - intros X _; inversion X; subst. cbn [firstn]. rewrite nsum_cons. unfold nsum at 1. cbn. lia.
    - intros X Y. cbn [firstn]. rewrite !nsum_cons. specialize (IH a b ma X). lia. }
  split; [unfold zlen; lia|]. split.
  - assert (Hk : (k < length ms)%nat) by (apply nth_error_Some; congruence).
    specialize (G k (length ms) m Hm Hk). rewrite firstn_all in G. lia.
  - intros j m' Hj L. rewrite first_word_nat by exact F. specialize (G k j m Hm L). lia.
Qed.

Lemma refused ms : Forall wf_matrix ms -> ms <> [] ->
  (getBufSize ms = Abort <-> ~ packable ms) /\
  (getBufSize ms <> Abort -> getBufSize ms = Ok (words ms)).
Proof.
  intros W NE. split.
  - split.
    + intros E P. rewrite (bufsize_ok ms P) in E. discriminate.
    + intros P. destruct (getBufSize ms) as [s| |] eqn:E; [|reflexivity|].
      * exfalso. apply P. destruct (bufsize_inv ms s W E) as ([L|L] & _ & F); [split; assumption|congruence].
      * exfalso. revert E. unfold getBufSize.
        destruct (zlen ms <? DNDS_ROWSIZE_MAX); cbn [assert_ bind]; [|discriminate].
        generalize (zlen ms + 1). clear. induction ms as [|m ms IH]; intros acc; cbn [foldM]; [discriminate|].
        destruct (_ && _); cbn [assert_ bind]; [apply IH|discriminate].
  - intros N. destruct (getBufSize ms) as [s| |] eqn:E; [|congruence|].
    + destruct (bufsize_inv ms s W E) as (_ & -> & _). reflexivity.
    + exfalso. revert E. unfold getBufSize.
      destruct (zlen ms <? DNDS_ROWSIZE_MAX); cbn [assert_ bind]; [|discriminate].
      generalize (zlen ms + 1). clear. induction ms as [|m ms IH]; intros acc; cbn [foldM]; [discriminate|].
      destruct (_ && _); cbn [assert_ bind]; [apply IH|discriminate].
Qed.

Lemma init_row dflt row ms : packable ms ->
  exists buf, InitializeWriteRow dflt row ms = Ok buf /\ zlen buf = words ms /\ packed buf ms.
Proof.
  intros P. pose proof P as (PL & F). change (Forall okm ms) in F.
  unfold InitializeWriteRow. rewrite bufsize_ok by exact P. cbn [bind].
  set (b := firstn (Z.to_nat (words ms)) row ++ repeat dflt (Z.to_nat (words ms) - length row)).
  assert (L : zlen b = words ms).
  { unfold zlen, b. rewrite app_length, firstn_length, repeat_length.
    rewrite words_nat in * by exact F. lia. }
  destruct (compress_in_ok b ms P) as (b' & E & L' & K & _); [lia|].
  exists b'. split; [exact E|]. split; [unfold zlen in *; lia|exact K].
Qed.

Definition sample_batch : list matrix :=
  [ {| rows := 2; cols := 3; entries := [1; 2; 3; 4; 5; 6] |};
    {| rows := 0; cols := 7; entries := [] |};
    {| rows := 1; cols := 1; entries := [9] |} ].
Lemma sample_packable : packable sample_batch.
Proof.
  split; [reflexivity|]. repeat constructor; cbn; lia.
Qed.
Lemma sample_row : exists buf, InitializeWriteRow 77 [123456789012345; 5] sample_batch = Ok buf /\ length buf = 11%nat.
Proof. eexists. split; [vm_compute; reflexivity|reflexivity]. Qed.

(** ** Histories of assignments *)
Lemma upd_packable ms k x m : packable ms -> nth_error ms k = Some m -> wf_matrix x ->
  rows x = rows m -> cols x = cols m -> packable (upd k x ms) /\ words (upd k x ms) = words ms.
Proof.
  intros (PL & F) Hm W R C.
  assert (Z1 : words (upd k x ms) = words ms).
  { unfold words, zlen. rewrite upd_length. f_equal. f_equal.
    clear -Hm R C. revert k Hm. induction ms as [|a l IH]; intros [|k]; cbn [nth_error upd map]; try discriminate.
    - intros X; inversion X; subst. rewrite R, C. reflexivity.
    - intros X. rewrite (IH k X). reflexivity. }
  split; [|exact Z1]. split; [lia|].
  assert (Hk : (k < length ms)%nat) by (apply nth_error_Some; congruence).
  rewrite Forall_forall in *. intros y I. apply In_nth_error in I. destruct I as [q I].
  destruct (Nat.eq_dec k q) as [Nq|Nq].
  - subst q. rewrite nth_error_upd_same in I by exact Hk. inversion I; subst y.
    apply nth_error_In in Hm. destruct (F m Hm) as (_ & Q1 & Q2). rewrite R, C. auto.
  - rewrite nth_error_upd_other in I by auto. apply nth_error_In in I. apply (F y I).
Qed.

Lemma fits_upd ms k x m w : nth_error ms k = Some m -> rows x = rows m -> cols x = cols m ->
  fits ms w -> fits (upd k x ms) w.
Proof.
  intros Hm R C (W & m' & Hm' & R' & C'). split; [exact W|].
  destruct (Nat.eq_dec k (fst w)) as [E|E].
  - exists x. subst k. rewrite nth_error_upd_same by (apply nth_error_Some; congruence).
    assert (m' = m) by congruence. subst. split; [reflexivity|]. split; congruence.
  - exists m'. rewrite nth_error_upd_other by exact E. auto.
Qed.

Lemma assign_run : forall ws ms buf, packable ms -> words ms <= zlen buf <= DNDS_ROWSIZE_MAX ->
  packed buf ms -> Forall (fits ms) ws ->
  exists buf', foldM (fun b w => batch_set b (Z.of_nat (fst w)) (snd w)) buf ws = Ok buf' /\
    length buf' = length buf /\ packed buf' (assigned ms ws) /\ packable (assigned ms ws) /\
    words (assigned ms ws) = words ms /\
    forall x, (Z.to_nat (words ms) <= x)%nat -> nth_error buf' x = nth_error buf x.
Proof.
  induction ws as [|w ws IH]; intros ms buf P Hb K F; cbn [foldM assigned fold_left].
  - exists buf. split; [reflexivity|]. auto.
  - inversion F as [|? ? Fw F']; subst. destruct Fw as (W & m & Hm & R & C).
    destruct (packed_set buf ms (fst w) m (snd w) P Hb K Hm W R C) as (b1 & E1 & L1 & K1 & O1).
    rewrite E1. cbn [bind].
    destruct (upd_packable ms (fst w) (snd w) m P Hm W R C) as (P1 & W1).
    destruct (IH (upd (fst w) (snd w) ms) b1 P1) as (b2 & E2 & L2 & K2 & P2 & W2 & O2).
    + unfold zlen in *. rewrite L1, W1. exact Hb.
    + exact K1.
    + eapply Forall_impl; [|exact F']. intros w'. apply (fits_upd ms (fst w) (snd w) m); auto.
    + exists b2. split; [exact E2|]. split; [lia|]. split; [exact K2|]. split; [exact P2|].
      split; [unfold assigned in W2; congruence|].
      intros x Hx. rewrite O2 by (rewrite W1; exact Hx). apply O1.
      destruct (regions ms (fst w) m P Hm) as (G1 & G2 & _).
      assert (0 <= zlen ms) by (unfold zlen; lia). lia.
Qed.

Lemma size_packed buf ms : packable ms -> words ms <= zlen buf -> packed buf ms -> Size buf = Ok (zlen ms).
Proof.
  intros (_ & F) Hb (S0 & _). unfold Size. rewrite words_nat in Hb by exact F.
  destruct (Z.ltb_spec 0 (zlen buf)); [|lia]. cbn [assert_ bind].
  unfold vget. cbn [Z.ltb Z.compare Z.to_nat]. rewrite S0. reflexivity.
Qed.

Lemma assigned_length ws : forall ms, length (assigned ms ws) = length ms.
Proof.
  induction ws as [|w ws IH]; intros ms; [reflexivity|].
  unfold assigned in *. cbn [fold_left]. rewrite IH. apply upd_length.
Qed.

Lemma batch_history buf ms ws : packable ms -> words ms <= zlen buf <= DNDS_ROWSIZE_MAX ->
  Forall (fits ms) ws ->
  exists buf1 buf',
    CompressIn buf ms = Ok buf1 /\
    foldM (fun b w => batch_set b (Z.of_nat (fst w)) (snd w)) buf1 ws = Ok buf' /\
    length buf' = length buf /\
    Size buf' = Ok (zlen ms) /\
    (forall k m, nth_error (assigned ms ws) k = Some m -> batch_get buf' (Z.of_nat k) = Ok m) /\
    (forall k, int32_min <= k <= DNDS_ROWSIZE_MAX -> ~ (0 <= k < zlen ms) -> batch_get buf' k = Abort) /\
    (forall x, words ms <= Z.of_nat x -> nth_error buf' x = nth_error buf x).
Proof.
  intros P Hb F. destruct (compress_in_ok buf ms P Hb) as (b1 & E1 & L1 & K1 & O1).
  destruct (assign_run ws ms b1 P) as (b2 & E2 & L2 & K2 & P2 & W2 & O2); auto.
  { unfold zlen in *. rewrite L1. exact Hb. }
  assert (ZL : zlen b2 = zlen buf) by (unfold zlen; congruence).
  assert (ZA : zlen (assigned ms ws) = zlen ms) by (unfold zlen; rewrite assigned_length; reflexivity).
  exists b1, b2. split; [exact E1|]. split; [exact E2|]. split; [congruence|].
  split. { rewrite <- ZA. apply size_packed; auto; lia. }
  split. { intros k m Hm. apply (packed_get b2 (assigned ms ws)); auto; lia. }
  split. { intros k Hk N. apply (packed_reject b2 (assigned ms ws)); auto; lia. }
  intros x Hx. rewrite O2, O1 by lia. reflexivity.
Qed.

Lemma init_row_history dflt row ms : packable ms ->
  exists buf, InitializeWriteRow dflt row ms = Ok buf /\ zlen buf = words ms /\
    Size buf = Ok (zlen ms) /\
    (forall k m, nth_error ms k = Some m -> batch_get buf (Z.of_nat k) = Ok m).
Proof.
  intros P. destruct (init_row dflt row ms P) as (b & E & L & K). exists b.
  assert (words ms < DNDS_ROWSIZE_MAX) by (destruct P; assumption).
  split; [exact E|]. split; [exact L|]. split; [apply size_packed; auto; lia|].
  intros k m Hm. apply (packed_get b ms); auto; lia.
Qed.

Lemma other_shape buf ms buf1 k m x : packable ms -> words ms <= zlen buf <= DNDS_ROWSIZE_MAX ->
  CompressIn buf ms = Ok buf1 -> nth_error ms k = Some m -> rows x <> rows m \/ cols x <> cols m ->
  batch_set buf1 (Z.of_nat k) x = Abort.
Proof.
  intros P Hb EC Hm N. destruct (compress_in_ok buf ms P Hb) as (b1 & E1 & L1 & (S0 & H) & _). rewrite EC in E1. inversion E1; subst b1.
  pose proof P as (PL & F). change (Forall okm ms) in F.
  assert (Hk : (k < length ms)%nat) by (apply nth_error_Some; congruence).
  rewrite words_nat in Hb by exact F.
  assert (Eo : first_word ms k = Z.of_nat (1 + length ms + nsum (firstn k ms))) by (apply first_word_nat, F).
  pose proof (H k m Hm) as Hh. rewrite Eo, Nat2Z.id in Hh. destruct Hh as (d & D & A & B & N' & _).
  unfold batch_set. rewrite (batch_at_ok buf1 (length ms) k (1 + length ms + nsum (firstn k ms)) m); auto.
  2:{ unfold zlen in *; lia. }
  2:{ unfold zlen in *; lia. }
  2:{ exists d; auto. }
  cbn [bind]. unfold map_write. cbn [mrows mcols].
  destruct (Z.eqb_spec (rows x) (rows m)), (Z.eqb_spec (cols x) (cols m)); cbn; auto. exfalso. destruct N; congruence.
Qed.
