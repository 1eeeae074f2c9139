From Coq Require Import ZArith List Bool Lia.
From Verif Require Import Base.Prelude Base.PreludeFacts DNDS.ArraySpec DNDS.ArrayProofs
  DNDS.MatrixModel DNDS.MatrixSpec.
Import ListNotations.
Open Scope Z_scope.

Lemma vget_some {A} (l : list A) k x : nth_error l k = Some x -> vget l (Z.of_nat k) = Ok x.
Proof.
  intros E. unfold vget. destruct (Z.ltb_spec (Z.of_nat k) 0); [lia|]. rewrite Nat2Z.id, E. reflexivity.
Qed.
Lemma vat_some {A} (l : list A) k x : nth_error l k = Some x -> vat l (Z.of_nat k) = Ok x.
Proof.
  intros E. unfold vat. destruct (Z.ltb_spec (Z.of_nat k) 0); [lia|]. rewrite Nat2Z.id, E. reflexivity.
Qed.
Lemma vset_some {A} (l : list A) k x : (k < length l)%nat -> vset l (Z.of_nat k) x = Ok (upd k x l).
Proof.
  intros L. unfold vset, zlen.
  destruct (Z.ltb_spec (Z.of_nat k) 0), (Z.leb_spec (Z.of_nat (length l)) (Z.of_nat k)); try lia.
  cbn [orb]. rewrite Nat2Z.id. reflexivity.
Qed.
Lemma mul32_ok a b : int32_min <= a * b <= int32_max -> mul32 a b = Ok (a * b).
Proof.
  intros [H1 H2]. unfold mul32.
  destruct (Z.leb_spec int32_min (a * b)), (Z.leb_spec (a * b) int32_max); try lia. reflexivity.
Qed.

Lemma in_range_inv i n k : in_range i n = Some k -> (k < n)%nat /\ i = Z.of_nat k.
Proof.
  intros E. destruct (in_range_cases i n) as [(k' & A & B & C & _)|(E' & _)]; [|congruence].
  assert (k' = k) by congruence. subst. auto.
Qed.
Lemma in_range_none i n : in_range i n = None -> i < 0 \/ Z.of_nat n <= i.
Proof.
  unfold in_range. destruct (Z.leb_spec 0 i), (Z.ltb_spec i (Z.of_nat n)); cbn; intros; try discriminate; lia.
Qed.

Section Blocks.
Context {T : Type}.

Lemma read_block (pre m post : list T) :
  mapM (fun e => vget (pre ++ m ++ post) (zlen pre + Z.of_nat e)) (seq 0 (length m)) = Ok m.
Proof.
  assert (G : forall n s, (s + n = length m)%nat ->
    mapM (fun e => vget (pre ++ m ++ post) (zlen pre + Z.of_nat e)) (seq s n) = Ok (skipn s m)).
  { induction n as [|n IH]; intros s Hs; cbn [seq mapM].
    - rewrite skipn_all2 by lia. reflexivity.
    - destruct (nth_error_lt_Some _ m s) as [x X]; [lia|].
      replace (zlen pre + Z.of_nat s) with (Z.of_nat (length pre + s)) by (unfold zlen; lia).
      erewrite vget_some.
      2:{ rewrite nth_error_app2 by lia. replace (length pre + s - length pre)%nat with s by lia.
          rewrite nth_error_app1 by lia. exact X. }
      cbn [bind]. rewrite IH by lia. cbn [bind]. f_equal.
      clear -X. revert s X. induction m as [|y m IHm]; intros [|s]; cbn; try discriminate.
      + intros E; inversion E; reflexivity.
      + apply IHm. }
  apply (G (length m) 0%nat). lia.
Qed.

Lemma write_block (pre m0 post m : list T) : length m = length m0 ->
  foldM (fun b e => do x <- vget m (Z.of_nat e); vset b (zlen pre + Z.of_nat e) x)
    (pre ++ m0 ++ post) (seq 0 (length m)) = Ok (pre ++ m ++ post).
Proof.
  intros L.
  assert (G : forall n s, (s + n = length m)%nat ->
    foldM (fun b e => do x <- vget m (Z.of_nat e); vset b (zlen pre + Z.of_nat e) x)
      (pre ++ firstn s m ++ skipn s m0 ++ post) (seq s n) = Ok (pre ++ m ++ post)).
  { induction n as [|n IH]; intros s Hs; cbn [seq foldM].
    - rewrite firstn_all2 by lia. rewrite skipn_all2 by lia. reflexivity.
    - destruct (nth_error_lt_Some _ m s) as [x X]; [lia|]. rewrite (vget_some _ _ _ X). cbn [bind].
      replace (zlen pre + Z.of_nat s) with (Z.of_nat (length pre + s)) by (unfold zlen; lia).
      destruct (nth_error_lt_Some _ m0 s) as [y Y]; [lia|].
      rewrite vset_some by (rewrite !app_length, firstn_length, skipn_length; lia). cbn [bind].
      rewrite upd_app_r.
      replace s with (length (firstn s m) + 0)%nat at 1 by (rewrite firstn_length; lia).
      rewrite upd_app_r.
      assert (Sk : skipn s m0 = y :: skipn (S s) m0).
      { clear -Y. revert s Y. induction m0 as [|z m0 IHm]; intros [|s]; cbn [nth_error skipn]; try discriminate.
        - intros E; inversion E; reflexivity.
        - intros E. rewrite (IHm s E). reflexivity. }
      rewrite Sk. cbn [app upd].
      assert (Fk : firstn (S s) m = firstn s m ++ [x]).
      { clear -X. revert s X. induction m as [|z m IHm]; intros [|s]; cbn [nth_error]; try discriminate.
        - intros E; inversion E; reflexivity.
        - intros E. cbn [firstn app]. rewrite <- (IHm s E). reflexivity. }
      specialize (IH (S s)). rewrite Fk, <- app_assoc in IH. cbn [app] in IH. apply IH. lia. }
  apply (G (length m) 0%nat). lia.
Qed.

Lemma concat_split (ms : list (list T)) l m : nth_error ms l = Some m ->
  concat ms = concat (firstn l ms) ++ m ++ concat (skipn (S l) ms).
Proof.
  revert l. induction ms as [|a ms IH]; intros [|l]; cbn [nth_error]; try discriminate.
  - intros E; inversion E; subst. reflexivity.
  - intros E. cbn [firstn skipn concat]. rewrite (IH l E), app_assoc. reflexivity.
Qed.

Lemma upd_split (ms : list (list T)) l m : (l < length ms)%nat ->
  concat (upd l m ms) = concat (firstn l ms) ++ m ++ concat (skipn (S l) ms).
Proof.
  revert l. induction ms as [|a ms IH]; intros [|l]; cbn [length]; try lia; intros L.
  - reflexivity.
  - cbn [upd firstn skipn concat]. rewrite IH by lia. rewrite app_assoc. reflexivity.
Qed.

Lemma concat_len (ms : list (list T)) d : Forall (fun m => length m = d) ms ->
  length (concat ms) = (length ms * d)%nat.
Proof. induction 1; cbn; [reflexivity|]. rewrite app_length. lia. Qed.

Lemma Forall_first {A} (P : A -> Prop) n l : Forall P l -> Forall P (firstn n l).
Proof. intros F. revert n. induction F; intros [|n]; cbn; constructor; auto. Qed.

(** Resizing a row of blocks by whole blocks. *)
Lemma fit_blocks (dflt : T) d s ms : Forall (fun m => length m = d) ms ->
  fit dflt (s * d) (concat ms) = concat (fit (repeat dflt d) s ms).
Proof.
  intros F. revert s. induction F as [|m ms L F IH]; intros s.
  - cbn [concat]. rewrite !fit_nil. induction s; cbn [repeat concat]; [reflexivity|].
    rewrite <- IHs. cbn [Nat.mul]. apply repeat_app.
  - destruct s as [|s]; [reflexivity|].
    replace (fit (repeat dflt d) (S s) (m :: ms)) with (m :: fit (repeat dflt d) s ms) by reflexivity.
    cbn [concat]. rewrite <- IH. replace (S s * d)%nat with (d + s * d)%nat by lia.
    rewrite fit_plus. f_equal.
    + unfold fit. rewrite firstn_app, L, Nat.sub_diag. cbn [firstn]. rewrite app_nil_r.
      rewrite firstn_all2 by lia. rewrite app_length, L.
      replace (d - (d + length (concat ms)))%nat with O by lia. apply app_nil_r.
    + f_equal. rewrite skipn_app, L, Nat.sub_diag, skipn_all2 by lia. reflexivity.
Qed.
End Blocks.

(** ** Uniform batches *)
Section Uniform.
Variable T : Type.
Variable dflt : T.
Variables n_row n_col : Z.
Hypothesis Dr : n_row = -1 \/ 0 <= n_row.
Hypothesis Dc : n_col = -1 \/ 0 <= n_col.

Record urep (u : ubatch T) (b : batches T) : Prop := {
  q_rows : brows u = map (@concat T) (mats b);
  q_nonneg : 0 <= brow b /\ 0 <= bcol b;
  q_msize : MSize n_row n_col u = brow b * bcol b;
  q_all : Forall (fun ms => Forall (fun m => zlen m = brow b * bcol b) ms /\
                   zlen ms * (brow b * bcol b) <= int32_max) (mats b);
  q_dims : mats b <> [] -> 0 < brow b /\ 0 < bcol b /\ Rows n_row u = brow b /\ Cols n_col u = bcol b
}.

Lemma urep_new : urep (new_ubatch n_row n_col) (no_batches n_row n_col).
Proof.
  constructor; cbn [no_batches mats brow bcol new_ubatch brows].
  - reflexivity.
  - lia.
  - unfold MSize, new_ubatch. cbn [m_size].
    destruct (Z.leb_spec 0 n_row), (Z.leb_spec 0 n_col), (Z.ltb_spec 0 n_row), (Z.ltb_spec 0 n_col);
      cbn [andb]; try (exfalso; lia);
      (try (replace (Z.max n_row 0) with n_row by lia)); (try (replace (Z.max n_row 0) with 0 by lia));
      (try (replace (Z.max n_col 0) with n_col by lia)); (try (replace (Z.max n_col 0) with 0 by lia)); nia.
  - constructor.
  - congruence.
Qed.

Lemma urep_row u b q : urep u b -> (q < length (mats b))%nat ->
  exists ms, nth_error (mats b) q = Some ms /\ nth_error (brows u) q = Some (concat ms) /\
    nth q (mats b) [] = ms /\
    Forall (fun m => zlen m = brow b * bcol b) ms /\ zlen ms * (brow b * bcol b) <= int32_max /\
    zlen (concat ms) = zlen ms * (brow b * bcol b) /\
    0 < brow b * bcol b.
Proof.
  intros R Hq. destruct (nth_error_lt_Some _ _ _ Hq) as [ms Hm]. exists ms.
  assert (Dm : 0 < brow b * bcol b).
  { destruct (q_dims _ _ R) as (A & B & _); [destruct (mats b); [cbn in Hq; lia|discriminate]|]. lia. }
  split; [exact Hm|]. split. { rewrite (q_rows _ _ R), nth_error_map, Hm. reflexivity. }
  split; [apply nth_error_nth; exact Hm|].
  pose proof (q_all _ _ R) as F. rewrite Forall_forall in F.
  destruct (F ms (nth_error_In _ _ Hm)) as [F1 F2]. split; [exact F1|]. split; [exact F2|].
  split; [|exact Dm]. unfold zlen. rewrite (concat_len ms (Z.to_nat (brow b * bcol b))); [lia|].
  eapply Forall_impl; [|exact F1]. intros m E. unfold zlen in E. cbv beta. lia.
Qed.

Lemma urep_len u b : urep u b -> length (brows u) = length (mats b).
Proof. intros R. rewrite (q_rows _ _ R). apply map_length. Qed.

Lemma batch_size_ok u b i : urep u b ->
  BatchSize n_row n_col u i =
     match in_range i (length (mats b)) with Some q => Ok (zlen (nth q (mats b) [])) | None => Abort end.
Proof.
  intros R. unfold BatchSize.
  destruct (in_range i (length (mats b))) as [q|] eqn:E.
  - apply in_range_inv in E. destruct E as [Hq ->].
    destruct (urep_row u b q R Hq) as (ms & H1 & H2 & -> & F & L & C & D).
    rewrite (vat_some _ _ _ H2). cbn [bind]. rewrite (q_msize _ _ R), C.
    destruct (Z.eqb_spec (brow b * bcol b) 0); [lia|].
    rewrite Z.mod_mul by lia. cbn [Z.eqb assert_ bind]. rewrite Z.div_mul by lia. reflexivity.
  - apply in_range_none in E. unfold vat.
    destruct (Z.ltb_spec i 0); [reflexivity|].
    rewrite (proj2 (nth_error_None _ _)) by (rewrite (urep_len u b R); lia). reflexivity.
Qed.

Lemma locate_ok u b q l ms m : urep u b -> nth_error (mats b) q = Some ms -> nth_error ms l = Some m ->
  ulocate n_row n_col u (Z.of_nat q) (Z.of_nat l) =
    Ok (zlen (concat (firstn l ms)), brow b, bcol b) /\ zlen m = brow b * bcol b.
Proof.
  intros R Hm Hl.
  assert (Hq : (q < length (mats b))%nat) by (eapply nth_error_Some_lt; eauto).
  assert (Ll : (l < length ms)%nat) by (eapply nth_error_Some_lt; eauto).
  destruct (urep_row u b q R Hq) as (ms' & H1 & H2 & E & F & L & C & D).
  assert (Q : ms' = ms) by congruence. rewrite Q in *. clear Q.
  assert (Fn : Forall (fun m => length m = Z.to_nat (brow b * bcol b)) ms).
  { eapply Forall_impl; [|exact F]. intros x X. unfold zlen in X. cbv beta. lia. }
  split.
  - unfold ulocate. rewrite (batch_size_ok u b) by exact R. rewrite in_range_nat by exact Hq. cbn [bind].
    rewrite E. unfold zlen at 1.
    destruct (Z.leb_spec 0 (Z.of_nat l)), (Z.ltb_spec (Z.of_nat l) (Z.of_nat (length ms))); try lia.
    cbn [andb assert_ bind]. rewrite (q_msize _ _ R), mul32_ok.
    + cbn [bind]. destruct (q_dims _ _ R) as (_ & _ & -> & ->); [destruct (mats b); [cbn in Hq; lia|discriminate]|].
      f_equal. f_equal. f_equal. unfold zlen.
      rewrite (concat_len _ (Z.to_nat (brow b * bcol b))) by (apply Forall_first, Fn).
      rewrite firstn_length, Nat.min_l by lia. lia.
    + unfold zlen in L. split; [|nia]. assert (0 <= brow b * bcol b * Z.of_nat l) by nia.
      assert (int32_min <= 0) by (unfold int32_min; lia). lia.
  - rewrite Forall_forall in F. apply F. eapply nth_error_In; eauto.
Qed.

Lemma urep_shows u b : urep u b -> ushows n_row n_col u b.
Proof.
  intros R. split; [unfold zlen; rewrite (urep_len u b R); reflexivity|].
  split; [intros N; apply (q_dims _ _ R) in N; tauto|].
  split; [intros i; apply batch_size_ok, R|].
  intros i j.
  destruct (in_range i (length (mats b))) as [q|] eqn:Ei.
  - apply in_range_inv in Ei. destruct Ei as [Hq ->].
    destruct (urep_row u b q R Hq) as (ms & H1 & H2 & -> & F & L & C & D).
    destruct (in_range j (length ms)) as [l|] eqn:Ej.
    + apply in_range_inv in Ej. destruct Ej as [Hl ->].
      destruct (nth_error_lt_Some _ _ _ Hl) as [m Hm].
      destruct (locate_ok u b q l ms m R H1 Hm) as [E Em].
      unfold uget. rewrite E. cbn [bind]. rewrite (vget_some _ _ _ H2). cbn [bind].
      rewrite (concat_split ms l m Hm). rewrite (nth_error_nth _ _ _ Hm).
      replace (Z.to_nat (brow b * bcol b)) with (length m) by (unfold zlen in Em; lia).
      apply read_block.
    + unfold uget, ulocate. rewrite (batch_size_ok u b) by exact R. rewrite in_range_nat by exact Hq.
      cbn [bind]. rewrite (nth_error_nth _ _ _ H1). apply in_range_none in Ej. unfold zlen.
      destruct (Z.leb_spec 0 j), (Z.ltb_spec j (Z.of_nat (length ms))); try lia; reflexivity.
  - unfold uget, ulocate. rewrite (batch_size_ok u b) by exact R. rewrite Ei. reflexivity.
Qed.

Lemma Forall_upd {A} (P : A -> Prop) l n x : Forall P l -> P x -> Forall P (upd n x l).
Proof. intros F. revert n. induction F; intros [|n] X; cbn; constructor; auto. Qed.

Lemma map_upd {A B} (f : A -> B) n x l : map f (upd n x l) = upd n (f x) (map f l).
Proof. revert n. induction l; intros [|n]; cbn; f_equal; auto. Qed.

Lemma ustep_ok u b c : urep u b -> ucovered n_row n_col b c ->
  match bstep dflt b c with
  | Some b' => exists u', do_ucall dflt n_row n_col u c = Ok u' /\ urep u' b'
  | None => do_ucall dflt n_row n_col u c = Abort
  end.
Proof.
  intros R C. destruct c as [n r k|i s|i j m]; cbn [bstep do_ucall].
  - destruct C as (Pr & Pk & Pm & Cr & Cc). unfold Resize3, ResizeMatrix.
    assert (A1 : (if 0 <=? n_row then (r =? -1) || (r =? n_row) else true) = true).
    { destruct Cr as [-> | ->]; [reflexivity|]. rewrite Z.eqb_refl, orb_true_r. destruct (0 <=? r); reflexivity. }
    assert (A2 : (if 0 <=? n_col then (k =? -1) || (k =? n_col) else true) = true).
    { destruct Cc as [-> | ->]; [reflexivity|]. rewrite Z.eqb_refl, orb_true_r. destruct (0 <=? k); reflexivity. }
    rewrite A1, A2. cbn [assert_ bind].
    destruct (Z.leb_spec 0 r); [|lia]. destruct (Z.leb_spec 0 k); [|lia].
    assert (Er : forall x, Rows n_row {| row_dynamic := r; col_dynamic := k; m_size := x; brows := brows u |} = r).
    { intros x. unfold Rows. cbn. destruct (Z.ltb_spec 0 n_row); [|reflexivity]. lia. }
    assert (Ec : forall x, Cols n_col {| row_dynamic := r; col_dynamic := k; m_size := x; brows := brows u |} = k).
    { intros x. unfold Cols. cbn. destruct (Z.ltb_spec 0 n_col); [|reflexivity]. lia. }
    rewrite Er, Ec. rewrite mul32_ok by (unfold int32_min; nia). cbn [bind row_dynamic col_dynamic m_size brows].
    eexists. split; [reflexivity|]. constructor; cbn [mats brow bcol brows].
    + rewrite fit_nil, map_repeat_. reflexivity.
    + lia.
    + unfold MSize. cbn [m_size]. destruct (Z.leb_spec 0 n_row), (Z.leb_spec 0 n_col); cbn [andb]; try reflexivity.
      destruct Cr as [Cr|Cr], Cc as [Cc|Cc]; lia.
    + apply Forall_forall. intros ms I. apply repeat_spec in I. subst ms.
      split; [constructor|]. unfold zlen. cbn. unfold int32_max. lia.
    + intros _. split; [exact Pr|]. split; [exact Pk|]. unfold Rows, Cols. cbn [row_dynamic col_dynamic].
      destruct (Z.ltb_spec 0 n_row), (Z.ltb_spec 0 n_col); split; lia.
  - cbn [ucovered] in C. unfold ResizeBatch. rewrite (q_msize _ _ R).
    destruct (q_nonneg _ _ R) as [N1 N2].
    rewrite mul32_ok.
    2:{ split; [|exact C]. assert (0 <= Z.of_nat s * (brow b * bcol b)) by nia.
        assert (int32_min <= 0) by (unfold int32_min; lia). lia. }
    cbn [bind]. rewrite (urep_len u b R).
    destruct (in_range i (length (mats b))) as [q|] eqn:Ei; [|reflexivity].
    apply in_range_inv in Ei. destruct Ei as [Hq ->].
    destruct (urep_row u b q R Hq) as (ms & H1 & H2 & Hn & F & L & Cn & D).
    eexists. split; [reflexivity|].
    assert (Fn : Forall (fun m => length m = Z.to_nat (brow b * bcol b)) ms).
    { eapply Forall_impl; [|exact F]. intros x X. unfold zlen in X. cbv beta. lia. }
    constructor; cbn [mats brow bcol brows].
    + rewrite Hn, map_upd, <- (q_rows _ _ R). f_equal. rewrite (nth_error_nth _ _ _ H2).
      rewrite <- fit_blocks by exact Fn. f_equal. lia.
    + lia.
    + exact (q_msize _ _ R).
    + rewrite Hn. apply Forall_upd; [exact (q_all _ _ R)|]. split.
      * apply Forall_forall. intros x I. unfold fit in I. apply in_app_iff in I. destruct I as [I|I].
        -- rewrite Forall_forall in F. apply F.
           rewrite <- (firstn_skipn s ms). apply in_or_app. left. exact I.
        -- apply repeat_spec in I. subst x. unfold zlen. rewrite repeat_length. lia.
      * unfold zlen. rewrite fit_length. exact C.
    + intros _. destruct (q_dims _ _ R) as (A & B & E1 & E2); [destruct (mats b); [cbn in Hq; lia|discriminate]|].
      auto.
  - cbn [ucovered] in C. unfold uset.
    destruct (in_range i (length (mats b))) as [q|] eqn:Ei.
    + apply in_range_inv in Ei. destruct Ei as [Hq ->].
      destruct (urep_row u b q R Hq) as (ms & H1 & H2 & Hn & F & L & Cn & D). rewrite Hn.
      destruct (in_range j (length ms)) as [l|] eqn:Ej.
      * apply in_range_inv in Ej. destruct Ej as [Hl ->].
        destruct (nth_error_lt_Some _ _ _ Hl) as [m0 Hm].
        destruct (locate_ok u b q l ms m0 R H1 Hm) as [E Em]. rewrite E. cbn [bind].
        rewrite (vget_some _ _ _ H2). cbn [bind].
        rewrite (concat_split ms l m0 Hm).
        replace (Z.to_nat (brow b * bcol b)) with (length m) by (unfold zlen in C; lia).
        rewrite write_block by (unfold zlen in *; lia). cbn [bind].
        rewrite vset_some by (rewrite (urep_len u b R); exact Hq). cbn [bind].
        eexists. split; [reflexivity|]. constructor; cbn [mats brow bcol brows].
        -- rewrite map_upd, <- (q_rows _ _ R). f_equal. symmetry. apply upd_split. exact Hl.
        -- exact (q_nonneg _ _ R).
        -- exact (q_msize _ _ R).
        -- apply Forall_upd; [exact (q_all _ _ R)|]. split; [apply Forall_upd; assumption|].
           unfold zlen. rewrite upd_length. exact L.
        -- intros _. apply (q_dims _ _ R). destruct (mats b); [cbn in Hq; lia|discriminate].
      * unfold ulocate. rewrite (batch_size_ok u b) by exact R. rewrite in_range_nat by exact Hq.
        cbn [bind]. rewrite Hn. apply in_range_none in Ej. unfold zlen.
        destruct (Z.leb_spec 0 j), (Z.ltb_spec j (Z.of_nat (length ms))); try lia; reflexivity.
    + unfold ulocate. rewrite (batch_size_ok u b) by exact R. rewrite Ei. reflexivity.
Qed.

Lemma urun_ok : forall cs u b, urep u b -> ucovered_all dflt n_row n_col b cs ->
  match bsteps dflt b cs with
  | Some b' => exists u', urun dflt n_row n_col u cs = Ok u' /\ urep u' b'
  | None => urun dflt n_row n_col u cs = Abort
  end.
Proof.
  induction cs as [|c cs IH]; intros u b R C; cbn [bsteps urun].
  - exists u. auto.
  - cbn [ucovered_all] in C. destruct C as [C C']. pose proof (ustep_ok u b c R C) as G.
    destruct (bstep dflt b c) as [b'|].
    + destruct G as (u' & E & R'). rewrite E. cbn [bind]. apply IH; assumption.
    + rewrite G. reflexivity.
Qed.

Theorem uniform_history cs : ucovered_all dflt n_row n_col (no_batches n_row n_col) cs ->
  match bsteps dflt (no_batches n_row n_col) cs with
  | Some b => exists u, urun dflt n_row n_col (new_ubatch n_row n_col) cs = Ok u /\ ushows n_row n_col u b
  | None => urun dflt n_row n_col (new_ubatch n_row n_col) cs = Abort
  end.
Proof.
  intros C. pose proof (urun_ok cs _ _ urep_new C) as G.
  destruct (bsteps dflt (no_batches n_row n_col) cs); [|exact G].
  destruct G as (u & E & R). exists u. split; [exact E|]. apply urep_shows, R.
Qed.
End Uniform.

(** An empty shape: asking for the number of matrices divides by zero. *)
Lemma empty_shape (T : Type) (dflt : T) n_col i n : (0 <= i < Z.of_nat n) -> (0 < n_col) ->
  exists u, Resize3 (-1) n_col (new_ubatch (-1) n_col) n 0 n_col = @Ok (ubatch T) u /\
    BatchSize (-1) n_col u i = UB.
Proof.
  intros Hi Hc. unfold Resize3, ResizeMatrix. cbn [Z.leb Z.compare assert_ bind].
  rewrite Z.eqb_refl, orb_true_r.
  destruct (Z.leb_spec 0 n_col); [|lia]. cbn [assert_ bind].
  unfold Rows, Cols. cbn [Z.ltb Z.compare row_dynamic col_dynamic].
  destruct (Z.ltb_spec 0 n_col); [|lia].
  rewrite mul32_ok by (unfold int32_min, int32_max; lia). cbn [bind].
  eexists. split; [reflexivity|]. unfold BatchSize. cbn [brows]. rewrite fit_nil.
  replace i with (Z.of_nat (Z.to_nat i)) by lia.
  rewrite (vat_some _ _ (@nil T)).
  - cbn [bind]. unfold MSize. reflexivity.
  - rewrite nth_error_repeat by lia. reflexivity.
Qed.

(** ** Matrix arrays *)
Section Matrix.
Variable T : Type.
Variable dflt : T.

Lemma table_dims ni nj (a a' : amat T) n r c i :
  (ni = -1 /\ nj = -1 \/ ni = -1 /\ 0 <= nj \/ 0 <= ni /\ 0 <= nj) ->
  0 < r -> 0 <= c -> mResize dflt ni nj a n r c = Ok a' -> 0 <= i < Z.of_nat n ->
  zlen (mrows a') = Z.of_nat n /\
  MatRowSize ni a' i = Ok r /\ MatColSize ni nj a' i = Ok c /\ mat_at ni nj a' i = Ok (r, c) /\
  exists row, vat (mrows a') i = Ok row /\ zlen row = r * c.
Proof.
  intros K Pr Pc E Hi. unfold mResize in E.
  destruct (if 0 <=? ni then r =? ni else true) eqn:A1; [|discriminate].
  destruct (if 0 <=? nj then c =? nj else true) eqn:A2; [|discriminate]. cbn [assert_ bind] in E.
  destruct (mul32 r c) as [k| |] eqn:Ek; try discriminate. cbn [bind] in E.
  assert (k = r * c).
  { unfold mul32 in Ek. destruct (_ && _); [congruence|discriminate]. } subst k.
  assert (Cs : base_csr ni nj = false).
  { unfold base_csr. destruct (Z.eqb_spec ni (-2)), (Z.eqb_spec nj (-2)); try reflexivity; lia. }
  rewrite Cs in E. inversion E; subst a'; clear E. cbn [mrows nRows nRow_dynamic].
  set (w := Z.to_nat (r * c)).
  pose proof (regroup_widths T dflt w n (concat (mrows a))) as Fw.
  assert (Ln : length (regroup dflt (repeat w n) (concat (mrows a))) = n).
  { rewrite regroup_length, repeat_length. reflexivity. }
  set (rows := regroup dflt (repeat w n) (concat (mrows a))) in *.
  destruct (nth_error_lt_Some _ rows (Z.to_nat i)) as [row Hr]; [lia|].
  assert (Hv : vat rows i = Ok row).
  { replace i with (Z.of_nat (Z.to_nat i)) by lia. apply vat_some. exact Hr. }
  assert (Lr : zlen row = r * c).
  { rewrite Forall_forall in Fw. pose proof (Fw row (nth_error_In _ _ Hr)) as L. unfold zlen, w in *. cbv beta in L. nia. }
  assert (Dv : r * c / r = c) by (rewrite Z.mul_comm; apply Z.div_mul; lia).
  assert (NJ : (if 0 <=? nj then c =? nj else true) = true) by exact A2.
  assert (CN : 0 <= nj -> c = nj).
  { intros N. destruct (Z.leb_spec 0 nj); [|lia]. apply Z.eqb_eq in A2. exact A2. }
  assert (RN : 0 <= ni -> r = ni).
  { intros N. destruct (Z.leb_spec 0 ni); [|lia]. apply Z.eqb_eq in A1. exact A1. }
  split; [unfold zlen; lia|].
  destruct K as [[-> ->]|[[-> K]|[K1 K2]]].
  - split; [reflexivity|]. unfold MatColSize, MatRowSize, mat_at, columns. cbn [Z.leb Z.compare Z.eqb bind nRow_dynamic mrows Pos.eqb].
    rewrite Hv. cbn [bind]. rewrite Lr, Dv. destruct (Z.eqb_spec r 0); [lia|]. cbn [bind assert_].
    repeat split; auto. exists row. auto.
  - pose proof (CN K) as ->. destruct (Z.leb_spec 0 nj); [|lia].
    split; [reflexivity|]. unfold MatColSize, mat_at, columns. destruct (Z.leb_spec 0 nj); [|lia].
    cbn [Z.eqb bind nRow_dynamic mrows Pos.eqb]. rewrite Hv. cbn [bind]. rewrite Lr, Dv.
    destruct (Z.eqb_spec r 0); [lia|]. cbn [bind assert_]. rewrite Z.eqb_refl. cbn [assert_ bind].
    repeat split; auto. exists row. auto.
  - pose proof (CN K2) as ->. pose proof (RN K1) as ->.
    unfold MatRowSize, MatColSize, mat_at, columns.
    destruct (Z.leb_spec 0 nj); [|lia]. destruct (Z.leb_spec 0 ni); [|lia].
    destruct (Z.eqb_spec ni (-2)); [lia|]. destruct (Z.eqb_spec ni (-1)); [lia|].
    cbn [bind mrows]. rewrite Hv. cbn [bind]. rewrite Lr, Dv.
    destruct (Z.eqb_spec ni 0); [lia|]. cbn [bind assert_]. rewrite Z.eqb_refl. cbn [assert_ bind].
    repeat split; auto. exists row. auto.
Qed.

Record nrep (a : amat T) (dims : list (Z * Z)) : Prop := {
  n_len : length (nRows a) = length dims;
  n_len' : length (mrows a) = length dims;
  n_dims : forall k r c, nth_error dims k = Some (r, c) -> 0 < r /\ 0 <= c /\
     nth_error (nRows a) k = Some r /\
     exists row, nth_error (mrows a) k = Some row /\ zlen row = r * c
}.

Lemma nrep_step a dims i r c : nrep a dims -> 0 < r -> 0 <= c -> r * c <= int32_max ->
  0 <= i < zlen dims ->
  exists a', ResizeMat dflt (-2) a i r c = Ok a' /\ nrep a' (upd (Z.to_nat i) (r, c) dims) /\
    (forall q row, q <> Z.to_nat i -> nth_error (mrows a) q = Some row -> nth_error (mrows a') q = Some row).
Proof.
  intros R Pr Pc Pm Hi. unfold ResizeMat. cbn [Z.eqb Pos.eqb].
  rewrite mul32_ok by (unfold int32_min; nia). cbn [bind]. unfold zlen in Hi.
  assert (Ei : i = Z.of_nat (Z.to_nat i)) by lia.
  assert (Er : in_range i (length (mrows a)) = Some (Z.to_nat i)).
  { rewrite Ei at 1. apply in_range_nat. rewrite (n_len' _ _ R). lia. }
  rewrite Er.
  assert (Ev : vset (nRows a) i r = Ok (upd (Z.to_nat i) r (nRows a))).
  { rewrite Ei at 1. apply vset_some. rewrite (n_len _ _ R). lia. }
  rewrite Ev. cbn [bind].
  eexists. split; [reflexivity|]. split.
  - constructor; cbn [nRows mrows].
    + rewrite !upd_length. apply R.
    + rewrite !upd_length. apply R.
    + intros k r' c' Hk. destruct (Nat.eq_dec (Z.to_nat i) k) as [Ek|Ek].
      * subst k. rewrite nth_error_upd_same in Hk by lia. inversion Hk; subst r' c'.
        split; [exact Pr|]. split; [exact Pc|].
        split; [apply nth_error_upd_same; rewrite (n_len _ _ R); lia|].
        eexists. split; [apply nth_error_upd_same; rewrite (n_len' _ _ R); lia|].
        unfold zlen. rewrite fit_length. nia.
      * rewrite nth_error_upd_other in Hk by exact Ek. rewrite !nth_error_upd_other by exact Ek.
        apply (n_dims _ _ R _ _ _ Hk).
  - intros q row Hq Hr. cbn [mrows]. rewrite nth_error_upd_other by auto. exact Hr.
Qed.

Lemma nrun : forall cs a dims, nrep a dims -> Forall (mcovered (length dims)) cs ->
  exists a', mrun dflt (-2) a cs = Ok a' /\ nrep a' (given dims cs).
Proof.
  induction cs as [|[[i r] c] cs IH]; intros a dims R F; cbn [mrun given fold_left].
  - exists a. auto.
  - inversion F as [|? ? Hc F']; subst. cbn [mcovered] in Hc. destruct Hc as (Hi & Pr & Pc & Pm).
    destruct (nrep_step a dims i r c R Pr Pc Pm) as (a1 & E & R1 & _); [exact Hi|].
    rewrite E. cbn [bind]. apply IH; [exact R1|]. rewrite upd_length. exact F'.
Qed.

Theorem nonuniform_dims n r0 c0 cs : 0 < r0 -> 0 <= c0 -> r0 * c0 <= int32_max ->
  Forall (mcovered n) cs ->
  exists a, (do a0 <- mResize dflt (-2) (-2) new_amat n r0 c0; mrun dflt (-2) a0 cs) = Ok a /\
    forall k r c, nth_error (given (repeat (r0, 0) n) cs) k = Some (r, c) ->
      MatRowSize (-2) a (Z.of_nat k) = Ok r /\ MatColSize (-2) (-2) a (Z.of_nat k) = Ok c /\
      mat_at (-2) (-2) a (Z.of_nat k) = Ok (r, c) /\
      exists row, vat (mrows a) (Z.of_nat k) = Ok row /\ zlen row = r * c.
Proof.
  intros Pr Pc Pm F. unfold mResize. cbn [Z.leb Z.compare assert_ bind].
  rewrite mul32_ok by (unfold int32_min; nia). cbn [bind Z.eqb Pos.eqb new_amat mrows nRows nRow_dynamic].
  unfold base_csr. cbn [Z.eqb Pos.eqb orb].
  match goal with |- context [mrun dflt (-2) ?x cs] => set (a0 := x) end.
  assert (R0 : nrep a0 (repeat (r0, 0) n)).
  { constructor; cbn.
    - rewrite !repeat_length. reflexivity.
    - rewrite fit_length, repeat_length. reflexivity.
    - intros k r c Hk.
      assert (Lk : (k < n)%nat).
      { rewrite <- (repeat_length (r0, 0) n). apply nth_error_Some. congruence. }
      rewrite nth_error_repeat in Hk by exact Lk. inversion Hk; subst.
      split; [exact Pr|]. split; [lia|]. split; [apply nth_error_repeat, Lk|].
      exists []. split; [rewrite fit_nil; apply nth_error_repeat, Lk|]. cbn. lia. }
  destruct (nrun cs a0 _ R0) as (a & E & R); [rewrite repeat_length; exact F|].
  exists a. split; [exact E|]. intros k r c Hk.
  destruct (n_dims _ _ R _ _ _ Hk) as (P1 & P2 & H1 & row & H2 & H3).
  unfold MatRowSize, MatColSize, mat_at, columns. cbn [Z.leb Z.compare Z.eqb Pos.eqb].
  unfold MatRowSize. cbn [Z.leb Z.compare Z.eqb Pos.eqb].
  rewrite (vat_some _ _ _ H1), (vget_some _ _ _ H1), (vat_some _ _ _ H2). cbn [bind].
  rewrite H3. destruct (Z.eqb_spec r 0); [lia|].
  assert (Dv : r * c / r = c) by (rewrite Z.mul_comm; apply Z.div_mul; lia). rewrite Dv. cbn [bind assert_].
  repeat split; auto. exists row. auto.
Qed.

(** Columns given but not reported. *)
Lemma dynamic_columns_lost ni (a : amat T) i : ni <> -1 ->
  MatColSize ni (-1) a i = Ok UnInitRowsize.
Proof.
  intros N. unfold MatColSize. cbn [Z.leb Z.compare Z.eqb Pos.eqb].
  destruct (Z.eqb_spec ni (-1)); [contradiction|reflexivity].
Qed.

Lemma fixed_rows_not_resized ni (a : amat T) i r c : 0 <= ni -> ResizeMat dflt ni a i r c = Ok a.
Proof.
  intros N. unfold ResizeMat. destruct (Z.eqb_spec ni (-2)); [lia|]. destruct (Z.eqb_spec ni (-1)); [lia|]. reflexivity.
Qed.
End Matrix.

Lemma second_resize_misreports :
  exists a, (do a0 <- mResize 0 (-2) (-2) new_amat 1 2 3;
             do a1 <- ResizeMat 0 (-2) a0 0 2 3;
             mResize 0 (-2) (-2) a1 1 4 2) = Ok a /\
    mat_at (-2) (-2) a 0 = Ok (4, 1) /\ vat (mrows a) 0 = Ok [0; 0; 0; 0; 0; 0].
Proof. eexists. split; [reflexivity|]. split; reflexivity. Qed.

Definition sample_ucalls : list (ucall Z) :=
  [UResize 2 1 2; UResizeBatch 1 2; USet 1 1 [7; 8]; UResizeBatch 1 3; UResizeBatch 0 1].
Lemma sample_uniform : ucovered_all 0 (-1) 2 (no_batches (-1) 2) sample_ucalls /\
  exists b, bsteps 0 (no_batches (-1) 2) sample_ucalls = Some b /\
    mats b = [[[0; 0]]; [[0; 0]; [7; 8]; [0; 0]]].
Proof.
  split.
  - vm_compute. repeat split; auto; discriminate.
  - eexists. split; [reflexivity|]. reflexivity.
Qed.
