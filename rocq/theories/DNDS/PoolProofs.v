From Coq Require Import List Arith Bool Lia Permutation.
From Verif Require Import DNDS.PoolModel DNDS.PoolSpec.
Import ListNotations.

Lemma nodup_r {A} (a b : list A) : NoDup (a ++ b) -> NoDup b.
Proof. induction a as [|x a IH]; cbn; [auto|]. intros D. inversion D; auto. Qed.
Lemma nodup_l {A} (a b : list A) : NoDup (a ++ b) -> NoDup a.
Proof.
  induction a as [|x a IH]; cbn; [constructor|]. intros D. inversion D as [|? ? N D']; subst.
  constructor; [|auto]. intros I. apply N, in_or_app. auto.
Qed.

Definition bor (l : list (nat * handle)) : list nat := flat_map (fun kx => ptr_list (ptr (snd kx))) l.

(** Every object ever constructed is in exactly one place. *)
Definition inv (w : world) : Prop :=
  NoDup (map fst (handles w)) /\
  Permutation (seq 0 (fresh w)) (pool w ++ bor (handles w) ++ destroyed w) /\
  (forall h x, find_handle (handles w) h = Some x -> hpool x = false -> ptr x = None) /\
  (alive w = false -> pool w = []).

Lemma find_in l h x : find_handle l h = Some x -> In (h, x) l.
Proof.
  induction l as [|[k y] l IH]; cbn; [discriminate|].
  destruct (Nat.eqb_spec k h) as [->|N]; [intros E; inversion E; auto|auto].
Qed.
Lemma find_none l h : find_handle l h = None <-> ~ In h (map fst l).
Proof.
  induction l as [|[k y] l IH]; cbn; [tauto|].
  destruct (Nat.eqb_spec k h) as [->|N]; [split; [discriminate|tauto]|]. rewrite IH. tauto.
Qed.
Lemma drop_perm l h x : find_handle l h = Some x -> Permutation l ((h, x) :: drop_handle l h).
Proof.
  induction l as [|[k y] l IH]; cbn; [discriminate|].
  destruct (Nat.eqb_spec k h) as [->|N]; [intros E; inversion E; auto|].
  intros E. etransitivity; [apply perm_skip, (IH E)|]. apply perm_swap.
Qed.
Lemma find_drop_other l h k : h <> k -> find_handle (drop_handle l h) k = find_handle l k.
Proof.
  intros N. induction l as [|[j y] l IH]; cbn; [reflexivity|].
  destruct (Nat.eqb_spec j h) as [->|M].
  - destruct (Nat.eqb_spec h k); [congruence|reflexivity].
  - cbn. rewrite IH. reflexivity.
Qed.
Lemma drop_keys l h : NoDup (map fst l) ->
  NoDup (map fst (drop_handle l h)) /\
  forall k, In k (map fst (drop_handle l h)) <-> In k (map fst l) /\ k <> h.
Proof.
  induction l as [|[j y] l IH]; cbn; [intros _; split; [constructor|tauto]|].
  intros ND. inversion ND as [|? ? NI ND']; subst. destruct (IH ND') as [A B].
  destruct (Nat.eqb_spec j h) as [->|M].
  - split; [exact ND'|]. intros k. split; [intros I; split; [auto|congruence]|]. intuition congruence.
  - cbn. split.
    + constructor; [rewrite B; tauto|exact A].
    + intros k. rewrite B. intuition congruence.
Qed.
Lemma bor_perm a b : Permutation a b -> Permutation (bor a) (bor b).
Proof. apply Permutation_flat_map. Qed.

Lemma find_app_nodup l h x : NoDup (map fst l) -> In (h, x) l -> find_handle l h = Some x.
Proof.
  induction l as [|[k y] l IH]; cbn; [tauto|]. intros ND [E|I].
  - inversion E; subst. rewrite Nat.eqb_refl. reflexivity.
  - inversion ND as [|? ? NI ND']; subst. destruct (Nat.eqb_spec k h) as [->|N]; [|auto].
    exfalso. apply NI. apply (in_map fst) in I. exact I.
Qed.

Lemma bor_drop l h x : find_handle l h = Some x ->
  Permutation (bor l) (ptr_list (ptr x) ++ bor (drop_handle l h)).
Proof. intros F. apply (bor_perm _ _ (drop_perm _ _ _ F)). Qed.

Lemma bor_cons h x l : bor ((h, x) :: l) = ptr_list (ptr x) ++ bor l.
Proof. reflexivity. Qed.

Lemma step_inv w o w' : inv w -> step w o = Some w' -> inv w'.
Proof.
  intros (K & P & H & A) E. destruct o as [h|h|h src|h src|h|n|]; cbn in E.
  - destruct (alive w) eqn:AL; [|discriminate].
    destruct (find_handle (handles w) h) eqn:F; [discriminate|].
    unfold take in E. destruct (pool w) as [|x p] eqn:PW; inversion E; subst; clear E.
    + split; [|split; [|split]]; cbn [handles pool fresh destroyed alive].
      * cbn. constructor; [apply find_none, F|exact K].
      * rewrite bor_cons. exact P.
      * intros k y. cbn. destruct (h =? k); [intros E; inversion E; subst; discriminate|apply H].
      * discriminate.
    + split; [|split; [|split]]; cbn [handles pool fresh destroyed alive].
      * cbn. constructor; [apply find_none, F|exact K].
      * rewrite bor_cons. etransitivity; [exact P|]. cbn. apply Permutation_middle.
      * intros k y. cbn. destruct (h =? k); [intros E; inversion E; subst; discriminate|apply H].
      * discriminate.
  - destruct (alive w) eqn:AL; [|discriminate].
    destruct (find_handle (handles w) h) eqn:F; [discriminate|].
    unfold take in E. destruct (pool w) as [|x p] eqn:PW; inversion E; subst; clear E.
    + split; [|split; [|split]]; cbn [handles pool fresh destroyed alive].
      * cbn. constructor; [apply find_none, F|exact K].
      * rewrite bor_cons. rewrite seq_S. cbn.
        etransitivity; [apply Permutation_app_comm|]. cbn. apply perm_skip. exact P.
      * intros k y. cbn. destruct (h =? k); [intros E; inversion E; subst; discriminate|apply H].
      * discriminate.
    + split; [|split; [|split]]; cbn [handles pool fresh destroyed alive].
      * cbn. constructor; [apply find_none, F|exact K].
      * rewrite bor_cons. etransitivity; [exact P|]. cbn. apply Permutation_middle.
      * intros k y. cbn. destruct (h =? k); [intros E; inversion E; subst; discriminate|apply H].
      * discriminate.
  - destruct (find_handle (handles w) h) eqn:F; [discriminate|].
    destruct (find_handle (handles w) src) as [x|] eqn:Fs; [|discriminate].
    inversion E; subst; clear E.
    destruct (drop_keys (handles w) src K) as [K1 K2].
    apply find_none in F.
    assert (IS : In src (map fst (handles w))) by (apply (in_map fst) with (x := (src, x)), find_in, Fs).
    assert (h <> src) by congruence.
    split; [|split; [|split]]; cbn [handles pool fresh destroyed alive].
    + cbn. constructor; [cbn; rewrite K2; intuition|]. constructor; [rewrite K2; tauto|exact K1].
    + rewrite !bor_cons. cbn [ptr ptr_list app]. etransitivity; [exact P|].
      apply Permutation_app_head, Permutation_app_tail, bor_drop, Fs.
    + intros k y. cbn [find_handle]. destruct (Nat.eqb_spec h k).
      * intros E; inversion E; subst. eapply H; eauto.
      * destruct (Nat.eqb_spec src k); [intros E; inversion E; subst; reflexivity|].
        rewrite find_drop_other by auto. apply H.
    + exact A.
  - destruct (Nat.eqb_spec h src) as [|NE]; [discriminate|].
    destruct (find_handle (handles w) h) as [y|] eqn:F; [|discriminate].
    destruct (find_handle (handles w) src) as [x|] eqn:Fs; [|discriminate].
    inversion E; subst; clear E.
    destruct (drop_keys (handles w) h K) as [K1 K2].
    destruct (drop_keys _ src K1) as [K3 K4].
    assert (Fs' : find_handle (drop_handle (handles w) h) src = Some x)
      by (rewrite find_drop_other; auto).
    split; [|split; [|split]]; cbn [handles pool fresh destroyed alive].
    + cbn. constructor; [cbn; rewrite K4, K2; intuition|].
      constructor; [rewrite K4; tauto|exact K3].
    + rewrite !bor_cons. cbn [ptr ptr_list app]. etransitivity; [exact P|].
      apply Permutation_app_head.
      rewrite app_assoc.
      apply Permutation_app_tail.
      etransitivity; [apply bor_drop, F|].
      etransitivity; [apply Permutation_app_comm|].
      apply Permutation_app_tail. apply bor_drop, Fs'.
    + intros k z. cbn [find_handle]. destruct (Nat.eqb_spec h k).
      * intros E; inversion E; subst. eapply H; eauto.
      * destruct (Nat.eqb_spec src k); [intros E; inversion E; subst; reflexivity|].
        rewrite !find_drop_other by auto. apply H.
    + exact A.
  - destruct (find_handle (handles w) h) as [x|] eqn:F; [|discriminate].
    inversion E; subst; clear E.
    destruct (drop_keys (handles w) h K) as [K1 K2].
    split; [|split; [|split]]; cbn [handles pool fresh destroyed alive].
    + exact K1.
    + etransitivity; [exact P|].
      destruct (alive w && hpool x).
      * etransitivity; [apply Permutation_app_head, Permutation_app_tail, bor_drop, F|].
        rewrite <- !app_assoc. rewrite !app_assoc. apply Permutation_app_tail, Permutation_app_tail.
        apply Permutation_app_comm.
      * apply Permutation_app_head.
        etransitivity; [apply Permutation_app_tail, bor_drop, F|].
        rewrite !app_assoc. apply Permutation_app_tail, Permutation_app_comm.
    + intros k z E. apply H with k. destruct (Nat.eq_dec h k) as [<-|N].
      * exfalso. apply find_in, (in_map fst) in E. cbn in E. apply K2 in E. tauto.
      * rewrite find_drop_other in E by auto. exact E.
    + intros AL. rewrite AL. cbn. auto.
  - destruct (alive w) eqn:AL; [|discriminate]. inversion E; subst; clear E.
    split; [exact K|]. split; [|split; [exact H|discriminate]].
    cbn [handles pool fresh destroyed alive].
    rewrite seq_app. cbn.
    etransitivity; [apply Permutation_app_comm|].
    apply Permutation_app; [apply Permutation_rev|].
    etransitivity; [exact P|]. rewrite !app_assoc. apply Permutation_app_tail, Permutation_app_comm.
  - destruct (alive w) eqn:AL; [|discriminate]. inversion E; subst; clear E.
    split; [exact K|]. split; [|split; [exact H|reflexivity]].
    cbn [handles pool fresh destroyed alive]. cbn [app].
    etransitivity; [exact P|]. rewrite !app_assoc. apply Permutation_app_tail, Permutation_app_comm.
Qed.

Lemma init_inv : inv world_init.
Proof. split; [constructor|]. split; [reflexivity|]. split; [discriminate|reflexivity]. Qed.

Lemma run_inv l : forall w w', inv w -> run w l = Some w' -> inv w'.
Proof.
  induction l as [|o l IH]; intros w w' I; cbn; [congruence|].
  destruct (step w o) as [w1|] eqn:E; [|discriminate].
  apply IH. eapply step_inv; eauto.
Qed.
Lemma reachable_inv w : reachable w -> inv w.
Proof. intros [l E]. eapply run_inv; eauto using init_inv. Qed.

(** ** Consequences *)
Lemma all_distinct w : reachable w -> NoDup (pool w ++ borrowed w ++ destroyed w).
Proof.
  intros R. apply reachable_inv in R. destruct R as (_ & P & _).
  eapply Permutation_NoDup; [exact P|]. apply seq_NoDup.
Qed.

Lemma owned_once w h h' x : reachable w -> owns w h x -> owns w h' x -> h = h'.
Proof.
  intros R (y & F & E) (y' & F' & E').
  destruct (Nat.eq_dec h h') as [|N]; [assumption|exfalso].
  pose proof (all_distinct w R) as D.
  assert (D' : NoDup (bor (handles w))).
  { apply nodup_r, nodup_l in D. exact D. }
  assert (P : Permutation (bor (handles w)) (x :: x :: bor (drop_handle (drop_handle (handles w) h) h'))).
  { etransitivity; [apply bor_drop, F|]. rewrite E. cbn. apply perm_skip.
    etransitivity; [apply (bor_drop _ h' y'); rewrite find_drop_other; auto|].
    rewrite E'. reflexivity. }
  apply (Permutation_NoDup P) in D'. inversion D' as [|? ? NI]; subst. apply NI. left; reflexivity.
Qed.

Lemma owns_borrowed w h x : owns w h x -> In x (borrowed w).
Proof.
  intros (y & F & E). apply find_in in F. unfold borrowed. apply in_flat_map.
  exists (h, y). split; [exact F|]. cbn. rewrite E. left; reflexivity.
Qed.

Lemma owned_not_pooled w h x : reachable w -> owns w h x -> ~ In x (pool w) /\ ~ In x (destroyed w).
Proof.
  intros R O. pose proof (all_distinct w R) as D. apply owns_borrowed in O.
  split; intros I.
  - apply in_split in I. destruct I as (a & b & E). rewrite E, <- app_assoc in D.
    apply NoDup_remove_2 in D. apply D. apply in_or_app. right.
    apply in_or_app. right. apply in_or_app. left. exact O.
  - apply nodup_r in D. apply in_split in O. destruct O as (a & b & E).
    rewrite E in D. rewrite <- app_assoc in D. cbn in D. apply NoDup_remove_2 in D.
    apply D. apply in_or_app. right. apply in_or_app. right. exact I.
Qed.

(** The objects in the pool and in handles are kept, except when the operation
    explicitly allocates, resizes or drops the pool, or overwrites a handle. *)
Lemma conserved w o w' : reachable w -> alive w = true -> step w o = Some w' ->
  match o with
  | GetAlloc _ => pool w <> []
  | MoveAssign h _ => forall x, ~ owns w h x
  | Resize _ | DropPool => False
  | _ => True
  end ->
  Permutation (pool w' ++ borrowed w') (pool w ++ borrowed w).
Proof.
  intros R AL E C. apply reachable_inv in R. destruct R as (K & P & H & A).
  destruct o as [h|h|h src|h src|h|n|]; cbn in E; try contradiction.
  - rewrite AL in E. destruct (find_handle (handles w) h) eqn:F; [discriminate|].
    unfold take in E. destruct (pool w) as [|x p] eqn:PW; inversion E; subst; clear E.
    + reflexivity.
    + unfold borrowed. cbn. symmetry. apply Permutation_middle.
  - rewrite AL in E. destruct (find_handle (handles w) h) eqn:F; [discriminate|].
    unfold take in E. destruct (pool w) as [|x p] eqn:PW; inversion E; subst; clear E.
    + congruence.
    + unfold borrowed. cbn. symmetry. apply Permutation_middle.
  - destruct (find_handle (handles w) h) eqn:F; [discriminate|].
    destruct (find_handle (handles w) src) as [x|] eqn:Fs; [|discriminate].
    inversion E; subst; clear E. cbn [pool]. apply Permutation_app_head.
    change (Permutation (bor ((h, x) :: (src, {| ptr := None; hpool := false |}) :: drop_handle (handles w) src))
      (bor (handles w))). rewrite !bor_cons. cbn [ptr ptr_list app]. symmetry. apply bor_drop, Fs.
  - destruct (Nat.eqb_spec h src) as [|NE]; [discriminate|].
    destruct (find_handle (handles w) h) as [y|] eqn:F; [|discriminate].
    destruct (find_handle (handles w) src) as [x|] eqn:Fs; [|discriminate].
    inversion E; subst; clear E. cbn [pool]. apply Permutation_app_head.
    change (Permutation (bor ((h, x) :: (src, {| ptr := None; hpool := false |}) :: drop_handle (drop_handle (handles w) h) src))
      (bor (handles w))). rewrite !bor_cons. cbn [ptr ptr_list app]. symmetry.
    etransitivity; [apply bor_drop, F|].
    assert (ptr y = None) as ->.
    { destruct (ptr y) as [z|] eqn:Z; [|reflexivity]. exfalso. apply (C z). exists y. auto. }
    cbn [ptr_list app]. apply bor_drop. rewrite find_drop_other; auto.
  - destruct (find_handle (handles w) h) as [x|] eqn:F; [|discriminate].
    inversion E; subst; clear E. unfold borrowed. cbn [pool handles].
    fold (bor (drop_handle (handles w) h)) (bor (handles w)).
    rewrite AL. cbn [andb]. symmetry.
    etransitivity; [apply Permutation_app_head, bor_drop, F|].
    destruct (hpool x) eqn:HP.
    + rewrite !app_assoc. apply Permutation_app_tail, Permutation_app_comm.
    + rewrite (H h x F HP). reflexivity.
Qed.

Lemma conserved_count w o w' : reachable w -> alive w = true -> step w o = Some w' ->
  match o with
  | GetAlloc _ => pool w <> []
  | MoveAssign h _ => forall x, ~ owns w h x
  | Resize _ | DropPool => False
  | _ => True
  end -> total w' = total w.
Proof.
  intros R AL E C. unfold total. rewrite <- !app_length.
  apply Permutation_length. eapply conserved; eauto.
Qed.

Lemma drop_owns w h x : owns w h x -> exists w', step w (Destroy h) = Some w'.
Proof. intros (y & F & _). cbn. rewrite F. eauto. Qed.

(** Returning puts the object back, and it is the next one handed out. *)
Lemma returned w h x w' : reachable w -> alive w = true -> owns w h x ->
  step w (Destroy h) = Some w' ->
  pool w' = x :: pool w /\ find_handle (handles w') h = None /\
  forall k, find_handle (handles w') k = None ->
    exists w2, step w' (Get k) = Some w2 /\ owns w2 k x /\ pool w2 = pool w.
Proof.
  intros R AL (y & F & PY) E. apply reachable_inv in R. destruct R as (K & P & H & A).
  cbn in E. rewrite F, AL in E. inversion E; subst; clear E. cbn [pool handles].
  assert (HP : hpool y = true).
  { destruct (hpool y) eqn:HP; [reflexivity|]. rewrite (H h y F HP) in PY. discriminate. }
  rewrite HP, PY. cbn [andb ptr_list app]. split; [reflexivity|]. split.
  - apply find_none. rewrite (proj2 (drop_keys (handles w) h K)). tauto.
  - intros k Fk. cbn [step alive handles]. rewrite Fk.
    unfold take. cbn. eexists. split; [reflexivity|]. split; [|reflexivity].
    exists {| ptr := Some x; hpool := true |}. cbn. rewrite Nat.eqb_refl. auto.
Qed.

(** A handle given by [Get] on an empty pool is empty; [GetAlloc] is never. *)
Lemma got w h w' (alloc : bool) : step w (if alloc then GetAlloc h else Get h) = Some w' ->
  match pool w with
  | x :: p => owns w' h x /\ pool w' = p /\ fresh w' = fresh w
  | [] => if alloc then owns w' h (fresh w) /\ pool w' = [] /\ fresh w' = S (fresh w)
          else (forall x, ~ owns w' h x) /\ pool w' = [] /\ fresh w' = fresh w
  end.
Proof.
  intros E. assert (E2 : step w (if alloc then GetAlloc h else Get h) = Some w') by exact E.
  destruct alloc; cbn in E2; destruct (alive w); try discriminate;
  destruct (find_handle (handles w) h); try discriminate; unfold take in E2;
  destruct (pool w) as [|x p]; inversion E2; subst; cbn; repeat split;
  unfold owns; cbn; rewrite ?Nat.eqb_refl; eauto.
  intros x (y & F & PY). rewrite ?Nat.eqb_refl in F. inversion F; subst. discriminate.
Qed.

Lemma resized w n w' : reachable w -> step w (Resize n) = Some w' ->
  length (pool w') = n /\ borrowed w' = borrowed w /\
  (forall x, In x (pool w') -> ~ In x (pool w ++ borrowed w ++ destroyed w)).
Proof.
  intros R E. apply reachable_inv in R. destruct R as (_ & P & _).
  cbn in E. destruct (alive w); [|discriminate]. inversion E; subst; clear E.
  cbn. split; [rewrite rev_length, seq_length; reflexivity|]. split; [reflexivity|].
  intros x I J. apply in_rev in I. apply in_seq in I.
  apply (Permutation_in _ (Permutation_sym P)), in_seq in J. lia.
Qed.

Lemma move_assign_effect w h src x w' : reachable w -> owns w h x ->
  step w (MoveAssign h src) = Some w' ->
  In x (destroyed w') /\ ~ In x (pool w') /\ ~ In x (borrowed w') /\ S (total w') = total w.
Proof.
  intros R O E.
  assert (R' : reachable w').
  { destruct R as [l Hl]. exists (l ++ [MoveAssign h src]).
    clear -Hl E. revert Hl. generalize world_init. induction l as [|o l IH]; intros v; cbn [run app].
    - intros H; inversion H; subst. rewrite E. reflexivity.
    - destruct (step v o); [apply IH|discriminate]. }
  pose proof (all_distinct w' R') as D.
  destruct O as (y & F & PY). cbn in E.
  destruct (Nat.eqb_spec h src) as [|NE]; [discriminate|]. rewrite F in E.
  destruct (find_handle (handles w) src) as [z|] eqn:Fs; [|discriminate].
  inversion E; subst; clear E.
  rewrite PY in *. cbn [pool borrowed destroyed ptr_list app] in *.
  split; [left; reflexivity|].
  rewrite app_assoc in D. apply NoDup_remove_2 in D.
  split; [|split].
  - intros I. apply D. apply in_or_app. left. apply in_or_app. auto.
  - intros I. apply D. apply in_or_app. left. apply in_or_app. auto.
  - unfold total, borrowed. cbn [pool handles].
    change (S (length (pool w) + length (bor ((h, z) :: (src, {| ptr := None; hpool := false |}) :: drop_handle (drop_handle (handles w) h) src)))
      = length (pool w) + length (bor (handles w))).
    rewrite !bor_cons. cbn [ptr ptr_list app].
    assert (Q : Permutation (bor (handles w)) (x :: ptr_list (ptr z) ++ bor (drop_handle (drop_handle (handles w) h) src))).
    { etransitivity; [apply bor_drop, F|]. rewrite PY. cbn. apply perm_skip.
      apply bor_drop. rewrite find_drop_other; auto. }
    apply Permutation_length in Q. rewrite Q. cbn. lia.
Qed.

Definition sample : list op := [Resize 2; Get 0; Get 1; MoveAssign 0 1].
Lemma move_assign_loses : exists w w', run world_init [Resize 2; Get 0; Get 1] = Some w /\
  run world_init sample = Some w' /\ total w = 2 /\ total w' = 1.
Proof. do 2 eexists. split; [vm_compute; reflexivity|]. split; [vm_compute; reflexivity|]. split; reflexivity. Qed.

Lemma sample_world : exists w, run world_init [Resize 2; Get 0; MoveCtor 1 0; Destroy 0; GetAlloc 0; GetAlloc 2; Destroy 1] = Some w
  /\ owns w 0 0 /\ owns w 2 2 /\ pool w = [1] /\ total w = 3 /\ alive w = true.
Proof.
  eexists. split; [vm_compute; reflexivity|].
  split; [eexists; split; reflexivity|]. split; [eexists; split; reflexivity|].
  split; [reflexivity|]. split; reflexivity.
Qed.
