(** Transfers of elements between the buffers of all ranks, in any order; offsets
    of rows in concatenated buffers (C04, C05, C07). *)
From Coq Require Import List ZArith Lia Bool Arith Permutation.
From Verif Require Import Base.Prelude Base.PreludeFacts Base.MPIModel Base.MPIFacts
  DNDS.ArrayModel DNDS.ArraySpec DNDS.ArrayProofs DNDS.ExchangeModel DNDS.ExchangeSpec.
Import ListNotations.
Local Open Scope Z_scope.

Section Transfer.
Variable T : Type.

Definition cell (bs : list (list T)) (r q : nat) : option T :=
  match nth_error bs r with Some b => nth_error b q | None => None end.

(** ((sender, offset), (receiver, offset)) *)
Definition nmove := ((nat * nat) * (nat * nat))%type.
Definition zmove (m : nmove) : move :=
  ((Z.of_nat (fst (fst m)), Z.of_nat (snd (fst m))), (Z.of_nat (fst (snd m)), Z.of_nat (snd (snd m)))).
Definition in_bounds (src dst : list (list T)) (m : nmove) : Prop :=
  cell src (fst (fst m)) (snd (fst m)) <> None /\ cell dst (fst (snd m)) (snd (snd m)) <> None.

Lemma vset_of_nat : forall A (l : list A) n x, (n < length l)%nat -> vset l (Z.of_nat n) x = Ok (upd n x l).
Proof.
  intros. unfold vset. destruct (Z.ltb_spec (Z.of_nat n) 0); [lia|].
  destruct (Z.leb_spec (Z.of_nat (length l)) (Z.of_nat n)); [lia|]. rewrite Nat2Z.id. reflexivity.
Qed.

Lemma transfer_one : forall src dst m, in_bounds src dst m ->
  exists dst', transfer src dst (zmove m) = Ok dst' /\
    map (@length T) dst' = map (@length T) dst /\
    forall r q, cell dst' r q = if Nat.eqb (fst (snd m)) r && Nat.eqb (snd (snd m)) q
                                then cell src (fst (fst m)) (snd (fst m)) else cell dst r q.
Proof.
  intros src dst [[s p] [r0 q0]] [H1 H2]. cbn [fst snd] in *. unfold cell in H1, H2.
  destruct (nth_error src s) as [b|] eqn:Eb; [|congruence].
  destruct (nth_error b p) as [x|] eqn:Ex; [|congruence].
  destruct (nth_error dst r0) as [d|] eqn:Ed; [|congruence].
  destruct (nth_error d q0) as [y|] eqn:Ey; [|congruence].
  pose proof (nth_error_Some_lt _ _ _ _ Ed). pose proof (nth_error_Some_lt _ _ _ _ Ey).
  exists (upd r0 (upd q0 x d) dst). unfold transfer, zmove. cbn [fst snd].
  rewrite (vget_of_nat _ _ _ _ Eb). cbn [bind]. rewrite (vget_of_nat _ _ _ _ Ex). cbn [bind].
  rewrite (vget_of_nat _ _ _ _ Ed). cbn [bind]. rewrite vset_of_nat by auto. cbn [bind].
  rewrite vset_of_nat by auto. split; auto. split.
  - apply nth_error_ext. intro i. rewrite !nth_error_map_, nth_error_upd.
    destruct (Nat.eqb_spec r0 i); auto. subst i. destruct (Nat.ltb_spec r0 (length dst)); [|lia].
    rewrite Ed. cbn. rewrite upd_length. reflexivity.
  - intros r q. unfold cell. rewrite nth_error_upd. destruct (Nat.eqb_spec r0 r); cbn [andb]; auto.
    subst r. destruct (Nat.ltb_spec r0 (length dst)); [|lia]. rewrite nth_error_upd, Eb, Ed.
    destruct (Nat.eqb_spec q0 q); auto. subst q. destruct (Nat.ltb_spec q0 (length d)); [|lia]. auto.
Qed.

Lemma cell_None_lengths : forall b b' r q, map (@length T) b = map (@length T) b' ->
  (cell b r q = None <-> cell b' r q = None).
Proof.
  intros b b' r q H. assert (E : option_map (@length T) (nth_error b r) = option_map (@length T) (nth_error b' r)).
  { rewrite <- !nth_error_map_. congruence. }
  unfold cell. destruct (nth_error b r), (nth_error b' r); try discriminate; try tauto.
  cbn in E. injection E as E. rewrite !nth_error_None. lia.
Qed.

Lemma in_bounds_lengths : forall src dst dst' m, map (@length T) dst = map (@length T) dst' ->
  in_bounds src dst m -> in_bounds src dst' m.
Proof.
  intros src dst dst' m H [H1 H2]. split; auto. intro E. apply H2.
  apply (cell_None_lengths _ _ _ _ H). auto.
Qed.

(** Whatever the order: a place that no move names keeps its element; any other
    place gets the element of one of the moves that name it. *)
Lemma transfers : forall mvs src dst, Forall (in_bounds src dst) mvs ->
  exists dst', foldM (transfer src) dst (map zmove mvs) = Ok dst' /\
    map (@length T) dst' = map (@length T) dst /\
    (forall r q, (forall m, In m mvs -> snd m <> (r, q)) -> cell dst' r q = cell dst r q) /\
    (forall m, In m mvs -> exists m', In m' mvs /\ snd m' = snd m /\
       cell dst' (fst (snd m)) (snd (snd m)) = cell src (fst (fst m')) (snd (fst m'))).
Proof.
  induction mvs as [|m mvs IH]; intros src dst H.
  - exists dst. cbn. repeat split; auto. intros m [].
  - inversion H as [|? ? Hm Hms]; subst. destruct (transfer_one _ _ _ Hm) as [d1 [E1 [L1 C1]]].
    destruct (IH src d1) as [d2 [E2 [L2 [U2 S2]]]].
    { rewrite Forall_forall in *. intros x Hx. eapply in_bounds_lengths; [|apply Hms; auto]. auto. }
    exists d2. cbn [map foldM]. rewrite E1. cbn [bind]. split; auto. split; [congruence|]. split.
    + intros r q Hn. rewrite U2 by (intros; apply Hn; right; auto). rewrite C1.
      destruct (Nat.eqb_spec (fst (snd m)) r); cbn [andb]; auto.
      destruct (Nat.eqb_spec (snd (snd m)) q); auto. exfalso. apply (Hn m); [left; auto|].
      destruct (snd m). cbn in *. congruence.
    + intros m0 Hin.
      destruct (in_dec (fun a b : nat * nat => ltac:(decide equality; apply Nat.eq_dec))
                  (snd m0) (map snd mvs)) as [I|N].
      * apply in_map_iff in I. destruct I as [m1 [Em1 I]]. destruct (S2 m1 I) as [m' [I' [E' C']]].
        exists m'. split; [right; auto|]. split; [congruence|]. rewrite <- Em1. auto.
      * destruct Hin as [->|Hin]; [|exfalso; apply N; apply in_map; auto].
        exists m0. split; [left; auto|]. split; auto. rewrite U2.
        -- rewrite C1, !Nat.eqb_refl. reflexivity.
        -- intros m1 I1 E. apply N. rewrite <- surjective_pairing in E. rewrite <- E. apply in_map. auto.
Qed.

(** *** offsets of rows *)
Definition off (C : list (list T)) (k : nat) : nat := length (concat (firstn k C)).
Definition clen (C : list (list T)) (k : nat) : nat := length (nth k C []).

Lemma off_S : forall C k, off C (S k) = (off C k + clen C k)%nat.
Proof.
  intros C k. unfold off, clen. destruct (nth_error C k) as [row|] eqn:E.
  - rewrite (concat_firstn_S _ _ _ _ E), app_length, (nth_error_nth _ _ _ E). reflexivity.
  - apply nth_error_None in E. rewrite nth_overflow, !firstn_all2 by lia. simpl. lia.
Qed.

Lemma off_0 : forall C, off C 0 = O.
Proof. reflexivity. Qed.

Lemma off_mono : forall C m k, (off C k <= off C (k + m))%nat.
Proof.
  induction m; intros; [rewrite Nat.add_0_r; lia|].
  replace (k + S m)%nat with (S (k + m)) by lia. rewrite off_S. specialize (IHm k). lia.
Qed.

Lemma off_le : forall C k, (off C k <= length (concat C))%nat.
Proof.
  intros. unfold off. rewrite <- (firstn_skipn k C) at 2. rewrite concat_app, app_length. lia.
Qed.

Lemma off_all : forall C, off C (length C) = length (concat C).
Proof. intros. unfold off. rewrite firstn_all. reflexivity. Qed.

Lemma seq_rows : forall C m b,
  concat (map (fun k => seq (off C k) (clen C k)) (seq b m)) = seq (off C b) (off C (b + m) - off C b).
Proof.
  induction m; intros b.
  - rewrite Nat.add_0_r, Nat.sub_diag. reflexivity.
  - cbn [seq map concat]. rewrite IHm.
    assert (E : off C (S b) = (off C b + clen C b)%nat) by apply off_S. rewrite E.
    rewrite <- seq_app. f_equal. replace (b + S m)%nat with (S b + m)%nat by lia.
    pose proof (off_mono C m (S b)). lia.
Qed.

Lemma off_cell : forall C k j, (j < clen C k)%nat ->
  nth_error (concat C) (off C k + j) = nth_error (nth k C []) j.
Proof.
  intros C k j H. unfold clen, off in *.
  destruct (nth_error C k) as [row|] eqn:E.
  - rewrite (nth_error_nth _ _ _ E) in *. apply nth_error_concat; auto.
  - apply nth_error_None in E. rewrite nth_overflow in H by auto. simpl in H. lia.
Qed.

Lemma off_inj : forall C k j k' j', (j < clen C k)%nat -> (j' < clen C k')%nat ->
  (off C k + j = off C k' + j')%nat -> k = k' /\ j = j'.
Proof.
  intros C k j k' j' H H' E. destruct (lt_eq_lt_dec k k') as [[L|L]|L].
  - pose proof (off_mono C (k' - S k) (S k)). replace (S k + (k' - S k))%nat with k' in * by lia.
    rewrite off_S in *. lia.
  - subst. split; auto. lia.
  - pose proof (off_mono C (k - S k') (S k')). replace (S k' + (k - S k'))%nat with k in * by lia.
    rewrite off_S in *. lia.
Qed.

Lemma off_find : forall C n, (n < length (concat C))%nat ->
  exists k j, (k < length C)%nat /\ (j < clen C k)%nat /\ n = (off C k + j)%nat.
Proof.
  induction C as [|row C IH]; intros n H; [simpl in H; lia|].
  cbn [concat] in H. rewrite app_length in H.
  destruct (Nat.lt_ge_cases n (length row)).
  - exists O, n. cbn. repeat split; auto. lia.
  - destruct (IH (n - length row)%nat ltac:(lia)) as [k [j [A [B D]]]].
    exists (S k), j. cbn [length]. split; [lia|]. split; [exact B|].
    unfold off in *. cbn [firstn concat]. rewrite app_length. lia.
Qed.

Lemma lengths_off : forall C C' k, map (@length T) C = map (@length T) C' -> off C k = off C' k.
Proof.
  assert (G : forall k (C : list (list T)), off C k = list_sum (firstn k (map (@length T) C))).
  { unfold off. induction k; destruct C; simpl; auto. rewrite app_length, IHk. reflexivity. }
  intros. rewrite !G. congruence.
Qed.

Lemma lengths_clen : forall C C' k, map (@length T) C = map (@length T) C' -> clen C k = clen C' k.
Proof.
  intros C C' k H. unfold clen. change O with (@length T []).
  rewrite <- (map_nth (@length T)), <- (map_nth (@length T) C'). rewrite H. reflexivity.
Qed.

Lemma lengths_concat : forall (C C' : list (list T)), map (@length T) C = map (@length T) C' ->
  length (concat C) = length (concat C').
Proof.
  intros. rewrite <- !off_all. rewrite (lengths_off C C') by auto. f_equal.
  rewrite <- (map_length (@length T) C), H, map_length. reflexivity.
Qed.

(** rows of a buffer with the given row sizes *)
Lemma regroup_cell : forall d sizes (D : list T) k j, (j < nth k sizes 0)%nat ->
  length D = list_sum sizes ->
  nth_error (nth k (regroup d sizes D) []) j = nth_error D (off (regroup d sizes D) k + j).
Proof.
  intros d sizes D k j H HD.
  assert (E : concat (regroup d sizes D) = D).
  { rewrite regroup_concat. unfold fit. rewrite <- HD, firstn_all, Nat.sub_diag. apply app_nil_r. }
  rewrite <- E at 2. symmetry. apply off_cell. unfold clen.
  change O with (@length T []) in H.
  rewrite <- (regroup_lengths T d sizes D) in H. rewrite (map_nth (@length T)) in H. auto.
Qed.

Lemma regroup_concat_exact : forall d sizes (D : list T), length D = list_sum sizes ->
  concat (regroup d sizes D) = D.
Proof.
  intros d sizes D HD. rewrite regroup_concat. unfold fit.
  rewrite <- HD, firstn_all, Nat.sub_diag. apply app_nil_r.
Qed.

Lemma length_concat_sum : forall (C : list (list T)), length (concat C) = list_sum (map (@length T) C).
Proof. induction C; simpl; auto. rewrite app_length, IHC. reflexivity. Qed.

Lemma regroup_rows : forall d (C : list (list T)), regroup d (map (@length T) C) (concat C) = C.
Proof.
  induction C as [|row C IH]; auto. cbn [map concat regroup]. f_equal.
  - unfold fit. rewrite firstn_length_app, app_length.
    replace (length row - (length row + length (concat C)))%nat with O by lia. apply app_nil_r.
  - rewrite skipn_length_app. auto.
Qed.

End Transfer.
Arguments cell {T}. Arguments in_bounds {T}. Arguments off {T}. Arguments clen {T}.

Lemma combine_concat : forall A B X Y (f : X -> list A) (g : Y -> list B) l l',
  (forall x y, In (x, y) (combine l l') -> length (f x) = length (g y)) -> length l = length l' ->
  combine (concat (map f l)) (concat (map g l')) =
  concat (map (fun xy => combine (f (fst xy)) (g (snd xy))) (combine l l')).
Proof.
  induction l as [|x l IH]; intros [|y l'] H Hl; try discriminate; auto.
  cbn [map concat combine fst snd]. rewrite <- IH; [|intros; apply H; right; auto|auto].
  specialize (H x y (or_introl eq_refl)). revert H.
  generalize (f x) (g y) (concat (map f l)) (concat (map g l')). clear.
  induction l as [|a l IH]; intros [|b l'] u v H; try discriminate; auto.
  cbn. f_equal. apply IH. auto.
Qed.

(** *** mapM over the ranks *)
Lemma mapM_seq : forall A B (f : A -> res B) (x : nat -> A) (y : nat -> B) P,
  (forall r, (r < P)%nat -> f (x r) = Ok (y r)) -> mapM f (map x (seq 0 P)) = Ok (map y (seq 0 P)).
Proof.
  intros A B f x y P H. apply mapM_intro; [rewrite !map_length; reflexivity|].
  intros i a b Ha Hb. rewrite nth_error_map_, nth_error_seq in Ha, Hb.
  destruct (Nat.ltb_spec i P); [|discriminate]. cbn in Ha, Hb. injection Ha as <-. injection Hb as <-. auto.
Qed.

Lemma mapM_seq_ex : forall A B (d : B) (f : A -> res B) (x : nat -> A) (Q : nat -> B -> Prop) P,
  (forall r, (r < P)%nat -> exists b, f (x r) = Ok b /\ Q r b) ->
  exists y, mapM f (map x (seq 0 P)) = Ok (map y (seq 0 P)) /\ forall r, (r < P)%nat -> Q r (y r).
Proof.
  intros A B d f x Q P H.
  assert (E : exists l, length l = P /\ forall r, (r < P)%nat -> exists b, nth_error l r = Some b /\
               f (x r) = Ok b /\ Q r b).
  { induction P as [|P IH].
    - exists []. split; auto. intros; lia.
    - destruct IH as [l [Hl E]]; [intros; apply H; lia|]. destruct (H P ltac:(lia)) as [b [E1 E2]].
      exists (l ++ [b]). split; [rewrite app_length; simpl; lia|]. intros r Hr.
      destruct (Nat.eq_dec r P).
      + subst r. exists b. rewrite nth_error_app2 by lia. rewrite Hl, Nat.sub_diag. auto.
      + destruct (E r ltac:(lia)) as [b' [E3 E4]]. exists b'. rewrite nth_error_app1 by lia. auto. }
  destruct E as [l [Hl E]]. exists (fun r => nth r l d). split.
  - apply mapM_seq. intros r Hr. destruct (E r Hr) as [b [E1 [E2 _]]].
    rewrite (nth_error_nth _ _ d E1). auto.
  - intros r Hr. destruct (E r Hr) as [b [E1 [_ E2]]]. rewrite (nth_error_nth _ _ d E1). auto.
Qed.

Lemma combine_map2 : forall A B X (f : X -> A) (g : X -> B) l,
  combine (map f l) (map g l) = map (fun x => (f x, g x)) l.
Proof. induction l; simpl; auto. rewrite IHl. reflexivity. Qed.

Lemma as_map_seq : forall A (d : A) l P, length l = P -> l = map (fun r => nth r l d) (seq 0 P).
Proof.
  intros A d l P H. subst P. apply nth_error_ext. intro i. rewrite nth_error_map_, nth_error_seq.
  destruct (Nat.ltb_spec i (length l)).
  - cbn. apply nth_error_nth'. auto.
  - apply nth_error_None. auto.
Qed.

Lemma nth_error_map_seq : forall A (f : nat -> A) P r x,
  nth_error (map f (seq 0 P)) r = Some x -> (r < P)%nat /\ x = f r.
Proof.
  intros A f P r x H. rewrite nth_error_map_, nth_error_seq in H.
  destruct (Nat.ltb_spec r P); [|discriminate]. cbn in H. injection H as <-. auto.
Qed.

Lemma nth_error_map_seq_lt : forall A (f : nat -> A) P r, (r < P)%nat ->
  nth_error (map f (seq 0 P)) r = Some (f r).
Proof. intros. rewrite nth_error_map_, nth_error_seq. destruct (Nat.ltb_spec r P); [reflexivity|lia]. Qed.
