(** Lists with more items than the count says. *)

From Coq Require Import List ZArith Bool Ascii String Lia.
From Verif Require Import Geom.FoamTextModel Geom.FoamTextSpec Geom.FoamTextProofs.
Import ListNotations.
Local Open Scope Z_scope.

(** [item n] refuses what [one] describes from the [n]-th item on. *)
Definition item_full {A} (item : nat -> stream -> out (A * stream)) (n : Z) (one : A -> list ascii -> Prop) (delim : ascii -> Prop) : Prop :=
  forall a t i ws c r, one a t -> Forall (fun c => isspace c = true) ws -> delim c -> n <= Z.of_nat i ->
    item i (open (ws ++ t ++ c :: r)) = Stop.

Lemma items_over : forall A (item : nat -> stream -> out (A * stream)) n one delim,
  item_ok item (Some n) one delim -> item_full item n one delim ->
  forall l b, body one delim l b ->
  forall fuel acc ws r, (List.length b < fuel)%nat ->
    Forall (fun c => isspace c = true) ws -> (ws = [] \/ l <> []) ->
    Z.of_nat (List.length acc) <= n < Z.of_nat (List.length acc + List.length l) ->
    items fuel item acc (open (ws ++ b ++ r)) = Stop.
Proof.
  intros A item n one delim Hi Hfull l b H. induction H as [|a t bs l b c q Ha Hb Hl IH He Hd]; intros fuel acc ws r Hf Hw Hne Hn.
  - cbn [List.length] in Hn. lia.
  - destruct fuel; [lia|]. destruct (Hi a t Ha) as [(c0 & q0 & E0 & S0 & N0) Hread].
    assert (X : exists c1 q1, ws ++ (t ++ List.concat bs ++ b) ++ r = c1 :: q1 /\ c1 <> ")"%char).
    { destruct ws as [|w ws]; [rewrite E0; exists c0; eexists; split; [reflexivity | exact N0]|].
      exists w; eexists; split; [reflexivity|]. inversion Hw; subst. intros ->. discriminate. }
    destruct X as (c1 & q1 & E1 & N1). cbn [items eof open]. rewrite E1.
    change {| rest := c1 :: q1; eof := false; fail := false |} with (open (c1 :: q1)). rewrite peek_open.
    match goal with |- ?lhs = _ =>
      replace lhs with (get r0 <- item (List.length acc) (open (c1 :: q1)); get p <- passSpaces (snd r0); items fuel item (fst r0 :: acc) (snd p)) end.
    2:{ clear - N1. destruct c1 as [[] [] [] [] [] [] [] []]; try reflexivity. exfalso. apply N1. reflexivity. }
    rewrite <- E1. replace (ws ++ (t ++ List.concat bs ++ b) ++ r) with (ws ++ t ++ c :: (q ++ r)).
    2:{ rewrite <- !app_assoc. f_equal. f_equal. rewrite (app_assoc (List.concat bs)), He. reflexivity. }
    destruct (Z.eq_dec (Z.of_nat (List.length acc)) n) as [E|Hlt].
    { rewrite (Hfull a t) by (assumption || lia). reflexivity. }
    rewrite Hread; [|exact Hw|exact Hd|intros n0 [= <-]; lia].
    cbn [obind fst snd]. replace (c :: q ++ r) with (List.concat bs ++ (b ++ r)).
    2:{ rewrite app_assoc, He. reflexivity. }
    rewrite passSpaces_ok; [|exact Hb|eapply body_start; eassumption]. cbn [obind snd].
    change (open (b ++ r)) with (open ([] ++ b ++ r)).
    apply IH.
    + rewrite E0 in Hf. cbn [app List.length] in Hf. rewrite !app_length in Hf. lia.
    + constructor.
    + left. reflexivity.
    + cbn [List.length] in Hn |- *. lia.
Qed.

Lemma file_over : forall A (item : Z -> nat -> stream -> out (A * stream)) one delim n l text,
  (forall n, item_ok (item n) (Some n) one delim) -> (forall n, item_full (item n) n one delim) ->
  file one delim n l text -> n < Z.of_nat (List.length l) ->
  (get c <- readCount (open text); get r <- readList (item (fst c)) (snd c); Got (fst c, fst r, snd r)) = Stop.
Proof.
  intros A item one delim n l text Hi Hfull H Hlen. destruct H as [h bs n tn tm buf l lt tail Hh Hb Hn Hs Hnd Hl].
  assert (X : exists c q, tm ++ lt ++ tail = c :: q /\ isdigit c = false).
  { destruct tm as [|c tm]; [|exists c; eexists; split; [reflexivity | apply (Hnd c tm eq_refl)]].
    destruct Hl; (exists "("%char; eexists; split; [reflexivity | reflexivity]). }
  destruct X as (c & q & E & Hc). rewrite E.
  rewrite (count_ok h bs n tn c q) by assumption. cbn [obind fst snd]. rewrite <- E.
  assert (0 <= n) by (destruct Hn as (_ & N2 & <- & _); apply value_nonneg; [lia | exact N2]).
  unfold readList. destruct Hl as [|ws l b Hne Hw Hbd]; [cbn in Hlen; lia|].
  cbn [app]. rewrite (getUntil_ok "(" tm buf) by (exact Hs || apply solid_lit).
  cbn [obind]. rewrite getc_open. cbn [snd]. rewrite <- app_assoc.
  rewrite (items_over A (item n) n one delim (Hi n) (Hfull n) l b Hbd); [reflexivity | | exact Hw | right; exact Hne | cbn [List.length]; lia].
  rewrite open_rest, !app_length. lia.
Qed.

Lemma label_full : forall n, item_full (label n) n (numeral INT64_MAX) nondigit.
Proof.
  intros n v t i ws c r H Hw Hc Hi. unfold label, readIndex. rewrite (readInt_ok _ _ v) by (assumption || unfold INT64_MAX; lia).
  destruct (Z.ltb_spec (Z.of_nat i) n); [lia | reflexivity].
Qed.

Lemma face_full : forall n, item_full (face n) n face_text (fun _ => True).
Proof.
  intros n f t i ws c r H Hw _ Hi. unfold face. destruct (readInt32 _) as [k s].
  destruct (Z.ltb_spec (Z.of_nat i) n); [lia | reflexivity].
Qed.

Lemma labels_over : forall n l text, label_file n l text -> n < Z.of_nat (List.length l) -> ReadLabels text = Stop.
Proof.
  intros n l text H Hl. pose proof (file_over Z label _ _ n l text label_ok label_full H Hl) as E.
  unfold ReadLabels. destruct (readCount (open text)) as [[c s]| | |]; cbn [obind fst snd] in *; try discriminate; try reflexivity.
  destruct (readList (label c) s) as [[r s']| | |]; cbn [obind fst snd] in *; try discriminate; reflexivity.
Qed.

Lemma faces_over : forall n l text, face_file n l text -> n < Z.of_nat (List.length l) -> ReadFaces text = Stop.
Proof.
  intros n l text H Hl. pose proof (file_over (list Z) face _ _ n l text face_ok face_full H Hl) as E.
  unfold ReadFaces. destruct (readCount (open text)) as [[c s]| | |]; cbn [obind fst snd] in *; try discriminate; try reflexivity.
  destruct (readList (face c) s) as [[r s']| | |]; cbn [obind fst snd] in *; try discriminate; reflexivity.
Qed.

Section Points.
Variable real : Type.
Variable zero : real.
Variable readReal : stream -> option real * stream.
Variable real_text : real -> list ascii -> Prop.
Variable real_delim : ascii -> Prop.
Hypothesis Hreal : reads_real real readReal real_text real_delim.

Lemma point_full : forall n, item_full (point real zero readReal n) n (point_text real real_text real_delim) (fun _ => True).
Proof.
  intros n p t i ws c r H Hw _ Hi. destruct H as [x y z t Hl]. unfold point. destruct (ws_spans ws Hw) as [b Hb].
  rewrite (readList_ok real _ None _ _ ws b [x; y; z] t (c :: r) (coordinate_ok _ _ _ _ _ Hreal) Hb Hl) by discriminate.
  cbn [obind fst snd]. destruct (Z.ltb_spec (Z.of_nat i) n); [lia | reflexivity].
Qed.

Lemma points_over : forall n l text, point_file real real_text real_delim n l text -> n < Z.of_nat (List.length l) ->
  ReadPoints real zero readReal text = Stop.
Proof.
  intros n l text H Hl.
  pose proof (file_over _ (point real zero readReal) _ _ n l text (point_ok _ _ _ _ _ Hreal) point_full H Hl) as E.
  unfold ReadPoints. destruct (readCount (open text)) as [[c s]| | |]; cbn [obind fst snd] in *; try discriminate; try reflexivity.
  destruct (readList (point real zero readReal c) s) as [[r s']| | |]; cbn [obind fst snd] in *; try discriminate; reflexivity.
Qed.
End Points.

(** ** Together *)

Lemma labels_all : forall n l text, label_file n l text -> Z.of_nat (List.length l) = n -> ReadLabels text = Got l.
Proof. intros n l text H Hl. rewrite (read_labels n l text H) by lia. f_equal. apply filled_all, Hl. Qed.

Lemma faces_all : forall n l text, face_file n l text -> Z.of_nat (List.length l) = n -> ReadFaces text = Got l.
Proof. intros n l text H Hl. rewrite (read_faces n l text H) by lia. f_equal. apply filled_all, Hl. Qed.

Lemma points_all : forall real (zero : real) readReal real_text real_delim,
  reads_real real readReal real_text real_delim ->
  forall n l text, point_file real real_text real_delim n l text -> Z.of_nat (List.length l) = n ->
  ReadPoints real zero readReal text = Got l.
Proof.
  intros real zero readReal real_text real_delim Hr n l text H Hl.
  rewrite (read_points real zero readReal real_text real_delim Hr n l text H) by lia. f_equal. apply filled_all, Hl.
Qed.

Lemma surplus : forall n,
  (forall l text, label_file n l text -> n < Z.of_nat (List.length l) -> ReadLabels text = Stop)
  /\ (forall l text, face_file n l text -> n < Z.of_nat (List.length l) -> ReadFaces text = Stop)
  /\ (forall real (zero : real) readReal real_text real_delim, reads_real real readReal real_text real_delim ->
      forall l text, point_file real real_text real_delim n l text -> n < Z.of_nat (List.length l) ->
      ReadPoints real zero readReal text = Stop).
Proof.
  intros n. split; [|split].
  - intros l text. apply labels_over.
  - intros l text. apply faces_over.
  - intros real zero readReal real_text real_delim Hr l text. apply (points_over real zero readReal _ _ Hr).
Qed.

(** A negative count *)
Lemma negative_count : forall text, negative_file text -> readCount (open text) = Stop.
Proof.
  intros text [h bs n tn c r Hh Hb Hn Hp Hc]. unfold readCount.
  destruct (header_ok h (List.concat bs ++ "-"%char :: tn ++ c :: r) Hh) as [ls ->]. cbn [obind snd].
  rewrite passSpaces_ok; [|exact Hb|].
  2:{ exists "-"%char; eexists; split; [reflexivity|]. split; [reflexivity | discriminate]. }
  cbn [obind snd]. destruct Hn as (N1 & N2 & N3 & N4). unfold readIndex, readInt. cbn [good eof fail open negb andb rest].
  change (skipws ("-"%char :: tn ++ c :: r)) with ("-"%char :: tn ++ c :: r). cbn [at_end sign].
  destruct tn as [|d tn]; [congruence|]. inversion N2 as [|? ? D1 D2]; subst. cbn [app]. rewrite D1.
  change (d :: tn ++ c :: r) with ((d :: tn) ++ c :: r). rewrite digits_ok by assumption.
  rewrite (proj2 (Z.ltb_ge (-1 * value 0 (d :: tn)) (- INT64_MAX - 1))) by (unfold INT64_MAX in *; lia).
  rewrite (proj2 (Z.ltb_ge INT64_MAX (-1 * value 0 (d :: tn)))) by (unfold INT64_MAX in *; lia).
  now rewrite (proj2 (Z.ltb_lt (-1 * value 0 (d :: tn)) 0)) by lia.
Qed.

Lemma negative_all : forall text, negative_file text ->
  ReadLabels text = Stop /\ ReadFaces text = Stop
  /\ forall real (zero : real) readReal, ReadPoints real zero readReal text = Stop.
Proof.
  intros text H. pose proof (negative_count text H) as E. unfold ReadLabels, ReadFaces, ReadPoints. rewrite E.
  cbn [obind]. auto.
Qed.
