(** The reader gives back what a file says. *)

From Coq Require Import List ZArith Bool Ascii String Lia.
From Verif Require Import Geom.FoamTextModel Geom.FoamTextSpec.
Import ListNotations.
Local Open Scope Z_scope.

Lemma obind_Got : forall A B (a : A) (k : A -> out B), obind (Got a) k = k a.
Proof. reflexivity. Qed.

Lemma eqb_neq : forall a b : ascii, a <> b -> Ascii.eqb a b = false.
Proof. intros a b H. apply Ascii.eqb_neq. exact H. Qed.

(** ** Comments *)

Lemma getline_ok : forall body r, ~ In newline body -> getline (body ++ newline :: r) = open r.
Proof.
  induction body as [|c b IH]; intros r H; [reflexivity|]. cbn [app getline].
  rewrite eqb_neq; [apply IH; intro C; apply H; right; exact C|].
  intro C. apply H. left. exact C.
Qed.

Lemma tame_tl : forall c l, tame (c :: l) -> tame l.
Proof. intros c l H p x q E. apply (H (c :: p) x q). rewrite E. reflexivity. Qed.

Lemma block_ok_n : forall n l r, (List.length l <= n)%nat -> tame (l ++ ["*"%char]) ->
  block (l ++ "*"%char :: "/"%char :: r) = open r.
Proof.
  induction n as [|n IH]; intros l r Hn Ht.
  - destruct l; [reflexivity | cbn in Hn; lia].
  - destruct l as [|c l]; [reflexivity|]. cbn in Hn. cbn [app block].
    destruct (Ascii.eqb_spec c "*") as [->|Hc].
    + destruct l as [|d l]; cbn [app].
      * exfalso. destruct (Ht [] "*"%char [] eq_refl) as [A _]. apply A. reflexivity.
      * destruct (Ht [] d (l ++ ["*"%char]) eq_refl) as [_ A]. rewrite eqb_neq by exact A.
        cbn in Hn. apply IH; [lia|]. apply tame_tl with d. apply tame_tl with "*"%char. exact Ht.
    + apply IH; [lia|]. apply tame_tl with c. exact Ht.
Qed.

Definition starts_solid (r : list ascii) : Prop := exists c q, r = c :: q /\ solid c.

Lemma open_rest : forall l, rest (open l) = l.
Proof. reflexivity. Qed.
Lemma peek_open : forall c r, peek (open (c :: r)) = (Some c, open (c :: r)).
Proof. reflexivity. Qed.
Lemma getc_open : forall c r, getc (open (c :: r)) = (Some c, open r).
Proof. reflexivity. Qed.

(** One turn of the loop over blanks. *)
Lemma pass_blank : forall fuel b r, blank b ->
  pass (S fuel) (open (b ++ r)) = obind (pass fuel (open r)) (fun q => Got (S (fst q), snd q)).
Proof.
  intros fuel b r H. inversion H as [c Hc|body Hb|body Hb]; subst b.
  - cbn [app pass eof open]. change {| rest := c :: r; eof := false; fail := false |} with (open (c :: r)).
    rewrite peek_open, Hc, getc_open. reflexivity.
  - cbn [str list_ascii_of_string app pass eof open].
    change {| rest := "/"%char :: "/"%char :: (body ++ [newline]) ++ r; eof := false; fail := false |}
      with (open ("/"%char :: "/"%char :: (body ++ [newline]) ++ r)).
    rewrite peek_open. cbn [isspace existsb Ascii.eqb Bool.eqb orb]. cbn.
    rewrite <- app_assoc. cbn [app]. rewrite getline_ok by exact Hb. reflexivity.
  - cbn [str list_ascii_of_string app pass eof open].
    change {| rest := "/"%char :: "*"%char :: (body ++ ["*"%char; "/"%char]) ++ r; eof := false; fail := false |}
      with (open ("/"%char :: "*"%char :: (body ++ ["*"%char; "/"%char]) ++ r)).
    rewrite peek_open. cbn [isspace existsb Ascii.eqb Bool.eqb orb]. 
    rewrite getc_open. cbn [snd]. rewrite peek_open. cbn [Ascii.eqb Bool.eqb rest open].
    rewrite <- app_assoc. cbn [app].
    change ("*"%char :: body ++ "*"%char :: "/"%char :: r) with (("*"%char :: body) ++ "*"%char :: "/"%char :: r).
    rewrite (block_ok_n (List.length ("*"%char :: body))); [reflexivity | apply le_n | exact Hb].
Qed.

Lemma blank_len : forall b, blank b -> (0 < List.length b)%nat.
Proof. intros b H. destruct H; cbn; lia. Qed.

Lemma pass_blanks : forall bs r fuel, Forall blank bs -> starts_solid r ->
  (List.length (List.concat bs) < fuel)%nat ->
  pass fuel (open (List.concat bs ++ r)) = Got (List.length bs, open r).
Proof.
  induction bs as [|b bs IH]; intros r fuel Hb Hr Hf.
  - destruct fuel; [lia|]. destruct Hr as (c & q & -> & H1 & H2). cbn [List.concat app pass eof open].
    change {| rest := c :: q; eof := false; fail := false |} with (open (c :: q)).
    rewrite peek_open, H1, eqb_neq by exact H2. reflexivity.
  - inversion Hb as [|? ? B1 B2]; subst. cbn [List.concat] in *. rewrite app_length in Hf. pose proof (blank_len b B1).
    destruct fuel; [lia|]. rewrite <- app_assoc, pass_blank by exact B1.
    rewrite IH; [reflexivity | exact B2 | exact Hr | lia].
Qed.

Lemma passSpaces_ok : forall bs r, Forall blank bs -> starts_solid r ->
  passSpaces (open (List.concat bs ++ r)) = Got (List.length bs, open r).
Proof.
  intros bs r Hb Hr. unfold passSpaces. apply pass_blanks; try assumption.
  rewrite open_rest, app_length. lia.
Qed.

Lemma passSpaces_none : forall r, starts_solid r -> passSpaces (open r) = Got (O, open r).
Proof. intros r H. exact (passSpaces_ok [] r (Forall_nil _) H). Qed.

(** ** Up to a character *)

Lemma until_ok : forall v t b, spans v t b -> solid v ->
  forall fuel acc r, (List.length t < fuel)%nat ->
  until fuel v acc (open (t ++ v :: r)) = Got (false, rev acc ++ b, open (v :: r)).
Proof.
  intros v t b H Hv. induction H as [|c t b Hc Hne H IH|bs t b Hne Hb Ht H IH]; intros fuel acc r Hf.
  - destruct fuel; [lia|]. cbn [app until eof open].
    change {| rest := v :: r; eof := false; fail := false |} with (open (v :: r)).
    rewrite passSpaces_none by (exists v, r; split; [reflexivity | exact Hv]).
    cbn [obind fst snd List.length Nat.ltb Nat.leb]. rewrite peek_open, Ascii.eqb_refl.
    cbn. rewrite app_nil_r. reflexivity.
  - destruct fuel; [lia|]. cbn [app until eof open].
    change {| rest := c :: t ++ v :: r; eof := false; fail := false |} with (open (c :: t ++ v :: r)).
    rewrite passSpaces_none by (exists c, (t ++ v :: r); split; [reflexivity | exact Hc]).
    cbn [obind fst snd List.length Nat.ltb Nat.leb]. rewrite peek_open, eqb_neq by exact Hne. rewrite getc_open. cbn [snd].
    cbn [List.length] in Hf. rewrite IH by lia. cbn [rev]. rewrite <- app_assoc. reflexivity.
  - assert (L : (0 < List.length (List.concat bs))%nat).
    { destruct bs as [|b0 bs]; [congruence|]. cbn. rewrite app_length. inversion Hb; subst. pose proof (blank_len b0 H2). lia. }
    rewrite app_length in Hf. destruct fuel; [lia|]. cbn [until eof open]. rewrite <- app_assoc.
    change {| rest := List.concat bs ++ t ++ v :: r; eof := false; fail := false |} with (open (List.concat bs ++ t ++ v :: r)).
    rewrite passSpaces_ok; [|exact Hb|].
    + cbn [obind fst snd]. destruct bs as [|b0 bs]; [congruence|]. cbn [List.length Nat.ltb Nat.leb].
      rewrite IH by lia. cbn [rev]. rewrite <- app_assoc. reflexivity.
    + destruct t as [|c t]; [exists v, r; split; [reflexivity | exact Hv]|].
      exists c, (t ++ v :: r). split; [reflexivity|]. eapply Ht. reflexivity.
Qed.

Lemma getUntil_ok : forall v t b r, spans v t b -> solid v ->
  getUntil v (open (t ++ v :: r)) = Got (false, b, open (v :: r)).
Proof.
  intros v t b r H Hv. unfold getUntil. rewrite (until_ok v t b H Hv); [reflexivity|].
  rewrite open_rest, app_length. cbn. lia.
Qed.

(** ** Entries and the header *)

Lemma solid_lit : solid "(" /\ solid "{" /\ solid ";" /\ solid "}" /\ solid ")".
Proof. repeat split; try reflexivity; discriminate. Qed.

Lemma entries_start : forall ls es r, entry_list ls es -> starts_solid (es ++ "}"%char :: r).
Proof.
  intros ls es r H. destruct H as [|t b bs ls es Ht Hh Hb He].
  - exists "}"%char, r. split; [reflexivity | apply solid_lit].
  - destruct t as [|c t]; [exists ";"%char; eexists; split; [reflexivity | apply solid_lit]|].
    exists c; eexists; split; [reflexivity|]. eapply (proj1 (Hh c t eq_refl)).
Qed.

Lemma entries_ok : forall ls es, entry_list ls es -> forall fuel acc r,
  (List.length es < fuel)%nat ->
  entries fuel acc (open (es ++ "}"%char :: r)) = Got (rev acc ++ ls, open r).
Proof.
  intros ls es H. induction H as [|t b bs ls es Ht Hh Hb He IH]; intros fuel acc r Hf.
  - destruct fuel; [lia|]. cbn. rewrite app_nil_r. reflexivity.
  - destruct fuel; [lia|]. rewrite app_length in Hf. cbn [List.length] in Hf. rewrite app_length in Hf.
    assert (N : exists c q, (t ++ ";"%char :: List.concat bs ++ es) ++ "}"%char :: r = c :: q /\ c <> "}"%char).
    { destruct t as [|c t]; [exists ";"%char; eexists; split; [reflexivity | discriminate]|].
      exists c; eexists; split; [reflexivity|]. apply (Hh c t eq_refl). }
    destruct N as (c & q & E & Hc). cbn [entries eof open]. rewrite E.
    change {| rest := c :: q; eof := false; fail := false |} with (open (c :: q)). rewrite peek_open.
    replace (match c with
             | "}"%char => Got (rev acc, snd (getc (open (c :: q))))
             | _ => get u <- getUntil ";" (open (c :: q));
                    let '(atEof, line, s) := u in
                    if atEof then Stop else get p <- passSpaces (snd (getc s)); entries fuel (line :: acc) (snd p)
             end) with (get u <- getUntil ";" (open (c :: q));
                    let '(atEof, line, s) := u in
                    if atEof then Stop else get p <- passSpaces (snd (getc s)); entries fuel (line :: acc) (snd p)).
    2:{ clear - Hc. destruct c as [[] [] [] [] [] [] [] []]; try reflexivity. exfalso. apply Hc. reflexivity. }
    rewrite <- E, <- app_assoc. cbn [app]. rewrite (getUntil_ok ";" t b) by (exact Ht || apply solid_lit).
    cbn [obind]. rewrite getc_open. cbn [snd]. rewrite <- app_assoc.
    rewrite passSpaces_ok by (exact Hb || apply entries_start with ls; exact He). cbn [obind snd].
    rewrite IH by lia. cbn [rev]. rewrite <- app_assoc. reflexivity.
Qed.

Lemma header_ok : forall h r, header h -> exists ls, readHeader (open (h ++ r)) = Got (ls, open r).
Proof.
  intros h r H. destruct H as [t b bs ls es Ht Hw Hb He]. exists ls.
  unfold readHeader. rewrite <- app_assoc. cbn [app].
  rewrite (getUntil_ok "{" t b) by (exact Ht || apply solid_lit). cbn [obind].
  rewrite Hw. destruct (list_eq_dec ascii_dec (str "FoamFile") (str "FoamFile")) as [_|N]; [|congruence].
  unfold readObj. 
  change (open ("{"%char :: (List.concat bs ++ es ++ ["}"%char]) ++ r))
    with (open ([] ++ "{"%char :: (List.concat bs ++ es ++ ["}"%char]) ++ r)).
  rewrite (getUntil_ok "{" [] []) by (exact (spans_nil _) || apply solid_lit). cbn [obind].
  rewrite getc_open. cbn [snd]. rewrite <- !app_assoc. cbn [app].
  rewrite passSpaces_ok by (exact Hb || apply entries_start with ls; exact He). cbn [obind snd].
  rewrite (entries_ok ls es He); [reflexivity|]. rewrite open_rest, app_length. cbn. lia.
Qed.

(** ** Numbers *)

Lemma isdigit_solid : forall c, isdigit c = true -> solid c /\ c <> ")"%char /\ c <> "("%char.
Proof.
  intros c H. split; [split|split].
  - destruct c as [[] [] [] [] [] [] [] []]; try reflexivity; discriminate.
  - intros ->. discriminate.
  - intros ->. discriminate.
  - intros ->. discriminate.
Qed.

Lemma isdigit_sign : forall c l, isdigit c = true -> sign (c :: l) = (1, c :: l).
Proof.
  intros c l H. destruct c as [[] [] [] [] [] [] [] []]; try reflexivity; discriminate.
Qed.

Lemma digits_ok : forall t acc c r, Forall (fun c => isdigit c = true) t -> isdigit c = false ->
  digits acc (t ++ c :: r) = (value acc t, c :: r).
Proof.
  induction t as [|a t IH]; intros acc c r Ht Hc; cbn [app digits value].
  - rewrite Hc. reflexivity.
  - inversion Ht; subst. rewrite H1. apply IH; assumption.
Qed.

Lemma skipws_ok : forall ws c r, Forall (fun c => isspace c = true) ws -> isspace c = false ->
  skipws (ws ++ c :: r) = c :: r.
Proof.
  induction ws as [|a ws IH]; intros c r Hw Hc; cbn [app skipws]; [rewrite Hc; reflexivity|].
  inversion Hw; subst. rewrite H1. apply IH; assumption.
Qed.

Lemma value_nonneg : forall t acc, 0 <= acc -> Forall (fun c => isdigit c = true) t -> 0 <= value acc t.
Proof.
  induction t as [|c t IH]; intros acc Ha Ht; cbn [value]; [exact Ha|]. inversion Ht; subst. apply IH; [|assumption].
  unfold isdigit in H1. apply andb_prop in H1. destruct H1 as [H1 _]. apply Z.leb_le in H1. unfold digit. lia.
Qed.

Lemma readInt_ok : forall lo hi v t ws c r, lo <= 0 -> numeral hi v t ->
  Forall (fun c => isspace c = true) ws -> isdigit c = false ->
  readInt lo hi (open (ws ++ t ++ c :: r)) = (Some v, open (c :: r)).
Proof.
  intros lo hi v t ws c r Hlo (Hne & Hd & Hv & Hhi) Hw Hc. unfold readInt. cbn [good eof fail open negb andb rest].
  destruct t as [|d t]; [congruence|]. inversion Hd as [|? ? D1 D2]; subst.
  destruct (isdigit_solid d D1) as [[S1 _] _].
  cbn [app]. rewrite skipws_ok by assumption. cbn [at_end]. rewrite isdigit_sign by exact D1. rewrite D1.
  change (d :: t ++ c :: r) with ((d :: t) ++ c :: r). rewrite digits_ok by assumption.
  pose proof (value_nonneg (d :: t) 0 ltac:(lia) Hd) as Hn. rewrite Z.mul_1_l.
  destruct (Z.ltb_spec (value 0 (d :: t)) lo); [lia|]. destruct (Z.ltb_spec hi (value 0 (d :: t))); [lia|]. reflexivity.
Qed.

(** ** Lists *)

(** [item] reads what [one] describes. *)
Definition item_ok {A} (item : nat -> stream -> out (A * stream)) (cap : option Z) (one : A -> list ascii -> Prop) (delim : ascii -> Prop) : Prop :=
  forall a t, one a t ->
    (exists c q, t = c :: q /\ solid c /\ c <> ")"%char)
    /\ forall i ws c r, Forall (fun c => isspace c = true) ws -> delim c ->
         (forall n, cap = Some n -> Z.of_nat i < n) ->
         item i (open (ws ++ t ++ c :: r)) = Got (a, open (c :: r)).

Lemma body_start : forall A (item : nat -> stream -> out (A * stream)) cap one delim l b r, item_ok item cap one delim ->
  body one delim l b -> starts_solid (b ++ r).
Proof.
  intros A item cap one delim l b r Hi H. destruct H as [|a t bs l b c q Ha Hb Hl He Hd].
  - exists ")"%char, r. split; [reflexivity | apply solid_lit].
  - destruct (Hi a t Ha) as [(c0 & q0 & -> & S0 & _) _]. exists c0. eexists. split; [reflexivity | exact S0].
Qed.

Lemma items_ok : forall A (item : nat -> stream -> out (A * stream)) cap one delim,
  item_ok item cap one delim ->
  forall l b, body one delim l b ->
  forall fuel acc ws r, (List.length b < fuel)%nat ->
    Forall (fun c => isspace c = true) ws -> (ws = [] \/ l <> []) ->
    (forall n, cap = Some n -> Z.of_nat (List.length acc + List.length l) <= n) ->
    items fuel item acc (open (ws ++ b ++ r)) = Got (rev acc ++ l, open r).
Proof.
  intros A item cap one delim Hi l b H. induction H as [|a t bs l b c q Ha Hb Hl IH He Hd]; intros fuel acc ws r Hf Hw Hne Hcap.
  - destruct Hne as [->|N]; [|congruence]. destruct fuel; [cbn in Hf; lia|]. cbn. rewrite app_nil_r. reflexivity.
  - destruct fuel; [lia|]. destruct (Hi a t Ha) as [(c0 & q0 & E0 & S0 & N0) Hread].
    assert (X : exists c1 q1, ws ++ (t ++ List.concat bs ++ b) ++ r = c1 :: q1 /\ c1 <> ")"%char).
    { destruct ws as [|w ws]; [rewrite E0; exists c0; eexists; split; [reflexivity | exact N0]|].
      exists w; eexists; split; [reflexivity|]. inversion Hw; subst. intros ->. discriminate. }
    destruct X as (c1 & q1 & E1 & N1). cbn [items eof open]. rewrite E1.
    change {| rest := c1 :: q1; eof := false; fail := false |} with (open (c1 :: q1)). rewrite peek_open.
    match goal with |- ?lhs = _ =>
      replace lhs with (get r0 <- item (List.length acc) (open (c1 :: q1)); get p <- passSpaces (snd r0); items fuel item (fst r0 :: acc) (snd p)) end.
    2:{ clear - N1. destruct c1 as [[] [] [] [] [] [] [] []]; try reflexivity. exfalso. apply N1. reflexivity. }
    rewrite <- E1. replace (ws ++ (t ++ List.concat bs ++ b) ++ r) with (ws ++ t ++ c :: (q ++ r)).
    2:{ rewrite <- !app_assoc. f_equal. f_equal. rewrite (app_assoc (List.concat bs)), He. reflexivity. }
    rewrite Hread; [|exact Hw|exact Hd|].
    2:{ intros n Hn. specialize (Hcap n Hn). cbn [List.length] in Hcap. lia. }
    cbn [obind fst snd]. replace (c :: q ++ r) with (List.concat bs ++ (b ++ r)).
    2:{ rewrite app_assoc, He. reflexivity. }
    rewrite passSpaces_ok; [|exact Hb|eapply body_start; eassumption]. cbn [obind snd].
    change (open (b ++ r)) with (open ([] ++ b ++ r)).
    rewrite IH.
    + cbn [rev]. rewrite <- app_assoc. reflexivity.
    + rewrite E0 in Hf. cbn [app List.length] in Hf. rewrite !app_length in Hf. lia.
    + constructor.
    + left. reflexivity.
    + intros n Hn. specialize (Hcap n Hn). cbn [List.length] in Hcap |- *. lia.
Qed.

Lemma readList_ok : forall A (item : nat -> stream -> out (A * stream)) cap one delim tm buf l lt r,
  item_ok item cap one delim -> spans "(" tm buf -> list_text one delim l lt ->
  (forall n, cap = Some n -> Z.of_nat (List.length l) <= n) ->
  readList item (open (tm ++ lt ++ r)) = Got (l, open r).
Proof.
  intros A item cap one delim tm buf l lt r Hi Hs Hl Hcap. unfold readList.
  destruct Hl as [|ws l b Hne Hw Hb].
  - cbn [str list_ascii_of_string app]. rewrite (getUntil_ok "(" tm buf) by (exact Hs || apply solid_lit).
    cbn [obind]. reflexivity.
  - cbn [app]. rewrite (getUntil_ok "(" tm buf) by (exact Hs || apply solid_lit).
    cbn [obind]. rewrite getc_open. cbn [snd]. rewrite <- app_assoc.
    rewrite (items_ok A item cap one delim Hi l b Hb); [reflexivity | | exact Hw | right; exact Hne | cbn; exact Hcap].
    rewrite open_rest, !app_length. lia.
Qed.

(** The whole file. *)
Lemma count_ok : forall h bs n tn c r, header h -> Forall blank bs -> numeral INT64_MAX n tn -> isdigit c = false ->
  readCount (open (h ++ List.concat bs ++ tn ++ c :: r)) = Got (n, open (c :: r)).
Proof.
  intros h bs n tn c r Hh Hb Hn Hc. unfold readCount.
  destruct (header_ok h (List.concat bs ++ tn ++ c :: r) Hh) as [ls ->]. cbn [obind snd].
  pose proof Hn as (N1 & N2 & N3 & N4).
  rewrite passSpaces_ok; [|exact Hb|].
  2:{ destruct tn as [|d tn]; [congruence|]. inversion N2; subst. exists d; eexists; split; [reflexivity|]. apply isdigit_solid. assumption. }
  cbn [obind snd]. unfold readIndex.
  change (tn ++ c :: r) with ([] ++ tn ++ c :: r). rewrite (readInt_ok _ _ n); [|unfold INT64_MAX; lia|exact Hn|constructor|exact Hc].
  pose proof (value_nonneg tn 0 ltac:(lia) N2). destruct (Z.ltb_spec n 0); [lia|]. reflexivity.
Qed.

Lemma file_ok : forall A (item : Z -> nat -> stream -> out (A * stream)) one delim n l text,
  (forall n, item_ok (item n) (Some n) one delim) ->
  file one delim n l text -> Z.of_nat (List.length l) <= n ->
  exists tail, (get c <- readCount (open text); get r <- readList (item (fst c)) (snd c); Got (fst c, fst r, snd r))
               = Got (n, l, open tail).
Proof.
  intros A item one delim n l text Hi H Hlen. destruct H as [h bs n tn tm buf l lt tail Hh Hb Hn Hs Hnd Hl].
  exists tail.
  assert (X : exists c q, tm ++ lt ++ tail = c :: q /\ isdigit c = false).
  { destruct tm as [|c tm]; [|exists c; eexists; split; [reflexivity | apply (Hnd c tm eq_refl)]].
    destruct Hl; (exists "("%char; eexists; split; [reflexivity | reflexivity]). }
  destruct X as (c & q & E & Hc). rewrite E.
  rewrite (count_ok h bs n tn c q) by assumption. cbn [obind fst snd]. rewrite <- E.
  rewrite (readList_ok A (item n) (Some n) one delim tm buf l lt tail); [reflexivity | apply Hi | exact Hs | exact Hl |].
  intros n0 [= <-]. exact Hlen.
Qed.

Lemma filled_all : forall A (d : A) n l, Z.of_nat (List.length l) = n -> filled d n l = l.
Proof.
  intros A d n l H. unfold filled. replace (Z.to_nat n - List.length l)%nat with O by lia. apply app_nil_r.
Qed.

(** ** Labels, faces, points *)

Lemma numeral_start : forall hi v t, numeral hi v t -> exists c q, t = c :: q /\ solid c /\ c <> ")"%char /\ isdigit c = true.
Proof.
  intros hi v t (N1 & N2 & _). destruct t as [|c t]; [congruence|]. inversion N2; subst.
  exists c, t. split; [reflexivity|]. destruct (isdigit_solid c) as (S1 & S2 & _); [assumption|]. auto.
Qed.

Lemma label_ok : forall n, item_ok (label n) (Some n) (numeral INT64_MAX) nondigit.
Proof.
  intros n v t H. split; [destruct (numeral_start _ _ _ H) as (c & q & ? & ? & ? & _); eauto 6|].
  intros i ws c r Hw Hc Hi. unfold label, readIndex. rewrite (readInt_ok _ _ v) by (assumption || unfold INT64_MAX; lia).
  destruct (Z.ltb_spec (Z.of_nat i) n); [reflexivity|]. specialize (Hi n eq_refl). lia.
Qed.

Lemma node_ok : item_ok node None (numeral INT64_MAX) nondigit.
Proof.
  intros v t H. split; [destruct (numeral_start _ _ _ H) as (c & q & ? & ? & ? & _); eauto 6|].
  intros i ws c r Hw Hc Hi. unfold node, readIndex. rewrite (readInt_ok _ _ v) by (assumption || unfold INT64_MAX; lia).
  reflexivity.
Qed.

Lemma list_text_start : forall A (one : A -> list ascii -> Prop) delim l lt, list_text one delim l lt -> exists q, lt = "("%char :: q.
Proof. intros A one delim l lt H. destruct H; eexists; reflexivity. Qed.

Lemma face_ok : forall n, item_ok (face n) (Some n) face_text (fun _ => True).
Proof.
  intros n f t H. destruct H as [k tk tm buf l lt Hk Hs Hnd Hl]. split.
  - destruct (numeral_start _ _ _ Hk) as (c & q & -> & ? & ? & _). cbn [app]. eauto 6.
  - intros i ws c r Hw _ Hi. unfold face, readInt32.
    assert (X : exists d q, tm ++ lt ++ c :: r = d :: q /\ isdigit d = false).
    { destruct tm as [|d tm]; [|exists d; eexists; split; [reflexivity | apply (Hnd d tm eq_refl)]].
      destruct (list_text_start _ _ _ _ _ Hl) as [q ->]. exists "("%char; eexists; split; reflexivity. }
    destruct X as (d & q & E & Hd). rewrite <- !app_assoc, E.
    rewrite (readInt_ok _ _ k) by (assumption || lia).
    destruct Hk as (_ & K2 & K3 & _). pose proof (value_nonneg tk 0 ltac:(lia) K2).
    specialize (Hi n eq_refl). destruct (Z.ltb_spec (Z.of_nat i) n); [|lia].
    destruct (Z.leb_spec 0 k); [|lia]. cbn [andb]. rewrite <- E.
    rewrite (readList_ok Z node None _ _ tm buf l lt (c :: r) node_ok Hs Hl); [reflexivity | discriminate].
Qed.

Lemma read_labels : forall n l text, label_file n l text -> Z.of_nat (List.length l) <= n ->
  ReadLabels text = Got (filled 0 n l).
Proof.
  intros n l text H Hl. destruct (file_ok Z label _ _ n l text label_ok H Hl) as [tail E].
  unfold ReadLabels. destruct (readCount (open text)) as [[c s]| | |]; cbn [obind fst snd] in *; try discriminate.
  destruct (readList (label c) s) as [[r s']| | |]; cbn [obind fst snd] in *; try discriminate.
  injection E as <- <- _. reflexivity.
Qed.

Lemma read_faces : forall n l text, face_file n l text -> Z.of_nat (List.length l) <= n ->
  ReadFaces text = Got (filled [] n l).
Proof.
  intros n l text H Hl. destruct (file_ok (list Z) face _ _ n l text face_ok H Hl) as [tail E].
  unfold ReadFaces. destruct (readCount (open text)) as [[c s]| | |]; cbn [obind fst snd] in *; try discriminate.
  destruct (readList (face c) s) as [[r s']| | |]; cbn [obind fst snd] in *; try discriminate.
  injection E as <- <- _. reflexivity.
Qed.

Section Points.
Variable real : Type.
Variable zero : real.
Variable readReal : stream -> option real * stream.
Variable real_text : real -> list ascii -> Prop.
Variable real_delim : ascii -> Prop.

(** What is asked of the reading of floating-point numbers. *)
Definition reads_real : Prop := forall x t, real_text x t ->
  (exists c q, t = c :: q /\ solid c /\ c <> ")"%char)
  /\ forall ws c r, Forall (fun c => isspace c = true) ws -> real_delim c ->
       readReal (open (ws ++ t ++ c :: r)) = (Some x, open (c :: r)).

Hypothesis Hreal : reads_real.

Lemma coordinate_ok : item_ok (coordinate real zero readReal) None real_text real_delim.
Proof.
  intros x t H. destruct (Hreal x t H) as [H1 H2]. split; [exact H1|].
  intros i ws c r Hw Hc _. unfold coordinate. rewrite H2 by assumption. reflexivity.
Qed.

Lemma ws_spans : forall ws, Forall (fun c => isspace c = true) ws -> exists b, spans "(" ws b.
Proof.
  intros ws H. destruct ws as [|w ws]; [exists []; constructor|]. exists [" "%char].
  replace (w :: ws) with (List.concat (map (fun c => [c]) (w :: ws)) ++ []).
  - apply spans_blanks; [discriminate | | intros; discriminate | constructor].
    clear - H. induction H as [|c l Hc Hl IH]; cbn; constructor; [constructor; exact Hc | exact IH].
  - rewrite app_nil_r. clear. induction (w :: ws) as [|c l IH]; cbn; [reflexivity | f_equal; exact IH].
Qed.

Lemma point_ok : forall n, item_ok (point real zero readReal n) (Some n) (point_text real real_text real_delim) (fun _ => True).
Proof.
  intros n p t H. destruct H as [x y z t Hl]. split.
  - destruct (list_text_start _ _ _ _ _ Hl) as [q ->]. exists "("%char, q. split; [reflexivity|].
    split; [apply solid_lit | discriminate].
  - intros i ws c r Hw _ Hi. unfold point. destruct (ws_spans ws Hw) as [b Hb].
    rewrite (readList_ok real _ None _ _ ws b [x; y; z] t (c :: r) coordinate_ok Hb Hl) by discriminate.
    cbn [obind fst snd]. specialize (Hi n eq_refl). destruct (Z.ltb_spec (Z.of_nat i) n); [reflexivity | lia].
Qed.

Lemma read_points : forall n l text, point_file real real_text real_delim n l text -> Z.of_nat (List.length l) <= n ->
  ReadPoints real zero readReal text = Got (filled None n l).
Proof.
  intros n l text H Hl. destruct (file_ok _ (point real zero readReal) _ _ n l text point_ok H Hl) as [tail E].
  unfold ReadPoints. destruct (readCount (open text)) as [[c s]| | |]; cbn [obind fst snd] in *; try discriminate.
  destruct (readList (point real zero readReal c) s) as [[r s']| | |]; cbn [obind fst snd] in *; try discriminate.
  injection E as <- <- _. reflexivity.
Qed.
End Points.
