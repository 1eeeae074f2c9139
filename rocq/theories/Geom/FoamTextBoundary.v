(** The boundary file, and lists that are too long. *)

From Coq Require Import List ZArith Bool Ascii String Lia.
From Verif Require Import Geom.FoamTextModel Geom.FoamTextSpec Geom.FoamTextProofs.
Import ListNotations.
Local Open Scope Z_scope.

(** ** Numbers at the end of a line *)

Lemma digits_end : forall t acc, Forall (fun c => isdigit c = true) t -> digits acc t = (value acc t, []).
Proof.
  induction t as [|a t IH]; intros acc Ht; cbn [digits value]; [reflexivity|].
  inversion Ht; subst. rewrite H1. apply IH; assumption.
Qed.

Lemma readInt_end : forall lo hi v t ws, lo <= 0 -> numeral hi v t -> Forall (fun c => isspace c = true) ws ->
  fst (readInt lo hi (open (ws ++ t))) = Some v.
Proof.
  intros lo hi v t ws Hlo (Hne & Hd & Hv & Hhi) Hw. unfold readInt. cbn [good eof fail open negb andb rest].
  destruct t as [|d t]; [congruence|]. inversion Hd as [|? ? D1 D2]; subst.
  destruct (isdigit_solid d D1) as [[S1 _] _].
  rewrite skipws_ok by assumption. cbn [at_end]. rewrite isdigit_sign by exact D1. rewrite D1.
  rewrite digits_end by assumption.
  pose proof (value_nonneg (d :: t) 0 ltac:(lia) Hd) as Hn. rewrite Z.mul_1_l.
  destruct (Z.ltb_spec (value 0 (d :: t)) lo); [lia|]. destruct (Z.ltb_spec hi (value 0 (d :: t))); [lia|]. reflexivity.
Qed.

(** ** Lines *)

Lemma take_word_ok : forall w r, Forall (fun c => isspace c = false) w -> (r = [] \/ exists c q, r = c :: q /\ isspace c = true) ->
  take_word (w ++ r) = w /\ drop_word (w ++ r) = r.
Proof.
  induction w as [|c w IH]; intros r Hw Hr; cbn [app take_word drop_word].
  - destruct Hr as [->|(c & q & -> & Hc)]; [split; reflexivity|]. cbn [take_word drop_word]. rewrite Hc. split; reflexivity.
  - inversion Hw; subst. rewrite H1. destruct (IH r H2 Hr) as [-> ->]. split; reflexivity.
Qed.

Lemma skipws_word : forall w r, word w -> skipws (w ++ r) = w ++ r.
Proof.
  intros w r [Hne Hw]. destruct w as [|c w]; [congruence|]. inversion Hw; subst. cbn [app skipws]. rewrite H1. reflexivity.
Qed.

Lemma entry_parts : forall k v b, word k -> entry k v b ->
  take_word (skipws b) = k /\ exists q, drop_word (skipws b) = " "%char :: v ++ q /\ word v /\ (q = [] \/ exists q', q = " "%char :: q').
Proof.
  intros k v b Hk (q & -> & Hv & Hq). rewrite skipws_word by exact Hk.
  destruct (take_word_ok k (" "%char :: v ++ q)) as [-> ->]; [apply Hk | right; exists " "%char; eexists; split; reflexivity |].
  split; [reflexivity|]. exists q. auto.
Qed.

Lemma word_lit : word (str "type") /\ word (str "nFaces") /\ word (str "startFace").
Proof. repeat split; try discriminate; repeat constructor. Qed.

Lemma skipws_entry : forall k v b, word k -> entry k v b -> at_end (skipws b) = false.
Proof.
  intros k v b Hk (q & -> & _). rewrite skipws_word by exact Hk. destruct Hk as [H _]. destruct k; [congruence | reflexivity].
Qed.

Lemma setting_type : forall v b, entry (str "type") v b -> setting_of b = Got (SetType v).
Proof.
  intros v b H. destruct (entry_parts _ _ _ (proj1 word_lit) H) as (E1 & q & E2 & Hv & Hq).
  unfold setting_of. rewrite E1, E2, (skipws_entry _ _ _ (proj1 word_lit) H).
  destruct (list_eq_dec ascii_dec (str "type") (str "type")) as [_|N]; [|congruence].
  cbn [at_end good eof fail negb andb]. unfold first_word. cbn [skipws]. change (isspace " ") with true. cbv iota.
  rewrite skipws_word by exact Hv.
  destruct (take_word_ok v q) as [-> _]; [apply Hv | | reflexivity].
  destruct Hq as [->|[q' ->]]; [left; reflexivity | right; exists " "%char, q'; split; reflexivity].
Qed.

Lemma number_after : forall n t q, numeral INT64_MAX n t -> (q = [] \/ exists q', q = " "%char :: q') ->
  fst (readIndex (open (" "%char :: t ++ q))) = Some n.
Proof.
  intros n t q Hn [->|[q' ->]]; unfold readIndex.
  - rewrite app_nil_r. apply (readInt_end _ _ n t [" "%char]); [unfold INT64_MAX; lia | exact Hn | repeat constructor].
  - rewrite (readInt_ok _ _ n t [" "%char] " " q'); [reflexivity | unfold INT64_MAX; lia | exact Hn | repeat constructor | reflexivity].
Qed.

Lemma setting_faces : forall n t b, numeral INT64_MAX n t -> entry (str "nFaces") t b -> setting_of b = Got (SetFaces n).
Proof.
  intros n t b Hn H. pose proof (proj1 (proj2 word_lit)) as W. destruct (entry_parts _ _ _ W H) as (E1 & q & E2 & Hv & Hq).
  unfold setting_of. rewrite E1, E2, (skipws_entry _ _ _ W H).
  destruct (list_eq_dec ascii_dec (str "nFaces") (str "type")) as [N|_]; [discriminate|].
  destruct (list_eq_dec ascii_dec (str "nFaces") (str "nFaces")) as [_|N]; [|congruence].
  cbn [at_end]. change {| rest := " "%char :: t ++ q; eof := false; fail := false |} with (open (" "%char :: t ++ q)).
  rewrite (number_after n) by assumption. reflexivity.
Qed.

Lemma setting_start : forall n t b, numeral INT64_MAX n t -> entry (str "startFace") t b -> setting_of b = Got (SetStart n).
Proof.
  intros n t b Hn H. pose proof (proj2 (proj2 word_lit)) as W. destruct (entry_parts _ _ _ W H) as (E1 & q & E2 & Hv & Hq).
  unfold setting_of. rewrite E1, E2, (skipws_entry _ _ _ W H).
  destruct (list_eq_dec ascii_dec (str "startFace") (str "type")) as [N|_]; [discriminate|].
  destruct (list_eq_dec ascii_dec (str "startFace") (str "nFaces")) as [N|_]; [discriminate|].
  destruct (list_eq_dec ascii_dec (str "startFace") (str "startFace")) as [_|N]; [|congruence].
  cbn [at_end]. change {| rest := " "%char :: t ++ q; eof := false; fail := false |} with (open (" "%char :: t ++ q)).
  rewrite (number_after n) by assumption. reflexivity.
Qed.

(** What a setting is worth against a description. *)
Definition fits (c : condition) (a : setting) : Prop :=
  match a with
  | SetType t => t = c_type c | SetFaces n => n = c_nFaces c | SetStart n => n = c_startFace c | SetNothing => True
  end.

Lemma setting_ok : forall ls c b, describes ls c -> In b ls ->
  exists a, setting_of b = Got a /\ fits c a
    /\ (keyed (str "type") b -> a = SetType (c_type c))
    /\ (keyed (str "nFaces") b -> a = SetFaces (c_nFaces c))
    /\ (keyed (str "startFace") b -> a = SetStart (c_startFace c)).
Proof.
  intros ls c b (_ & _ & _ & H) Hb. destruct (H b Hb) as (H1 & H2 & H3). unfold keyed in *.
  destruct (list_eq_dec ascii_dec (first_word b) (str "type")) as [E|N1].
  { exists (SetType (c_type c)). split; [apply setting_type; auto|]. rewrite E. repeat split; intros; reflexivity || discriminate. }
  destruct (list_eq_dec ascii_dec (first_word b) (str "nFaces")) as [E|N2].
  { exists (SetFaces (c_nFaces c)). destruct (H2 E) as (t & Ht & He). split; [apply setting_faces with t; auto|].
    rewrite E. repeat split; intros; reflexivity || discriminate. }
  destruct (list_eq_dec ascii_dec (first_word b) (str "startFace")) as [E|N3].
  { exists (SetStart (c_startFace c)). destruct (H3 E) as (t & Ht & He). split; [apply setting_start with t; auto|].
    rewrite E. repeat split; intros; reflexivity || discriminate. }
  exists SetNothing. split; [|repeat split; intros; contradiction].
  unfold setting_of, first_word in *. 
  destruct (list_eq_dec ascii_dec (take_word (skipws b)) (str "type")); [contradiction|].
  destruct (list_eq_dec ascii_dec (take_word (skipws b)) (str "nFaces")); [contradiction|].
  destruct (list_eq_dec ascii_dec (take_word (skipws b)) (str "startFace")); [contradiction|]. reflexivity.
Qed.

Lemma settings_sub : forall ls, (forall b, In b ls -> exists a, setting_of b = Got a) ->
  exists l, settings ls = Got l /\ Forall2 (fun b a => setting_of b = Got a) ls l.
Proof.
  induction ls as [|b ls IH]; intros H; [exists []; split; [reflexivity | constructor]|].
  destruct (H b (or_introl eq_refl)) as [a Ha]. destruct IH as (l & Hl & HF); [intros; apply H; right; assumption|].
  exists (a :: l). cbn. rewrite Ha. cbn. rewrite Hl. split; [reflexivity | constructor; assumption].
Qed.

Lemma F2_in_l : forall A B (R : A -> B -> Prop) l m x, Forall2 R l m -> In x l -> exists y, In y m /\ R x y.
Proof.
  intros A B R l m x H. induction H as [|a b l m Hab H IH]; intros Hx; [contradiction|].
  destruct Hx as [->|Hx]; [exists b; split; [left; reflexivity | exact Hab]|]. destruct (IH Hx) as (y & ? & ?). exists y. split; [right|]; assumption.
Qed.
Lemma F2_in_r : forall A B (R : A -> B -> Prop) l m y, Forall2 R l m -> In y m -> exists x, In x l /\ R x y.
Proof.
  intros A B R l m y H. induction H as [|a b l m Hab H IH]; intros Hx; [contradiction|].
  destruct Hx as [->|Hx]; [exists a; split; [left; reflexivity | exact Hab]|]. destruct (IH Hx) as (x & ? & ?). exists x. split; [right|]; assumption.
Qed.

(** What a patch comes to. *)
Definition patch_ok (c : condition) (l : list setting) : Prop :=
  Forall (fits c) l /\ In (SetType (c_type c)) l /\ In (SetFaces (c_nFaces c)) l /\ In (SetStart (c_startFace c)) l.

Lemma settings_ok : forall ls c, describes ls c -> exists l, settings ls = Got l /\ patch_ok c l.
Proof.
  intros ls c H. destruct (settings_sub ls) as (l & Hl & HF).
  { intros b Hb. destruct (setting_ok ls c b H Hb) as (a & Ha & _). exists a. exact Ha. }
  exists l. split; [exact Hl|]. unfold patch_ok. split.
  { apply Forall_forall. intros a Ha. destruct (F2_in_r _ _ _ _ _ _ HF Ha) as (b & Hb & E).
    destruct (setting_ok ls c b H Hb) as (a' & E' & Hf & _). congruence. }
  destruct H as ((b1 & B1 & K1) & (b2 & B2 & K2) & (b3 & B3 & K3) & Hr).
  assert (D : describes ls c) by (repeat split; eauto; apply Hr; assumption).
  repeat split.
  - destruct (F2_in_l _ _ _ _ _ _ HF B1) as (a & Ha & E). destruct (setting_ok ls c b1 D B1) as (a' & E' & _ & X & _ & _).
    rewrite <- (X K1). replace a' with a by congruence. exact Ha.
  - destruct (F2_in_l _ _ _ _ _ _ HF B2) as (a & Ha & E). destruct (setting_ok ls c b2 D B2) as (a' & E' & _ & _ & X & _).
    rewrite <- (X K2). replace a' with a by congruence. exact Ha.
  - destruct (F2_in_l _ _ _ _ _ _ HF B3) as (a & Ha & E). destruct (setting_ok ls c b3 D B3) as (a' & E' & _ & _ & _ & X).
    rewrite <- (X K3). replace a' with a by congruence. exact Ha.
Qed.

(** ** The conditions kept *)

Lemma lookup_head : forall name c m, lookup name ((name, c) :: m) = Some c.
Proof. intros. cbn. destruct (list_eq_dec ascii_dec name name); [reflexivity | congruence]. Qed.

Lemma set_other : forall name name' a m, name' <> name -> lookup name' (set_in name a m) = lookup name' m.
Proof.
  intros name name' a m N. unfold set_in. destruct a; cbn [lookup]; try reflexivity;
    (destruct (list_eq_dec ascii_dec name name'); [congruence | reflexivity]).
Qed.

Lemma sets_other : forall l name name' m, name' <> name ->
  lookup name' (fold_left (fun m a => set_in name a m) l m) = lookup name' m.
Proof.
  induction l as [|a l IH]; intros name name' m N; cbn [fold_left]; [reflexivity|]. rewrite IH by exact N. apply set_other; exact N.
Qed.

Definition now (name : list ascii) (m : conditions) : condition := match lookup name m with Some c => c | None => fresh end.

Lemma sets_here : forall l name m c, Forall (fits c) l ->
  (In (SetType (c_type c)) l \/ c_type (now name m) = c_type c) ->
  (In (SetFaces (c_nFaces c)) l \/ c_nFaces (now name m) = c_nFaces c) ->
  (In (SetStart (c_startFace c)) l \/ c_startFace (now name m) = c_startFace c) ->
  now name (fold_left (fun m a => set_in name a m) l m) = c.
Proof.
  induction l as [|a l IH]; intros name m c HF H1 H2 H3; cbn [fold_left].
  - destruct H1 as [[]|H1], H2 as [[]|H2], H3 as [[]|H3]. destruct (now name m), c; cbn in *; subst; reflexivity.
  - inversion HF as [|? ? F1 F2]; subst.
    assert (N : forall t n s, now name ((name, {| c_type := t; c_nFaces := n; c_startFace := s |}) :: m) = {| c_type := t; c_nFaces := n; c_startFace := s |}).
    { intros. unfold now. rewrite lookup_head. reflexivity. }
    assert (X : match lookup name m with Some c => c | None => fresh end = now name m) by reflexivity.
    apply IH; [exact F2 | | |]; destruct a; cbn [set_in fits] in *; rewrite ?X, ?N; cbn [c_type c_nFaces c_startFace]; subst;
      try (right; reflexivity);
      try (destruct H1 as [[H1|H1]|H1]; [discriminate H1 | left; exact H1 | right; exact H1]);
      try (destruct H2 as [[H2|H2]|H2]; [discriminate H2 | left; exact H2 | right; exact H2]);
      try (destruct H3 as [[H3|H3]|H3]; [discriminate H3 | left; exact H3 | right; exact H3]).
Qed.

Lemma set_keeps : forall name a m, lookup name m <> None -> lookup name (set_in name a m) <> None.
Proof. intros name a m H. unfold set_in. destruct a; try (rewrite lookup_head; discriminate). exact H. Qed.

Lemma sets_keep : forall l name m, lookup name m <> None -> lookup name (fold_left (fun m a => set_in name a m) l m) <> None.
Proof. induction l as [|a l IH]; intros name m H; cbn [fold_left]; [exact H|]. apply IH, set_keeps, H. Qed.

Lemma sets_some : forall l name m t, In (SetType t) l -> lookup name (fold_left (fun m a => set_in name a m) l m) <> None.
Proof.
  induction l as [|a l IH]; intros name m t H; [contradiction|]. cbn [fold_left].
  destruct H as [->|H]; [|eapply IH; exact H]. apply sets_keep. unfold set_in. rewrite lookup_head. discriminate.
Qed.

Lemma patch_sets : forall l name m c, patch_ok c l ->
  lookup name (fold_left (fun m a => set_in name a m) l m) = Some c.
Proof.
  intros l name m c (H1 & H2 & H3 & H4).
  pose proof (sets_here l name m c H1 (or_introl H2) (or_introl H3) (or_introl H4)) as E.
  pose proof (sets_some l name m _ H2) as N. unfold now in E.
  destruct (lookup name (fold_left (fun m a => set_in name a m) l m)); [congruence | contradiction].
Qed.

Definition step (m : conditions) (p : list ascii * list setting) : conditions :=
  fold_left (fun m a => set_in (fst p) a m) (snd p) m.

Lemma patches_other : forall ps name m, ~ In name (map fst ps) -> lookup name (fold_left step ps m) = lookup name m.
Proof.
  induction ps as [|[k l] ps IH]; intros name m H; cbn [fold_left]; [reflexivity|]. cbn in H.
  rewrite IH by tauto. apply sets_other. cbn. intros ->. tauto.
Qed.

Lemma patches_ok : forall ps m name l c, NoDup (map fst ps) -> In (name, l) ps -> patch_ok c l ->
  lookup name (fold_left step ps m) = Some c.
Proof.
  induction ps as [|[k l0] ps IH]; intros m name l c Hd Hin Hp; [contradiction|]. cbn [fold_left].
  cbn in Hd. inversion Hd as [|? ? D1 D2]; subst. destruct Hin as [E|Hin].
  - injection E as -> ->. rewrite patches_other by exact D1. apply patch_sets. exact Hp.
  - eapply IH; eassumption.
Qed.

(** ** The file *)

Definition described (p : list ascii * list (list ascii)) : Prop := exists c, describes (snd p) c.
Definition got (p : list ascii * list (list ascii)) (g : list ascii * list setting) : Prop :=
  fst g = fst p /\ settings (snd p) = Got (snd g).

Lemma spans_ws : forall v t b ws, spans v t b -> Forall (fun c => isspace c = true) ws ->
  (exists c t', t = c :: t' /\ solid c) -> exists b', spans v (ws ++ t) b' /\ first_word b' = first_word b.
Proof.
  intros v t b ws H Hw (c & t' & Et & Hc). destruct ws as [|w ws]; [exists b; split; [exact H | reflexivity]|].
  exists (" "%char :: b). split.
  - replace (w :: ws) with (List.concat (map (fun c => [c]) (w :: ws))).
    + apply spans_blanks; [discriminate | | | exact H].
      * clear - Hw. induction Hw as [|c l Hc Hl IH]; cbn; constructor; [constructor; exact Hc | exact IH].
      * intros c0 q0 E0. rewrite Et in E0. injection E0 as <- <-. exact Hc.
    + clear. induction (w :: ws) as [|c l IH]; cbn; [reflexivity | f_equal; exact IH].
  - reflexivity.
Qed.

(** Texts that say what [patch] gives. *)
Definition set_text (g : list ascii * list setting) (t : list ascii) : Prop :=
  exists p, patch_text p t /\ got p g.

Lemma readObj_ok : forall bs ls es r, Forall blank bs -> entry_list ls es ->
  readObj (open ("{"%char :: List.concat bs ++ es ++ "}"%char :: r)) = Got (ls, open r).
Proof.
  intros bs ls es r Hb He. unfold readObj.
  change (open ("{"%char :: List.concat bs ++ es ++ "}"%char :: r)) with (open ([] ++ "{"%char :: List.concat bs ++ es ++ "}"%char :: r)).
  rewrite (getUntil_ok "{" [] []) by (exact (spans_nil _) || apply solid_lit). cbn [obind].
  rewrite getc_open. cbn [snd].
  rewrite passSpaces_ok by (exact Hb || apply entries_start with ls; exact He). cbn [obind snd].
  rewrite (entries_ok ls es He); [reflexivity|]. rewrite open_rest, app_length. cbn. lia.
Qed.

Lemma patch_item_ok : item_ok patch None set_text (fun _ => True).
Proof.
  intros [name a] t (p & Hp & Hg). destruct Hp as [nm t b bs ls es Hs Hn Hc Hb He]. destruct Hg as [G1 G2]. cbn in G1, G2. subst name. split.
  - destruct Hc as (c & t' & -> & H1 & H2). exists c. eexists. split; [reflexivity | auto].
  - intros i ws c r Hw _ _. unfold patch.
    assert (Hc' : exists c t', t = c :: t' /\ solid c) by (destruct Hc as (c1 & t' & ? & ? & _); eauto).
    destruct (spans_ws "{" t b ws Hs Hw Hc') as (b' & Hs' & E').
    rewrite <- !app_assoc. cbn [app]. rewrite app_assoc.
    rewrite (getUntil_ok "{" (ws ++ t) b') by (exact Hs' || apply solid_lit). cbn [obind].
    rewrite <- !app_assoc. cbn [app]. rewrite (readObj_ok bs ls es) by assumption. cbn [obind fst snd].
    rewrite G2. cbn [obind]. rewrite E', Hn. reflexivity.
Qed.

Lemma body_map : forall l b, body patch_text (fun _ => True) l b -> Forall described l ->
  exists g, Forall2 got l g /\ body set_text (fun _ => True) g b.
Proof.
  intros l b H. induction H as [|p t bs l b c q Hp Hb Hl IH He Hd]; intros HF.
  - exists []. split; constructor.
  - inversion HF as [|? ? F1 F2]; subst. destruct (IH F2) as (g & G1 & G2). destruct F1 as [cd Hcd].
    destruct (settings_ok _ _ Hcd) as (a & Ha & _). exists ((fst p, a) :: g). split.
    + constructor; [split; [reflexivity | exact Ha] | exact G1].
    + eapply body_cons; try eassumption. exists p. split; [exact Hp | split; [reflexivity | exact Ha]].
Qed.

Lemma list_map : forall l t, list_text patch_text (fun _ => True) l t -> Forall described l ->
  exists g, Forall2 got l g /\ list_text set_text (fun _ => True) g t.
Proof.
  intros l t H HF. destruct H as [|ws l b Hne Hw Hb]; [exists []; split; constructor|].
  destruct (body_map l b Hb HF) as (g & G1 & G2). exists g. split; [exact G1|]. constructor; [|exact Hw|exact G2].
  intros ->. inversion G1; subst. congruence.
Qed.

Lemma read_boundary : forall n l text, patch_file n l text -> NoDup (map fst l) -> Forall described l ->
  exists m, ReadBoundary text = Got m
    /\ (forall name ls c, In (name, ls) l -> describes ls c -> lookup name m = Some c)
    /\ (forall name, ~ In name (map fst l) -> lookup name m = None).
Proof.
  intros n l text H Hd HF. destruct H as [h bs n tn tm buf l lt tail Hh Hb Hn Hs Hnd Hl].
  destruct (list_map l lt Hl HF) as (g & G1 & G2).
  assert (X : exists c q, tm ++ lt ++ tail = c :: q /\ isdigit c = false).
  { destruct tm as [|c tm]; [|exists c; eexists; split; [reflexivity | apply (Hnd c tm eq_refl)]].
    destruct Hl; (exists "("%char; eexists; split; [reflexivity | reflexivity]). }
  destruct X as (c & q & E & Hc).
  exists (fold_left step g []). split; [|split].
  - unfold ReadBoundary. rewrite E.
    destruct (header_ok h (List.concat bs ++ tn ++ c :: q) Hh) as [ls ->]. cbn [obind snd].
    pose proof Hn as (N1 & N2 & N3 & N4).
    rewrite passSpaces_ok; [|exact Hb|].
    2:{ destruct tn as [|d tn]; [congruence|]. inversion N2; subst. exists d; eexists; split; [reflexivity|]. apply isdigit_solid. assumption. }
    cbn [obind snd]. unfold readIndex.
    change (tn ++ c :: q) with ([] ++ tn ++ c :: q). rewrite (readInt_ok _ _ n); [|unfold INT64_MAX; lia|exact Hn|constructor|exact Hc].
    cbn [snd]. rewrite <- E.
    rewrite (readList_ok _ patch None set_text (fun _ => True) tm buf g lt tail); [|exact patch_item_ok|exact Hs|exact G2|discriminate].
    cbn [obind fst]. f_equal. clear. generalize (@nil (list ascii * condition)).
    induction g as [|[k a] g IH]; intros m; [reflexivity|]. cbn [fold_left]. rewrite IH. reflexivity.
  - intros name ls0 cd Hin Hdesc. destruct (settings_ok _ _ Hdesc) as (a & Ha & Hp).
    destruct (F2_in_l _ _ _ _ _ _ G1 Hin) as ([nm a'] & Hg & [E1 E2]). cbn in E1, E2. subst nm.
    eapply patches_ok; [|exact Hg|]; [|replace a' with a by congruence; exact Hp].
    replace (map fst g) with (map fst l); [exact Hd|]. clear - G1. induction G1 as [|p g0 l g [E _] H IH]; cbn; [reflexivity | congruence].
  - intros name Hnot. rewrite patches_other; [reflexivity|].
    replace (map fst g) with (map fst l); [exact Hnot|]. clear - G1. induction G1 as [|p g0 l g [E _] H IH]; cbn; [reflexivity | congruence].
Qed.
