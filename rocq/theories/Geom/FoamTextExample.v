(** Files as OpenFOAM writes them. *)

From Coq Require Import List ZArith Bool Ascii String Lia.
From Verif Require Import Geom.FoamTextModel Geom.FoamTextSpec Geom.FoamTextProofs.
Import ListNotations.
Local Open Scope Z_scope.

(** ** Checking the grammar *)

Fixpoint tameb (l : list ascii) : bool :=
  match l with
  | c :: r => match r with
              | x :: _ => (negb (Ascii.eqb c "*") || (negb (Ascii.eqb x "*") && negb (Ascii.eqb x "/"))) && tameb r
              | [] => true
              end
  | [] => true
  end.
Lemma tameb_tail : forall c r, tameb (c :: r) = true -> tameb r = true.
Proof. intros c r H. destruct r as [|x r]; [reflexivity|]. apply andb_prop in H. apply H. Qed.
Lemma tameb_ok : forall l, tameb l = true -> tame l.
Proof.
  intros l H p. revert l H. induction p as [|a p IH]; intros l H x q E; subst l.
  - cbn [app] in H. cbn [tameb] in H. apply andb_prop in H. destruct H as [H _]. cbn in H.
    apply andb_prop in H. destruct H as [H1 H2]. split; intros ->; [discriminate H1 | discriminate H2].
  - cbn [app] in H. eapply (IH _ (tameb_tail _ _ H)). reflexivity.
Qed.

Definition solidb (c : ascii) : bool := negb (isspace c) && negb (Ascii.eqb c "/").
Lemma solidb_ok : forall c, solidb c = true -> solid c.
Proof.
  intros c H. apply andb_prop in H. destruct H as [H1 H2]. split; [apply negb_true_iff; exact H1|].
  intros ->. discriminate.
Qed.

Lemma spans_word : forall v w t b, forallb (fun c => solidb c && negb (Ascii.eqb c v)) w = true ->
  spans v t b -> spans v (w ++ t) (w ++ b).
Proof.
  intros v w t b H Hs. induction w as [|c w IH]; [exact Hs|]. cbn [forallb] in H. apply andb_prop in H. destruct H as [H1 H2].
  apply andb_prop in H1. destruct H1 as [H0 H1]. cbn [app]. constructor; [apply solidb_ok; exact H0 | | apply IH; exact H2].
  intros ->. rewrite Ascii.eqb_refl in H1. discriminate.
Qed.

(** Spaces. *)
Definition gaps (s : string) : list (list ascii) := map (fun c => [c]) (str s).
Lemma gaps_ok : forall s, forallb isspace (str s) = true -> Forall blank (gaps s).
Proof.
  intros s. unfold gaps. generalize (str s). induction l as [|c l IH]; intros H; cbn in *; constructor.
  - constructor. apply andb_prop in H. apply H.
  - apply IH. apply andb_prop in H. apply H.
Qed.

(** A key, a gap, a value and a semicolon. *)
Lemma entry_two : forall k g v g' ls es,
  forallb (fun c => solidb c && negb (Ascii.eqb c ";")) (str k) = true ->
  match str k with c :: _ => negb (Ascii.eqb c "}") = true | [] => False end ->
  str g <> [] -> forallb isspace (str g) = true ->
  match str v with c :: _ => True | [] => False end ->
  forallb (fun c => solidb c && negb (Ascii.eqb c ";")) (str v) = true ->
  forallb isspace (str g') = true -> entry_list ls es ->
  entry_list ((str k ++ " "%char :: str v) :: ls)
    ((str k ++ List.concat (gaps g) ++ str v) ++ ";"%char :: List.concat (gaps g') ++ es).
Proof.
  intros k g v g' ls es Hk Hk1 Hg Hg1 Hv1 Hv Hg' He. constructor; [| | apply gaps_ok; exact Hg' | exact He].
  - apply spans_word; [exact Hk|]. apply spans_blanks.
    + unfold gaps. destruct (str g); [congruence | discriminate].
    + apply gaps_ok; exact Hg1.
    + intros c t' E. rewrite E in Hv. cbn [forallb] in Hv. apply andb_prop in Hv. destruct Hv as [H _].
      apply andb_prop in H. apply solidb_ok. apply H.
    + pose proof (spans_word ";" (str v) [] [] Hv (spans_nil _)) as X. rewrite !app_nil_r in X. exact X.
  - intros c t' E. destruct (str k) as [|c0 k0]; [contradiction|]. cbn [app] in E. injection E as <- _.
    cbn [forallb] in Hk. apply andb_prop in Hk. destruct Hk as [H _]. apply andb_prop in H.
    split; [apply solidb_ok; apply H|]. intros ->. discriminate.
Qed.

(** ** The usual header *)

Definition banner : string :=
"--------------------------------*- C++ -*----------------------------------*\
| =========                 |                                                 |
| \\      /  F ield         | OpenFOAM: The Open Source CFD Toolbox           |
|  \\    /   O peration     | Version:  v2012                                 |
\*---------------------------------------------------------------------------".
Definition rule : string := " * * * * * * * * * * * * * * * * * * * //".
Definition nl : string := String newline EmptyString.

Definition head_text (class : string) : list ascii :=
  (List.concat [str "/*" ++ str banner ++ str "*/"; [newline]] ++ str "FoamFile" ++ List.concat (gaps nl) ++ [])
  ++ "{"%char :: List.concat (gaps nl) ++
     ((str "version" ++ List.concat (gaps "  ") ++ str "2.0") ++ ";"%char :: List.concat (gaps nl) ++
      (str "class" ++ List.concat (gaps " ") ++ str class) ++ ";"%char :: List.concat (gaps nl) ++ []) ++ ["}"%char].
Definition after_head : list (list ascii) := [[newline]; str "//" ++ str rule ++ [newline]; [newline]].

Lemma head_ok : forall class, match str class with c :: _ => True | [] => False end ->
  forallb (fun c => solidb c && negb (Ascii.eqb c ";")) (str class) = true -> header (head_text class).
Proof.
  intros class Hc Hc'. unfold head_text. eapply header_text.
  - apply spans_blanks; [discriminate | | | apply spans_word; [reflexivity | apply spans_blanks; [discriminate | apply gaps_ok; reflexivity | intros; discriminate | constructor]]].
    + constructor; [|repeat constructor]. constructor. apply tameb_ok. reflexivity.
    + intros c t' E. injection E as <- _. apply solidb_ok. reflexivity.
  - reflexivity.
  - apply gaps_ok; reflexivity.
  - apply entry_two; try reflexivity; try exact I; try discriminate.
    apply entry_two; try reflexivity; try discriminate; try assumption. constructor.
Qed.

Lemma after_ok : Forall blank after_head.
Proof.
  repeat constructor. intros H. unfold rule, str in H. cbn in H.
  repeat (destruct H as [H|H]; [discriminate H|]). exact H.
Qed.

(** ** Owners: three labels *)

Lemma numeral_ok : forall hi s, forallb isdigit (str s) = true -> str s <> [] -> value 0 (str s) <= hi ->
  numeral hi (value 0 (str s)) (str s).
Proof.
  intros hi s H Hn Hv. repeat split; [exact Hn | | exact Hv]. apply Forall_forall. intros c Hc.
  rewrite forallb_forall in H. apply H, Hc.
Qed.

Definition three : list ascii :=
  str "10" ++ List.concat (gaps nl) ++ str "20" ++ List.concat (gaps " ") ++ str "30" ++ List.concat (gaps nl) ++ [")"%char].
Definition labels_text (count : string) : list ascii :=
  head_text "labelList" ++ List.concat after_head ++ str count ++ (List.concat (gaps nl) ++ []) ++ ("("%char :: str nl ++ three) ++ str nl.

Lemma three_ok : body (numeral INT64_MAX) nondigit [10; 20; 30] three.
Proof.
  unfold three.
  eapply body_cons; [apply (numeral_ok INT64_MAX "10"); try reflexivity; discriminate | apply gaps_ok; reflexivity | | reflexivity | reflexivity].
  eapply body_cons; [apply (numeral_ok INT64_MAX "20"); try reflexivity; discriminate | apply gaps_ok; reflexivity | | reflexivity | reflexivity].
  eapply body_cons; [apply (numeral_ok INT64_MAX "30"); try reflexivity; discriminate | apply gaps_ok; reflexivity | | reflexivity | reflexivity].
  constructor.
Qed.

Lemma gap_line : forall v, spans v (List.concat (gaps nl) ++ []) [" "%char].
Proof.
  intros v. apply spans_blanks; [discriminate | apply gaps_ok; reflexivity | intros; discriminate | constructor].
Qed.
Lemma gap_nondigit : forall c t', List.concat (gaps nl) ++ [] = c :: t' -> nondigit c.
Proof. intros c t' [= <- _]. reflexivity. Qed.

Lemma labels_file : forall s, forallb isdigit (str s) = true -> str s <> [] -> value 0 (str s) <= INT64_MAX ->
  label_file (value 0 (str s)) [10; 20; 30] (labels_text s).
Proof.
  intros s H1 H2 H3. unfold labels_text. eapply file_text.
  - apply head_ok; [exact I | reflexivity].
  - apply after_ok.
  - apply numeral_ok; assumption.
  - apply gap_line.
  - exact gap_nondigit.
  - constructor; [discriminate | repeat constructor | apply three_ok].
Qed.

(** The same file with a count of -3 *)
Lemma negative_example : negative_file (labels_text "-3").
Proof.
  unfold labels_text. change (str "-3") with ("-"%char :: str "3").
  change (head_text "labelList" ++ List.concat after_head ++ ("-"%char :: str "3") ++ (List.concat (gaps nl) ++ []) ++ ("("%char :: str nl ++ three) ++ str nl)
    with (head_text "labelList" ++ List.concat after_head ++ "-"%char :: str "3" ++ newline :: ("("%char :: str nl ++ three) ++ str nl).
  apply negative_text with (n := 3).
  - apply head_ok; [exact I | reflexivity].
  - apply after_ok.
  - apply (numeral_ok INT64_MAX "3"); try reflexivity; discriminate.
  - reflexivity.
  - reflexivity.
Qed.

(** ** Faces: two of them; the number before the first is free *)

Definition faces_body (first : string) : list ascii :=
  (str first ++ [] ++ "("%char :: [] ++ str "0" ++ List.concat (gaps " ") ++ str "1" ++ List.concat (gaps " ") ++ str "2" ++ List.concat (gaps "") ++ [")"%char])
  ++ List.concat (gaps nl) ++
  (str "4" ++ [] ++ "("%char :: [] ++ str "3" ++ List.concat (gaps " ") ++ str "4" ++ List.concat (gaps " ") ++ str "5" ++ List.concat (gaps " ") ++ str "6" ++ List.concat (gaps "") ++ [")"%char])
  ++ List.concat (gaps nl) ++ [")"%char].
Definition faces_text (first : string) : list ascii :=
  head_text "faceList" ++ List.concat after_head ++ str "2" ++ (List.concat (gaps nl) ++ []) ++ ("("%char :: str nl ++ faces_body first) ++ str nl.

Ltac one_number s := eapply body_cons; [apply (numeral_ok INT64_MAX s); try reflexivity; discriminate | apply gaps_ok; reflexivity | | reflexivity | reflexivity].

Lemma faces_file : forall s, forallb isdigit (str s) = true -> str s <> [] -> value 0 (str s) <= 2147483647 ->
  face_file 2 [[0; 1; 2]; [3; 4; 5; 6]] (faces_text s).
Proof.
  intros s H1 H2 H3. unfold faces_text. eapply file_text.
  - apply head_ok; [exact I | reflexivity].
  - apply after_ok.
  - apply (numeral_ok INT64_MAX "2"); try reflexivity; discriminate.
  - apply gap_line.
  - exact gap_nondigit.
  - constructor; [discriminate | repeat constructor |]. unfold faces_body.
    eapply body_cons; [| apply gaps_ok; reflexivity | | reflexivity | exact I].
    + eapply face_one; [apply numeral_ok; assumption | apply spans_nil | intros; discriminate |].
      apply list_some; [discriminate | constructor |]. one_number "0"%string. one_number "1"%string. one_number "2"%string. constructor.
    + eapply body_cons; [| apply gaps_ok; reflexivity | | reflexivity | exact I]; [|constructor].
      eapply face_one; [apply (numeral_ok 2147483647 "4"); try reflexivity; discriminate | apply spans_nil | intros; discriminate |].
      apply list_some; [discriminate | constructor |]. one_number "3"%string. one_number "4"%string. one_number "5"%string. one_number "6"%string. constructor.
Qed.

(** ** Points: whole numbers stand for floating-point ones *)

Lemma whole_reads : reads_real Z readIndex (numeral INT64_MAX) nondigit.
Proof.
  intros x t H. split; [destruct (numeral_start _ _ _ H) as (c & q & ? & ? & ? & _); eauto 6|].
  intros ws c r Hw Hc. apply readInt_ok; try assumption. unfold INT64_MAX; lia.
Qed.

Definition points_body : list ascii :=
  ("("%char :: [] ++ str "0" ++ List.concat (gaps " ") ++ str "1" ++ List.concat (gaps " ") ++ str "2" ++ List.concat (gaps "") ++ [")"%char])
  ++ List.concat (gaps nl) ++ [")"%char].
Definition points_text : list ascii :=
  head_text "vectorField" ++ List.concat after_head ++ str "1" ++ (List.concat (gaps nl) ++ []) ++ ("("%char :: str nl ++ points_body) ++ str nl.

Lemma points_file : point_file Z (numeral INT64_MAX) nondigit 1 [Some (0, 1, 2)] points_text.
Proof.
  unfold points_text. eapply file_text.
  - apply head_ok; [exact I | reflexivity].
  - apply after_ok.
  - apply (numeral_ok INT64_MAX "1"); try reflexivity; discriminate.
  - apply gap_line.
  - exact gap_nondigit.
  - constructor; [discriminate | repeat constructor |]. unfold points_body.
    eapply body_cons; [| apply gaps_ok; reflexivity | constructor | reflexivity | exact I].
    constructor. apply list_some; [discriminate | constructor |].
    one_number "0"%string. one_number "1"%string. one_number "2"%string. constructor.
Qed.

(** ** Boundary: one patch *)

Definition inlet_lines : list (list ascii) :=
  [str "type" ++ " "%char :: str "patch"; str "inGroups" ++ " "%char :: str "1(x)"; str "nFaces" ++ " "%char :: str "30"; str "startFace" ++ " "%char :: str "7"].
Definition inlet : condition := {| c_type := str "patch"; c_nFaces := 30; c_startFace := 7 |}.
Definition patch_body : list ascii :=
  ((str "inlet" ++ List.concat (gaps nl) ++ []) ++ "{"%char :: List.concat (gaps nl) ++
   ((str "type" ++ List.concat (gaps "   ") ++ str "patch") ++ ";"%char :: List.concat (gaps nl) ++
    (str "inGroups" ++ List.concat (gaps " ") ++ str "1(x)") ++ ";"%char :: List.concat (gaps nl) ++
    (str "nFaces" ++ List.concat (gaps "  ") ++ str "30") ++ ";"%char :: List.concat (gaps nl) ++
    (str "startFace" ++ List.concat (gaps " ") ++ str "7") ++ ";"%char :: List.concat (gaps nl) ++ []) ++ ["}"%char])
  ++ List.concat (gaps nl) ++ [")"%char].
Definition boundary_text : list ascii :=
  head_text "polyBoundaryMesh" ++ List.concat after_head ++ str "1" ++ (List.concat (gaps nl) ++ []) ++ ("("%char :: str nl ++ patch_body) ++ str nl.

Lemma boundary_file : patch_file 1 [(str "inlet", inlet_lines)] boundary_text.
Proof.
  unfold boundary_text. eapply file_text.
  - apply head_ok; [exact I | reflexivity].
  - apply after_ok.
  - apply (numeral_ok INT64_MAX "1"); try reflexivity; discriminate.
  - apply gap_line.
  - exact gap_nondigit.
  - constructor; [discriminate | repeat constructor |]. unfold patch_body.
    eapply body_cons; [| apply gaps_ok; reflexivity | constructor | reflexivity | exact I].
    eapply patch_one.
    + apply spans_word; [reflexivity | apply gap_line].
    + reflexivity.
    + exists "i"%char. eexists. split; [reflexivity | split; [apply solidb_ok; reflexivity | discriminate]].
    + apply gaps_ok; reflexivity.
    + unfold inlet_lines. do 4 (apply entry_two; try reflexivity; try exact I; try discriminate). constructor.
Qed.

Lemma entry_plain : forall k v, word (str v) -> entry (str k) (str v) (str k ++ " "%char :: str v).
Proof. intros k v H. exists []. rewrite app_nil_r. auto. Qed.

Lemma inlet_described : describes inlet_lines inlet.
Proof.
  unfold describes. split; [eexists; split; [left; reflexivity | reflexivity]|].
  split; [eexists; split; [right; right; left; reflexivity | reflexivity]|].
  split; [eexists; split; [right; right; right; left; reflexivity | reflexivity]|].
  intros b Hb. destruct Hb as [<- | [<- | [<- | [<- | []]]]];
    (split; [|split]; intros K; try discriminate K).
  - apply entry_plain. split; [discriminate | repeat constructor].
  - exists (str "30"). split; [apply (numeral_ok INT64_MAX "30"); try reflexivity; discriminate|].
    apply entry_plain. split; [discriminate | repeat constructor].
  - exists (str "7"). split; [apply (numeral_ok INT64_MAX "7"); try reflexivity; discriminate|].
    apply entry_plain. split; [discriminate | repeat constructor].
Qed.
