(** Texts the reader misreads. *)

From Coq Require Import List ZArith Bool Ascii String Lia.
From Verif Require Import Geom.FoamTextModel Geom.FoamTextSpec Geom.FoamTextProofs Geom.FoamTextExample.
Import ListNotations.
Local Open Scope Z_scope.

(** A C comment: its end mark stands nowhere inside. *)
Definition c_comment (body : list ascii) : Prop :=
  forall p q, body ++ str "*/" = p ++ "*"%char :: "/"%char :: q -> q = [].

Lemma two_stars : c_comment (str " a *")
  /\ ReadLabels (str "FoamFile{}1(5)") = Got [5]
  /\ ReadLabels ((str "/*" ++ str " a *" ++ str "*/") ++ str "FoamFile{}1(5)") = Stop.
Proof.
  split; [|split].
  - intros p q H. cbn in H. do 5 (destruct p as [|x p]; cbn [app] in H; [discriminate H || (injection H; congruence) | injection H as <- H]).
    destruct p; [discriminate H|]. injection H as <- H. destruct p; discriminate H.
  - reflexivity.
  - reflexivity.
Qed.

Lemma slash_first : c_comment (str "/ {")
  /\ ReadLabels ((str "/*" ++ str "/ {" ++ str "*/") ++ str "FoamFile{}1(5)") = Stop.
Proof.
  split.
  - intros p q H. cbn in H. do 3 (destruct p as [|x p]; cbn [app] in H; [discriminate H | injection H as <- H]).
    destruct p; [injection H as H; congruence|]. injection H as <- H. destruct p; [discriminate H|]. injection H as <- H. destruct p; discriminate H.
  - reflexivity.
Qed.

Definition with_list (t : string) : list ascii := head_text "labelList" ++ List.concat after_head ++ str t.

Lemma empty_list : ReadLabels (with_list "0()") = Got [] /\ ReadLabels (with_list "0( )") = Stop.
Proof. split; reflexivity. Qed.

Lemma comment_first : ReadLabels (with_list "2(7 /*a*/ 8)") = Got [7; 8] /\ ReadLabels (with_list "2(/*a*/ 7 8)") = Undef.
Proof. split; reflexivity. Qed.

Lemma cut : exists k, label_file 3 [10; 20; 30] (labels_text "3")
  /\ ReadLabels (firstn k (labels_text "3")) = Got [10; 20; 3].
Proof.
  exists (List.length (labels_text "3") - 4)%nat. split; [apply (labels_file "3"); try reflexivity; discriminate | reflexivity].
Qed.

Lemma fewer : forall n l text, label_file n l text -> Z.of_nat (List.length l) < n ->
  ReadLabels text = Got (l ++ repeat 0 (Z.to_nat n - List.length l)).
Proof. intros n l text H Hl. rewrite (read_labels n l text H) by lia. reflexivity. Qed.

Lemma face_sizes : ReadFaces (faces_text "4") = Got [[0; 1; 2]; [3; 4; 5; 6]].
Proof.
  rewrite (read_faces 2 [[0; 1; 2]; [3; 4; 5; 6]]); [reflexivity | apply (faces_file "4"); try reflexivity; discriminate | cbn; lia].
Qed.

(** A coordinate that is no number: the reader never leaves the loop. *)
Lemma stuck_items : forall fuel acc l, items fuel (coordinate Z 0 readIndex) acc {| rest := l; eof := false; fail := true |} = Spin.
Proof. induction fuel as [|fuel IH]; intros acc l; [reflexivity|]. cbn. apply IH. Qed.

Lemma stuck : forall fuel, items fuel (coordinate Z 0 readIndex) [] (open (str "x 1 2)")) = Spin.
Proof. intros [|fuel]; [reflexivity|]. cbn. apply stuck_items. Qed.

Lemma count_refuted :
  (forall n l text, label_file n l text -> Z.of_nat (List.length l) < n ->
     ReadLabels text = Got (l ++ repeat 0 (Z.to_nat n - List.length l)))
  /\ label_file 4 [10; 20; 30] (labels_text "4").
Proof. split; [exact fewer | apply (labels_file "4"); try reflexivity; discriminate]. Qed.

Lemma comment_refuted :
  ReadLabels (str "FoamFile{}1(5)") = Got [5]
  /\ (exists body, c_comment body /\ body = str " a *"
      /\ ReadLabels ((str "/*" ++ body ++ str "*/") ++ str "FoamFile{}1(5)") = Stop)
  /\ (exists body, c_comment body /\ body = str "/ {"
      /\ ReadLabels ((str "/*" ++ body ++ str "*/") ++ str "FoamFile{}1(5)") = Stop).
Proof.
  destruct two_stars as (A & B & C), slash_first as (D & F). split; [exact B|]. split.
  - exists (str " a *"). repeat split; assumption.
  - exists (str "/ {"). repeat split; assumption.
Qed.
