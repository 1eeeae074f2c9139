(** Small cases of restart files. *)
From Coq Require Import List ZArith Lia Bool String Ascii Arith.
From Verif Require Import Base.Prelude Euler.RestartModel Euler.RestartSpec Euler.RestartProofs Euler.RestartDisk Euler.RestartOther.
Import ListNotations.
Local Open Scope string_scope.

Definition cells (l g : list (list Z)) : field Z := {| father := l; son := g; width := 2; ghost := [] |}.
Definition old2 : list (field Z) := [cells [[1; 2]; [3; 4]]%Z [[5; 6]]%Z; cells [[5; 6]]%Z [[3; 4]]%Z].
Definition new2 : list (field Z) := [cells [[7; 8]; [9; 10]]%Z [[11; 12]]%Z; cells [[11; 12]]%Z [[9; 10]]%Z].

Definition blank : disk Z := {| files := fun _ => None; recorded := None |}.

(** Rank 1 overtakes rank 0. *)
Definition written (w : format) (base : string) (us : list (field Z)) : list (nat * act Z) :=
  match printRestart w base us with
  | [[a; b; c]; [p; q]] => [(0, a); (1, p); (1, q); (0, b); (0, c)]%nat
  | [[a; b; c]] => [(0, a); (0, b); (0, c)]%nat
  | _ => []
  end.

Lemma written_finished w base us : List.length us = 2%nat ->
  finished (printRestart w base us) (written w base us).
Proof.
  intros L. destruct us as [|u [|v [|x us]]]; try discriminate.
  destruct w; intros [|[|r]]; try reflexivity; now destruct r.
Qed.

Definition run1 (w : format) : disk Z := after blank (written w "out_s_1" old2).

Lemma run1_complete w : complete (run1 w) old2 /\ recorded (run1 w) = Some (restartName w "out_s_1" 2).
Proof. apply (restored w "out_s_1" old2); [now apply written_finished|discriminate]. Qed.

(** Rank 0 is through, rank 1 has not begun. *)
Definition first (base : string) : list (nat * act Z) :=
  map (pair 0%nat) (nth 0 (printRestart JSON base new2) []).

Lemma first_history base : history (printRestart JSON base new2) (first base).
Proof.
  intros [|[|r]].
  - now exists [].
  - now exists (nth 1 (printRestart JSON base new2) []).
  - exists []. cbn. now destruct r.
Qed.

Lemma not_complete (d : disk Z) us name r u : recorded d = Some name ->
  nth_error us r = Some u -> readRestart d name (List.length us) r = Abort -> ~ complete d us.
Proof.
  intros R E B (x & R' & C). rewrite R in R'. injection R' as <-. rewrite (C r u E) in B. discriminate.
Qed.

Lemma crash_refuted :
  complete (run1 JSON) old2 /\
  recorded (run1 JSON) <> Some (restartName JSON "out_s_2" 2) /\
  history (printRestart JSON "out_s_2" new2) (first "out_s_2") /\
  ~ complete (after (run1 JSON) (first "out_s_2")) old2 /\
  ~ complete (after (run1 JSON) (first "out_s_2")) new2.
Proof.
  split; [apply run1_complete|]. split; [rewrite (proj2 (run1_complete JSON)); discriminate|].
  split; [apply first_history|]. split.
  - eapply (not_complete _ _ (restartName JSON "out_s_2" 2) 1); reflexivity.
  - eapply (not_complete _ _ (restartName JSON "out_s_2" 2) 1); reflexivity.
Qed.

(** Only the first act of rank 0 *)
Definition opened (w : format) : list (nat * act Z) :=
  map (pair 0%nat) (firstn 1 (nth 0 (printRestart w "out_s_1" new2) [])).

Lemma opened_history w : history (printRestart w "out_s_1" new2) (opened w).
Proof.
  intros r. destruct r as [|[|r]].
  - exists (skipn 1 (nth 0 (printRestart w "out_s_1" new2) [])). destruct w; reflexivity.
  - exists (nth 1 (printRestart w "out_s_1" new2) []). destruct w; reflexivity.
  - exists []. destruct w; cbn; now destruct r.
Qed.

Lemma cover_refuted w :
  complete (run1 w) old2 /\
  recorded (run1 w) = Some (restartName w "out_s_1" 2) /\
  history (printRestart w "out_s_1" new2) (opened w) /\
  ~ complete (after (run1 w) (opened w)) old2 /\ ~ complete (after (run1 w) (opened w)) new2.
Proof.
  split; [apply run1_complete|]. split; [apply run1_complete|]. split; [apply opened_history|].
  split; eapply (not_complete _ _ (restartName w "out_s_1" 2) 0); destruct w; reflexivity.
Qed.

Lemma mixed_refuted :
  complete (run1 JSON) old2 /\
  history (printRestart JSON "out_s_1" new2) (first "out_s_1") /\
  recorded (after (run1 JSON) (first "out_s_1")) = Some (restartName JSON "out_s_1" 2) /\
  readRestart (after (run1 JSON) (first "out_s_1")) (restartName JSON "out_s_1" 2) 2 0
    = match nth_error new2 0 with Some u => Ok u | None => Abort end /\
  readRestart (after (run1 JSON) (first "out_s_1")) (restartName JSON "out_s_1" 2) 2 1
    = match nth_error old2 1 with Some u => Ok u | None => Abort end /\
  nth_error new2 0 <> nth_error old2 0 /\ nth_error new2 1 <> nth_error old2 1.
Proof.
  split; [apply run1_complete|]. split; [apply first_history|].
  do 3 (split; [reflexivity|]). split; discriminate.
Qed.

Definition now1 : field Z := cells [[0; 20]]%Z [[0; 30]]%Z.

Lemma now1_regular : regular now1 /\ regular (cells [[5; 6]]%Z [[3; 4]]%Z).
Proof. split; intros row [<-|[<-|[]]]; reflexivity. Qed.

Lemma other_example :
  readOther (run1 JSON) (restartName JSON "out_s_1" 2) 2 1 [1]%Z now1
    = Ok (cells [[0; 6]]%Z [[0; 4]]%Z).
Proof. reflexivity. Qed.

Lemma negative_refuted :
  readRestart (run1 JSON) (restartName JSON "out_s_1" 2) 2 1 = Ok (cells [[5; 6]]%Z [[3; 4]]%Z) /\
  readOther (run1 JSON) (restartName JSON "out_s_1" 2) 2 1 [-1]%Z now1 = UB.
Proof. split; reflexivity. Qed.

Lemma crash_lost : exists (d : disk Z) old us base h,
  complete d old /\
  recorded d <> Some (restartName JSON base (List.length us)) /\
  history (printRestart JSON base us) h /\
  ~ complete (after d h) old /\ ~ complete (after d h) us.
Proof. exists (run1 JSON), old2, new2, "out_s_2", (first "out_s_2"). exact crash_refuted. Qed.

Lemma cover_lost : forall w, exists (d : disk Z) old us base h,
  complete d old /\
  recorded d = Some (restartName w base (List.length us)) /\
  history (printRestart w base us) h /\
  ~ complete (after d h) old /\ ~ complete (after d h) us.
Proof. intros w. exists (run1 w), old2, new2, "out_s_1", (opened w). exact (cover_refuted w). Qed.

Lemma mixture : exists (d : disk Z) old us base h name,
  complete d old /\
  history (printRestart JSON base us) h /\
  recorded (after d h) = Some name /\
  readRestart (after d h) name 2 0
    = match nth_error us 0 with Some u => Ok u | None => Abort end /\
  readRestart (after d h) name 2 1
    = match nth_error old 1 with Some u => Ok u | None => Abort end /\
  nth_error us 0 <> nth_error old 0 /\ nth_error us 1 <> nth_error old 1.
Proof. exists (run1 JSON), old2, new2, "out_s_1", (first "out_s_1"), (restartName JSON "out_s_1" 2). exact mixed_refuted. Qed.

Lemma negative_used : exists (d : disk Z) name n r u b,
  readRestart d name n r = Ok b /\ readOther d name n r [-1]%Z u = UB.
Proof. exists (run1 JSON), (restartName JSON "out_s_1" 2), 2%nat, 1%nat, now1, (cells [[5; 6]]%Z [[3; 4]]%Z). exact negative_refuted. Qed.

Lemma written_waiting : waiting (printRestart JSON "out_s_2" new2) (written JSON "out_s_2" new2).
Proof.
  intros h1 q x h2 E.
  destruct h1 as [|e1 [|e2 [|e3 [|e4 [|e5 l]]]]]; cbn in E; try discriminate E.
  - injection E as <- <- <- <- _ _ _. intros [|[|r]] a I N; cbn in I.
    + destruct I as [<-|[<-|[<-|[]]]]; [now left|do 3 right; now left|now destruct (N _ eq_refl)].
    + destruct I as [<-|[<-|[]]]; [right; now left|do 2 right; now left].
    + now destruct r.
  - exfalso. injection E. intros K. intros. now destruct l.
Qed.
