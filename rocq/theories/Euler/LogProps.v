(** C73: the logs of a run can be read back as tables of what the solver knew. *)

From Coq Require Import List ZArith Bool String Ascii.
From Verif Require Import Base.Prelude Euler.LogModel Euler.LogSpec Euler.LogProofs Euler.LogBound Euler.LogExample.
Import ListNotations.
Local Open Scope Z_scope.
Local Open Scope string_scope.

(** The convergence log is a table: a row of titles, then a row for each line
    the solver wrote, and under each title the number the title is about. *)
Theorem C73_log : forall F n p ts es,
  legible F -> Forall plain ts -> columns n ts <> [] -> es <> [] -> Forall (proper F n) es ->
  exists s rs, run F n p ts es = Ok s /\ rows s = Some (columns n ts :: rs) /\ rows_of F p (columns n ts) es rs.
Proof. exact log_ok. Qed.
Print Assumptions C73_log.

Example C73_log_case : legible whole /\ Forall plain asked /\ Forall (proper whole 2) story
  /\ exists s, run whole 2 10 asked story = Ok s /\ rows s = Some
  [["step"; "iterAll"; "iter"; "res0"; "res1"; "CL"; "mood"];
   ["1"; "1"; "1"; "~10"; "~11"; "~1"; "~0"];
   ["2"; "2"; "2"; "~20"; "~21"; "~2"; "~0"];
   ["3"; "2"; "-1"; "~30"; "~31"; "~3"; "~0"]].
Proof. split; [exact whole_legible | split; [exact asked_plain | split; [exact story_proper | exact story_log]]]. Qed.

(** A title is about one number in each line, so the table is determined. *)
Theorem C73_unique : forall F n past e t, proper F n e -> Forall (proper F n) past ->
  (exists a, about F past e t a) /\ forall a b, about F past e t a -> about F past e t b -> a = b.
Proof. exact (fun F n past e t P A => conj (about_exists F past e t) (fun a b => about_unique F n past e t a b P A)). Qed.
Print Assumptions C73_unique.

Example C73_unique_case : about whole story (Step (at_ 3)) "iter" (AInt (-1))
  /\ about whole [] (Inner (at_ 3)) "iter" (AInt 3) /\ about whole [] (Inner (at_ 3)) "res1" (@ANum whole (Some 31)).
Proof.
  split; [|split].
  - apply about_none. auto.
  - apply (about_inner whole [] (at_ 3) "iter"). cbn. tauto.
  - apply about_component. exists 1%nat. left. auto.
Qed.

(** Each boundary has a table of its integrals, with a row for each line. *)
Theorem C73_integrals : forall F n size cs,
  legible F -> Forall (fun c => Forall (sized F n size) (snd c)) cs ->
  exists fs, foldM (bndLines F n) [] cs = Ok fs /\ forall k,
    match calls_of F k cs with
    | [] => file fs k = None
    | _ => exists s h rs, file fs k = Some s /\ rows s = Some (h :: rs)
        /\ map trim h = "step" :: "stage" :: "iter" :: map (fun i => "F" ++ decimal (Z.of_nat i)) (seq 0 (size k))
        /\ Forall2 (integral_row F n) (calls_of F k cs) rs
    end.
Proof. exact integrals_ok. Qed.
Print Assumptions C73_integrals.

Example C73_integrals_case : legible whole /\ Forall (fun c => Forall (sized whole 1 sizes) (snd c)) measured
  /\ List.length (calls_of whole 22 measured) = 2%nat.
Proof. split; [exact whole_legible | split; [exact measured_sized | reflexivity]]. Qed.

(** The line of a time step need not show how many iterations were done. *)
Theorem C73_count_refuted : ~ counts.
Proof. exact counts_not. Qed.
Print Assumptions C73_count_refuted.

(** A comma in a title shifts the columns. *)
Theorem C73_title_refuted : ~ aligned.
Proof. exact aligned_not. Qed.
Print Assumptions C73_title_refuted.

(** The smallest integer is not written as an integer. *)
Theorem C73_integer_refuted : ~ integers.
Proof. exact integers_not. Qed.
Print Assumptions C73_integer_refuted.
