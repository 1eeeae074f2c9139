(** Cases for the theorems about the logs, and runs whose log misleads. *)

From Coq Require Import List ZArith Bool String Ascii Lia.
From Verif Require Import Base.Prelude Euler.LogModel Euler.LogSpec Euler.LogText.
Import ListNotations.
Local Open Scope Z_scope.
Local Open Scope string_scope.

(** Whole numbers and one that is no number. *)
Definition whole : floats := {|
  num := option Z; zero := Some 0; unset := None;
  show := fun _ d => match d with Some z => "~" ++ decimal z | None => "nan" end;
  over := fun a b => match a, b with Some x, Some y => if Z.eqb y 0 then None else Some (x / y)%Z | _, _ => None end |}.

Lemma whole_legible : legible whole.
Proof.
  intros p [z|]; cbn [show whole].
  - cbn [append plain]. repeat split; [discriminate | discriminate | apply clean_plain, clean_decimal].
  - cbn. repeat split; discriminate.
Qed.

(** All integers are [k], all other numbers [Some k]. *)
Definition at_ (k : Z) : moment whole := {|
  scalar := fun t => if (t =? "step") || (t =? "iter") || (t =? "iterAll") then AInt k else @ANum whole (Some k);
  resid := [Some (k * 10); Some (k * 10 + 1)]; wall := [Some (k * 20); Some (k * 20 + 1)] |}.

Definition asked : list string := ["step"; "iterAll"; "iter"; "res"; "CL"; "mood"].

Definition story : list (event whole) := [Inner (at_ 1); Inner (at_ 2); Step (at_ 3)].

Lemma at_proper : forall k, k <> int64_min -> proper whole 2 (Inner (at_ k)) /\ proper whole 2 (Step (at_ k)).
Proof.
  intros k N. split; (split; [reflexivity|]; split; [reflexivity|]; intros t _; cbn [moment_of scalar at_];
    destruct ((t =? "step") || (t =? "iter") || (t =? "iterAll")); [intros E; injection E; exact N | discriminate]).
Qed.

Lemma story_proper : Forall (proper whole 2) story.
Proof. repeat (constructor; [apply at_proper; discriminate|]). constructor. Qed.

Lemma asked_plain : Forall plain asked.
Proof. repeat (constructor; [cbn; repeat split; discriminate|]). constructor. Qed.

Lemma story_log : exists s, run whole 2 10 asked story = Ok s /\ rows s = Some
  [["step"; "iterAll"; "iter"; "res0"; "res1"; "CL"; "mood"];
   ["1"; "1"; "1"; "~10"; "~11"; "~1"; "~0"];
   ["2"; "2"; "2"; "~20"; "~21"; "~2"; "~0"];
   ["3"; "2"; "-1"; "~30"; "~31"; "~3"; "~0"]].
Proof. eexists. split; reflexivity. Qed.

(** The count of iterations in the line of a time step. *)
Definition counts : Prop := forall F n p ts es s cols rs i j q r,
  legible F -> Forall plain ts -> Forall (proper F n) es ->
  run F n p ts es = Ok s -> rows s = Some (cols :: rs) ->
  nth_error es i = Some (Step q) -> nth_error rs i = Some r -> nth_error cols j = Some "iterAll" ->
  nth_error r j = Some (written F p (scalar F q "iterAll")).

Lemma counts_not : ~ counts.
Proof.
  intros H. destruct story_log as (s & E & R).
  specialize (H whole 2%nat 10 asked story s _ _ 2%nat 1%nat (at_ 3) _ whole_legible asked_plain story_proper E R eq_refl eq_refl eq_refl).
  discriminate.
Qed.

(** As many fields in each row as there are titles, whatever the titles. *)
Definition aligned : Prop := forall F n p ts es s cols rs r,
  legible F -> columns n ts <> [] -> Forall (proper F n) es ->
  run F n p ts es = Ok s -> rows s = Some (cols :: rs) -> In r rs -> List.length r = List.length cols.

Lemma aligned_not : ~ aligned.
Proof.
  intros H.
  assert (E : exists s, run whole 2 10 ["CL,CD"] story = Ok s /\ rows s = Some [["CL"; "CD"]; ["~0"]; ["~0"]; ["~0"]])
    by (eexists; split; reflexivity).
  destruct E as (s & E & R).
  specialize (H whole 2%nat 10 ["CL,CD"] story s _ _ ["~0"] whole_legible ltac:(discriminate) story_proper E R (or_introl eq_refl)).
  discriminate.
Qed.

(** Every 64-bit integer is written in its digits. *)
Definition integers : Prop := forall F p z k m, legible F -> int64_min <= z <= int64_max ->
  print F p (get F (fill F m k (AInt z)) k) = decimal z.

Lemma integers_not : ~ integers.
Proof.
  intros H. specialize (H whole 10 int64_min "step" [] whole_legible).
  assert (L : int64_min <= int64_min <= int64_max) by (unfold int64_min, int64_max; lia).
  specialize (H L). discriminate.
Qed.

(** Two boundaries, the second with its two last numbers to be divided. *)
Definition bounds (k : Z) : list (integral whole) :=
  [Build_integral whole 21 1 [Some k] (Some 1);
   Build_integral whole 22 2 [Some k; Some (8 * k); Some (4 * k)] (Some 4)].

Definition measured : list (Z * Z * Z * list (integral whole)) := [(1, 1, 1, bounds 3); (1, -1, -1, bounds 5)].

Definition sizes (k : Z) : nat := if (k =? 21)%Z then 1 else 3.

Lemma bounds_sized : forall k, Forall (sized whole 1 sizes) (bounds k).
Proof.
  intros k. constructor; [split; [reflexivity | discriminate]|].
  constructor; [split; [reflexivity | intros _; cbn; lia] | constructor].
Qed.

Lemma measured_sized : Forall (fun c => Forall (sized whole 1 sizes) (snd c)) measured.
Proof. constructor; [apply bounds_sized|]. constructor; [apply bounds_sized | constructor]. Qed.
