(** Cases for the theorems about the settings, and claims that fail. *)

From Coq Require Import List ZArith Bool String Ascii Lia.
From Verif Require Import Base.Prelude Euler.ConfigModel Euler.ConfigSpec Euler.ConfigProofs.
Import ListNotations.
Local Open Scope string_scope.

Definition needed : list (string * list string) :=
  [("timeMarchControl", ["nTimeStep"; "dtImplicit"]); ("eulerSettings", []); ("vfvSettings", []); ("bcSettings", [])].

Definition usual : json := Obj
  [("timeMarchControl", Obj [("nTimeStep", Atom "1000"); ("dtImplicit", Atom "1e100")]);
   ("eulerSettings", Obj [("CFL", Atom "0.5")]); ("vfvSettings", Obj []);
   ("bcSettings", Arr [Atom "wall"; Atom "far"])].

Definition mine : json := Obj
  [("timeMarchControl", Obj [("dtImplicit", Atom "1e-3")]); ("bcSettings", Arr [Atom "slip"])].

Definition asked : list (list string * json) := [(["timeMarchControl"; "nTimeStep"], Atom "7"); (["bcSettings"; "0"], Atom "open")].

Lemma mine_wf : wf mine.
Proof.
  constructor.
  - repeat constructor; cbn; intuition discriminate.
  - intros k v [E|[E|[]]]; injection E as <- <-.
    + constructor; [repeat constructor; cbn; tauto|]. intros k v [E|[]]. injection E as <- <-. constructor.
    + constructor.
Qed.

Lemma usual_ready : ready needed usual.
Proof.
  split; [reflexivity|]. split; [|split; [|split]]; [| eexists; split; reflexivity ..].
  intros s fs [E|[E|[E|[E|[]]]]]; injection E as <- <-; (eexists; split; [reflexivity|]; split; [try reflexivity; congruence|]).
  - intros f [<-|[<-|[]]]; eexists; reflexivity.
  - intros f [].
  - intros f [].
  - intros f [].
Qed.

Lemma mine_gentle : gentle needed mine.
Proof.
  split; [reflexivity|]. split; [|split].
  - intros s y _ N [E|[E|[]]]; injection E as <- <-; [now eexists | now elim N].
  - intros y [E|[E|[]]]; [discriminate | injection E as <-; reflexivity].
  - intros s fs f _ _ R. inversion R as [l k p I | l k u p I R']; subst.
    + destruct I as [E|[E|[]]]; discriminate.
    + destruct I as [E|[E|[]]]; injection E as <- <-; inversion R' as [l k p J | l k u' p J R'']; subst.
      * destruct J as [E|[]]; discriminate.
      * inversion R''.
Qed.

Lemma asked_apart : ForallOrdPairs (fun a b => apart (fst a) (fst b)) asked.
Proof.
  constructor; [|constructor; [constructor | constructor]].
  constructor; [|constructor]. split; intros r E; discriminate.
Qed.

Lemma asked_there : forall o, In o asked -> (2 <= List.length (fst o))%nat /\ exists y, at_path (merge mine usual) (fst o) = Some y.
Proof. intros o [<-|[<-|[]]]; (split; [cbn; lia|]); eexists; reflexivity. Qed.

Lemma asked_result : configure needed usual (Some mine) ["/timeMarchControl/nTimeStep"; "/bcSettings/0"] [Some (Atom "7"); Some (Atom "open")]
  = Ok (Obj [("timeMarchControl", Obj [("nTimeStep", Atom "7"); ("dtImplicit", Atom "1e-3")]);
             ("eulerSettings", Obj [("CFL", Atom "0.5")]); ("vfvSettings", Obj []); ("bcSettings", Arr [Atom "open"])]).
Proof. reflexivity. Qed.

(** Overwriting a setting that does not exist is refused. *)
Definition refuses_unknown : Prop := forall req d u k v ts j, ready req d ->
  pointer k = Ok ts -> at_path d ts = None -> wf u -> silent u ts -> configure req d (Some u) [k] [Some v] <> Ok j.

Lemma refuses_unknown_not : ~ refuses_unknown.
Proof.
  intros H.
  assert (S : silent mine ["timeMarchControl"; "nTimeStepp"]).
  { apply (silent_in _ _ (Obj [("dtImplicit", Atom "1e-3")])); [now left|]. apply silent_here. cbn. intuition discriminate. }
  refine (H needed usual mine "/timeMarchControl/nTimeStepp" (Atom "7") ["timeMarchControl"; "nTimeStepp"] _ usual_ready eq_refl eq_refl mine_wf S _).
  reflexivity.
Qed.

(** Overwriting makes nothing new at other paths. *)
Definition nothing_else : Prop := forall req d p v j q x, ready req d ->
  configure req d None [spell p] [Some v] = Ok j -> apart p q -> at_path j q = Some x -> at_path d q = Some x.

Lemma nothing_else_not : ~ nothing_else.
Proof.
  intros H.
  specialize (H needed usual ["bcSettings"; "3"] (Atom "slip") _ ["bcSettings"; "2"] Null usual_ready eq_refl).
  assert (A : apart ["bcSettings"; "3"] ["bcSettings"; "2"]) by (split; intros r E; discriminate).
  specialize (H A eq_refl). discriminate.
Qed.

(** What the file of the user does not mention keeps its default, also in lists. *)
Definition keeps_lists : Prop := forall req d u p v j, ready req d -> wf u -> at_path d p = Some v -> at_path u p = None ->
  ~ removes u p -> configure req d (Some u) [] [] = Ok j -> at_path j p = Some v.

Lemma keeps_lists_not : ~ keeps_lists.
Proof.
  intros H. specialize (H needed usual mine ["bcSettings"; "1"] (Atom "far") (merge mine usual) usual_ready mine_wf eq_refl eq_refl).
  assert (R : ~ removes mine ["bcSettings"; "1"]).
  { intros R. inversion R as [l k p I | l k u p I R']; subst.
    - destruct I as [E|[E|[]]]; discriminate.
    - destruct I as [E|[E|[]]]; [discriminate|]. injection E as <-. inversion R'. }
  specialize (H R eq_refl). discriminate.
Qed.

Definition spoiling : json := Obj [("timeMarchControl", Obj [("nTimeStep", Null)])].

Lemma spoiling_wf : wf spoiling.
Proof.
  constructor; [repeat constructor; cbn; tauto|]. intros k v [E|[]]. injection E as <- <-.
  constructor; [repeat constructor; cbn; tauto|]. intros k v [E|[]]. injection E as <- <-. constructor.
Qed.

Lemma spoiling_removes : removes spoiling ["timeMarchControl"; "nTimeStep"].
Proof. apply (removes_in _ _ (Obj [("nTimeStep", Null)])); [now left|]. apply removes_here. now left. Qed.

Lemma mine_gives : gives mine ["timeMarchControl"; "dtImplicit"] (Atom "1e-3").
Proof.
  apply (gives_in _ _ (Obj [("dtImplicit", Atom "1e-3")])); [now left|].
  apply (gives_in _ _ (Atom "1e-3")); [now left|]. now apply gives_here.
Qed.

Lemma mine_silent : silent mine ["eulerSettings"; "CFL"] /\ plainly usual ["eulerSettings"; "CFL"].
Proof.
  split; [apply silent_here; cbn; intuition discriminate|]. apply plainly_cons; [reflexivity|].
  apply plainly_cons; [reflexivity | apply plainly_nil].
Qed.
