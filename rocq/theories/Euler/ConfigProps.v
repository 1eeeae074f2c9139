(** C74: the settings in effect are the defaults, changed by the file of the
    user, changed by the command line. *)

From Coq Require Import List ZArith Bool String Ascii.
From Verif Require Import Base.Prelude Euler.ConfigModel Euler.ConfigSpec Euler.ConfigProofs Euler.ConfigBack Euler.ConfigExample.
Import ListNotations.
Local Open Scope string_scope.

(** The command line wins, and of it what comes later. *)
Theorem C74_overwrite : forall req d u a p v b j,
  configure req d u (spelled (app a ((p, v) :: b))) (given (app a ((p, v) :: b))) = Ok j ->
  ~ In "-" p -> (forall o, In o b -> apart (fst o) p) -> at_path j p = Some v.
Proof. exact effect_overwrite. Qed.
Print Assumptions C74_overwrite.

Example C74_overwrite_case :
  configure needed usual (Some mine) ["/timeMarchControl/nTimeStep"; "/bcSettings/0"] [Some (Atom "7"); Some (Atom "open")]
  = Ok (Obj [("timeMarchControl", Obj [("nTimeStep", Atom "7"); ("dtImplicit", Atom "1e-3")]);
             ("eulerSettings", Obj [("CFL", Atom "0.5")]); ("vfvSettings", Obj []); ("bcSettings", Arr [Atom "open"])]).
Proof. exact asked_result. Qed.

(** What the file of the user gives is in effect unless overwritten. *)
Theorem C74_user : forall req d u os p v j, wf u -> gives u p v ->
  configure req d (Some u) (spelled os) (given os) = Ok j -> (forall o, In o os -> apart (fst o) p) ->
  at_path j p = Some v.
Proof. exact effect_user. Qed.
Print Assumptions C74_user.

Example C74_user_case : wf mine /\ gives mine ["timeMarchControl"; "dtImplicit"] (Atom "1e-3").
Proof. split; [exact mine_wf | exact mine_gives]. Qed.

(** What neither mentions has its default. *)
Theorem C74_default : forall req d u os p v j, wf u -> silent u p -> plainly d p -> at_path d p = Some v ->
  configure req d (Some u) (spelled os) (given os) = Ok j -> (forall o, In o os -> apart (fst o) p) ->
  at_path j p = Some v.
Proof. exact effect_default. Qed.
Print Assumptions C74_default.

Example C74_default_case : silent mine ["eulerSettings"; "CFL"] /\ plainly usual ["eulerSettings"; "CFL"].
Proof. exact mine_silent. Qed.

(** The same without a file of the user. *)
Theorem C74_alone : forall req d os p v j, at_path d p = Some v ->
  configure req d None (spelled os) (given os) = Ok j -> (forall o, In o os -> apart (fst o) p) ->
  at_path j p = Some v.
Proof. exact effect_none. Qed.
Print Assumptions C74_alone.

Example C74_alone_case : configure needed usual None [] [] = Ok usual.
Proof. reflexivity. Qed.

(** A run that starts has all its settings. *)
Theorem C74_complete : forall req d u ks vs j, configure req d u ks vs = Ok j -> complete req j.
Proof. exact complete_ok. Qed.
Print Assumptions C74_complete.

Example C74_complete_case : configure needed usual (Some mine) [] [] = Ok (merge mine usual).
Proof. reflexivity. Qed.

(** A file that removes a setting stops the run. *)
Theorem C74_removed : forall req d u s fs f, wf u -> removes u [s; f] -> In (s, fs) req -> In f fs ->
  forall j, configure req d (Some u) [] [] <> Ok j.
Proof. exact effect_removed. Qed.
Print Assumptions C74_removed.

Example C74_removed_case : wf spoiling /\ removes spoiling ["timeMarchControl"; "nTimeStep"].
Proof. split; [exact spoiling_wf | exact spoiling_removes]. Qed.

(** A file that changes settings, with overwritings of different existing
    settings, is accepted. *)
Theorem C74_accepts : forall req d u os, wf u -> ready req d -> gentle req u ->
  ForallOrdPairs (fun a b => apart (fst a) (fst b)) os ->
  (forall o, In o os -> (2 <= List.length (fst o))%nat /\ exists y, at_path (merge u d) (fst o) = Some y) ->
  exists j, configure req d (Some u) (spelled os) (given os) = Ok j.
Proof. exact (fun req d u os W R G => accepts req d (Some u) os (gentle_ready req d u W R G)). Qed.
Print Assumptions C74_accepts.

Example C74_accepts_case : wf mine /\ ready needed usual /\ gentle needed mine
  /\ ForallOrdPairs (fun a b => apart (fst a) (fst b)) asked
  /\ (forall o, In o asked -> (2 <= List.length (fst o))%nat /\ exists y, at_path (merge mine usual) (fst o) = Some y).
Proof.
  split; [exact mine_wf | split; [exact usual_ready | split; [exact mine_gentle | split; [exact asked_apart | exact asked_there]]]].
Qed.

(** A key on the command line means the path it spells. *)
Theorem C74_pointer : forall p, pointer (spell p) = Ok p.
Proof. exact pointer_spell. Qed.
Print Assumptions C74_pointer.

Example C74_pointer_case : spell ["a/b"; "~c"; "0"] = "/a~1b/~0c/0".
Proof. reflexivity. Qed.

(** A command line that is accepted is one of paths, spelt that way, each with
    a value. *)
Theorem C74_spelled : forall req d u keys values j,
  configure req d u keys values = Ok j -> exists os, keys = spelled os /\ values = given os.
Proof. exact configure_back. Qed.
Print Assumptions C74_spelled.

Example C74_spelled_case : pointer "a" = Abort /\ pointer "/a~" = Abort /\ pointer "/a~2" = Abort
  /\ pointer "/" = Ok [""] /\ exists j, configure [] usual None ["/bcSettings/0"] [Some Null] = Ok j.
Proof. repeat (split; [reflexivity|]). eexists. reflexivity. Qed.

(** A misspelt key is accepted and changes no setting. *)
Theorem C74_unknown_refuted : ~ refuses_unknown.
Proof. exact refuses_unknown_not. Qed.
Print Assumptions C74_unknown_refuted.

(** Overwriting past the end of a list makes empty entries. *)
Theorem C74_gap_refuted : ~ nothing_else.
Proof. exact nothing_else_not. Qed.
Print Assumptions C74_gap_refuted.

(** A list in the file of the user drops the rest of the list of the defaults. *)
Theorem C74_list_refuted : ~ keeps_lists.
Proof. exact keeps_lists_not. Qed.
Print Assumptions C74_list_refuted.
