(** C75: a run starts again from what was written, and a crash does not cost the
    restart before. *)
From Coq Require Import List ZArith Bool String Ascii Arith.
From Verif Require Import Base.Prelude Euler.RestartModel Euler.RestartSpec Euler.RestartProofs Euler.RestartDisk Euler.RestartOther Euler.RestartExample.
Import ListNotations.
Local Open Scope string_scope.

(** Once all ranks have written, in whatever order, the settings printed name
    the restart, and each rank gets its own field back from it. *)
Theorem C75_restored : forall A w base (us : list (field A)) d h,
  finished (printRestart w base us) h -> us <> [] ->
  complete (after d h) us /\
  recorded (after d h) = Some (restartName w base (List.length us)).
Proof. exact @restored. Qed.
Print Assumptions C75_restored.

Example C75_restored_case :
  finished (printRestart JSON "out_s_1" old2) (written JSON "out_s_1" old2) /\
  restartName JSON "out_s_1" 2 = "out_s_1_p2_restart.dir" /\
  partName "out_s_1_p2_restart.dir" 1 = "out_s_1_p2_restart.dir/0001.json" /\
  partName "a.dir" 123 = "a.dir/0123.json" /\
  restartName H5 "out_s_1" 2 = "out_s_1_p2.restart.dnds.h5".
Proof. split; [now apply written_finished|]. repeat split; reflexivity. Qed.

(** While a restart is written, and wherever that is broken off, every restart
    of another name reads as before. *)
Theorem C75_earlier : forall A w base (us : list (field A)) d h name n r,
  history (printRestart w base us) h ->
  name <> restartName w base (List.length us) ->
  readRestart (after d h) name n r = readRestart d name n r.
Proof. exact @earlier. Qed.
Print Assumptions C75_earlier.

Example C75_earlier_case :
  history (printRestart JSON "out_s_2" new2) (first "out_s_2") /\
  restartName JSON "out_s_1" 2 <> restartName JSON "out_s_2" 2.
Proof. split; [apply first_history|discriminate]. Qed.

(** Restarts of different moments, processor counts or formats have different
    names. *)
Theorem C75_names : forall w v out stamp m m' n n',
  restartName w (baseName out stamp m) n = restartName v (baseName out stamp m') n' ->
  w = v /\ m = m' /\ n = n'.
Proof. exact names_distinct. Qed.
Print Assumptions C75_names.

Example C75_names_case :
  baseName "out" "s" (Step 12) = "out_s_12" /\ baseName "out" "s" (Inner 1 2) = "out_s_1_2" /\
  baseName "out" "s" Cover = "out_s_C".
Proof. repeat split; reflexivity. Qed.

(** With HDF5 and a name not in use, a crash at any point leaves the settings
    naming a restart that is whole: the old one or the new one. *)
Theorem C75_crash_partial : forall A base (old us : list (field A)) d h,
  complete d old ->
  recorded d <> Some (restartName H5 base (List.length us)) ->
  history (printRestart H5 base us) h ->
  complete (after d h) old \/ complete (after d h) us.
Proof. exact @crash_h5. Qed.
Print Assumptions C75_crash_partial.

Example C75_crash_case :
  complete (run1 JSON) old2 /\ recorded (run1 JSON) = Some "out_s_1_p2_restart.dir".
Proof. exact (run1_complete JSON). Qed.

(** In either format, with a name not in use, the old restart stays whole and
    named until the settings with the new name are printed. *)
Theorem C75_before : forall A w base (old us : list (field A)) d h,
  complete d old ->
  recorded d <> Some (restartName w base (List.length us)) ->
  history (printRestart w base us) h ->
  complete (after d h) old \/
  recorded (after d h) = Some (restartName w base (List.length us)).
Proof. exact @before. Qed.
Print Assumptions C75_before.

Example C75_before_case :
  recorded (run1 JSON) <> Some (restartName JSON "out_s_2" 2) /\
  history (printRestart JSON "out_s_2" new2) [].
Proof.
  split; [discriminate|].
  exact (fun r => ex_intro _ (nth r (printRestart JSON "out_s_2" new2) []) eq_refl).
Qed.

(** With one file per rank the claim about crashes fails: rank 0 prints settings naming the new
    restart without waiting for the others. *)
Theorem C75_crash_refuted : exists (d : disk Z) old us base h,
  complete d old /\
  recorded d <> Some (restartName JSON base (List.length us)) /\
  history (printRestart JSON base us) h /\
  ~ complete (after d h) old /\ ~ complete (after d h) us.
Proof. exact crash_lost. Qed.
Print Assumptions C75_crash_refuted.

(** Waiting for the others before printing would mend this. *)
Theorem C75_waiting : forall A base (old us : list (field A)) d h,
  complete d old ->
  recorded d <> Some (restartName JSON base (List.length us)) ->
  history (printRestart JSON base us) h -> waiting (printRestart JSON base us) h ->
  complete (after d h) old \/ complete (after d h) us.
Proof. exact @crash_waiting. Qed.
Print Assumptions C75_waiting.

Example C75_waiting_case :
  waiting (printRestart JSON "out_s_2" new2) (written JSON "out_s_2" new2).
Proof. exact written_waiting. Qed.

(** In either format, a restart written over the last one under the same name
    leaves none if it is broken off. *)
Theorem C75_cover_refuted : forall w, exists (d : disk Z) old us base h,
  complete d old /\
  recorded d = Some (restartName w base (List.length us)) /\
  history (printRestart w base us) h /\
  ~ complete (after d h) old /\ ~ complete (after d h) us.
Proof. exact cover_lost. Qed.
Print Assumptions C75_cover_refuted.

(** And it can leave a mixture that is read without complaint: rank 0 gets its
    new field, rank 1 its old one. *)
Theorem C75_mixed_refuted : exists (d : disk Z) old us base h name,
  complete d old /\
  history (printRestart JSON base us) h /\
  recorded (after d h) = Some name /\
  readRestart (after d h) name 2 0
    = match nth_error us 0 with Some u => Ok u | None => Abort end /\
  readRestart (after d h) name 2 1
    = match nth_error old 1 with Some u => Ok u | None => Abort end /\
  nth_error us 0 <> nth_error old 0 /\ nth_error us 1 <> nth_error old 1.
Proof. exact mixture. Qed.
Print Assumptions C75_mixed_refuted.

(** A restart of another number of ranks is refused. *)
Theorem C75_count : forall A w base (us : list (field A)) d h n r,
  finished (printRestart w base us) h ->
  n <> List.length us -> (r < List.length us)%nat ->
  readRestart (after d h) (restartName w base (List.length us)) n r = Abort.
Proof. exact @count_refused. Qed.
Print Assumptions C75_count.

Example C75_count_case :
  readRestart (run1 H5) "out_s_1_p2.restart.dnds.h5" 3 0 = Abort /\
  readRestart (run1 H5) "out_s_1_p2.restart.dnds.h5" 2 0 = Ok (cells [[1; 2]; [3; 4]]%Z [[5; 6]]%Z).
Proof. split; reflexivity. Qed.

(** So is a file that holds the part of another rank, as after a renaming. *)
Theorem C75_misplaced : forall A (d : disk A) a n r k m f,
  files d (partName (a ++ ".dir") r) = Some (Part k m f) -> k <> r \/ m <> n ->
  readRestart d (a ++ ".dir") n r = Abort.
Proof. exact @misplaced. Qed.
Print Assumptions C75_misplaced.

Example C75_misplaced_case :
  let d := write (run1 JSON) "out_s_1_p2_restart.dir/0000.json" (Part 1 2 now1) in
  files d (partName "out_s_1_p2_restart.dir" 0) = Some (Part 1 2 now1) /\
  readRestart d "out_s_1_p2_restart.dir" 2 0 = Abort.
Proof. split; reflexivity. Qed.

(** So is a name that does not tell its format. *)
Theorem C75_format : forall A (d : disk A) name n r,
  (forall a, name <> a ++ ".dir") -> (forall a, name <> a ++ ".dnds.h5") ->
  readRestart d name n r = Abort.
Proof. exact @unnamed. Qed.
Print Assumptions C75_format.

Example C75_format_case :
  hasSuffix "a.dir" ".dir" = true /\ hasSuffix "a.dir/" ".dir" = false /\
  hasSuffix "h5" ".dnds.h5" = false.
Proof. repeat split; reflexivity. Qed.

(** From the restart of another solver, the listed components of every cell are
    taken and the others kept. *)
Theorem C75_other : forall A (d : disk A) name n r dims u b,
  readRestart d name n r = Ok b -> regular u -> regular b ->
  List.length (father b) = List.length (father u) ->
  List.length (son b) = List.length (son u) ->
  fits dims (Z.min (width u) (width b)) ->
  exists u', readOther d name n r dims u = Ok u' /\ stored dims u b u'.
Proof. exact @other_ok. Qed.
Print Assumptions C75_other.

Example C75_other_case :
  regular now1 /\
  readOther (run1 JSON) "out_s_1_p2_restart.dir" 2 1 [1]%Z now1 = Ok (cells [[0; 6]]%Z [[0; 4]]%Z).
Proof. split; [apply now1_regular|exact other_example]. Qed.

(** A restart of another mesh, or a component one of the fields does not have,
    is refused. *)
Theorem C75_other_refused : forall A (d : disk A) name n r dims u b,
  readRestart d name n r = Ok b ->
  List.length (father b) <> List.length (father u) \/
  List.length (son b) <> List.length (son u) \/
  (exists k, In k dims /\ (Z.min (width u) (width b) <= k)%Z) ->
  readOther d name n r dims u = Abort.
Proof. exact @other_refused. Qed.
Print Assumptions C75_other_refused.

Example C75_other_refused_case :
  readOther (run1 JSON) "out_s_1_p2_restart.dir" 2 1 [2]%Z now1 = Abort /\
  readOther (run1 JSON) "out_s_1_p2_restart.dir" 2 0 [1]%Z now1 = Abort.
Proof. split; reflexivity. Qed.

(** A negative component number is not refused; it is used as an index. *)
Theorem C75_negative_refuted : exists (d : disk Z) name n r u b,
  readRestart d name n r = Ok b /\ readOther d name n r [-1]%Z u = UB.
Proof. exact negative_used. Qed.
Print Assumptions C75_negative_refuted.
