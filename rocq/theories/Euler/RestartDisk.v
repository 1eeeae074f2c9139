(** The disk after a history of acts. *)
From Coq Require Import List ZArith Lia Bool String Ascii Arith.
From Verif Require Import Base.Prelude Base.PreludeFacts Euler.RestartModel Euler.RestartSpec Euler.RestartProofs.
Import ListNotations.
Local Open Scope string_scope.

Section Disk.
Context {A : Type}.
Implicit Types (d : disk A) (h : list (nat * act A)) (us : list (field A)).

Definition on (x : string) (o : option (file A)) (a : act A) : option (file A) :=
  match a with
  | Open y => if x =? y then Some Empty else o
  | Close y c => if x =? y then Some c else o
  | Record_ _ => o
  end.

Definition named (o : option string) (a : act A) : option string :=
  match a with Record_ x => Some x | _ => o end.

Lemma files_after x : forall h d,
  files (after d h) x = fold_left (on x) (map snd h) (files d x).
Proof.
  induction h as [|[r a] h IH]; intros d; [easy|]. cbn. unfold after in IH. rewrite IH.
  f_equal. destruct a; cbn; easy.
Qed.

Lemma recorded_after : forall h d,
  recorded (after d h) = fold_left named (map snd h) (recorded d).
Proof.
  induction h as [|[r a] h IH]; intros d; [easy|]. cbn. unfold after in IH. rewrite IH.
  f_equal. destruct a; cbn; easy.
Qed.

(** Only the acts of the one process that matters *)
Lemma fold_mine {S} (f : S -> act A -> S) (r : nat) : forall h s,
  (forall q a t, In (q, a) h -> q <> r -> f t a = t) ->
  fold_left f (map snd h) s = fold_left f (mine r h) s.
Proof.
  induction h as [|[q a] h IH]; intros s H; [easy|]. unfold mine. cbn.
  destruct (Nat.eqb_spec q r) as [->|N]; cbn.
  - apply IH. intros. eapply H; [right|]; eassumption.
  - rewrite (H q a s (or_introl eq_refl) N). apply IH.
    intros. eapply H; [right|]; eassumption.
Qed.

Lemma fold_none {S} (f : S -> act A -> S) : forall l s,
  (forall a t, In a l -> f t a = t) -> fold_left f l s = s.
Proof.
  induction l as [|a l IH]; intros s H; [easy|]. cbn. rewrite H by now left.
  apply IH. intros. apply H. now right.
Qed.

Lemma mine_in r a : forall h, In (r, a) h -> In a (mine r h).
Proof.
  intros h H. unfold mine. apply (in_map snd (filter _ h) (r, a)), filter_In.
  split; [easy|]. apply Nat.eqb_refl.
Qed.

Lemma history_in progs h r a : history progs h -> In (r, a) h -> In a (nth r progs []).
Proof.
  intros H I. destruct (H r) as [rest E]. rewrite E. apply in_or_app. left. now apply mine_in.
Qed.

Lemma finished_history (progs : list (list (act A))) h : finished progs h -> history progs h.
Proof. intros F r. exists []. rewrite app_nil_r. apply F. Qed.

(** ** The programs *)

Lemma combine_nth (us : list (field A)) : forall k r u,
  nth_error us r = Some u -> nth_error (combine (seq k (List.length us)) us) r = Some ((k + r)%nat, u).
Proof.
  induction us as [|v us IH]; intros k r u E; [now destruct r|].
  destruct r; cbn in *; [now injection E as ->; rewrite Nat.add_0_r|].
  rewrite (IH (S k) r u E). now replace (S k + r)%nat with (k + S r)%nat by lia.
Qed.

Lemma prog_json base us r u : nth_error us r = Some u ->
  nth r (printRestart JSON base us) [] = printPart base (List.length us) r u.
Proof.
  intros E. cbn [printRestart].
  assert (F := combine_nth us 0 r u E).
  apply (map_nth_error (fun ru => printPart base (List.length us) (fst ru) (snd ru))) in F.
  exact (nth_error_nth _ _ _ F).
Qed.

Lemma prog_none base us r : nth_error us r = None -> nth r (printRestart JSON base us) [] = [].
Proof.
  intros E. apply nth_error_None in E. apply nth_overflow.
  cbn [printRestart]. rewrite map_length, combine_length, seq_length. lia.
Qed.

Lemma json_act base us r a : In a (nth r (printRestart JSON base us) []) ->
  exists u, nth_error us r = Some u /\ In a (printPart base (List.length us) r u).
Proof.
  destruct (nth_error us r) as [u|] eqn:E.
  - rewrite (prog_json _ _ _ _ E). now exists u.
  - rewrite (prog_none _ _ _ E). easy.
Qed.

Lemma part_act base n r u a : In a (@printPart A base n r u) ->
  a = Open (partName (restartName JSON base n) r) \/
  a = Close (partName (restartName JSON base n) r) (Part r n u) \/
  (a = Record_ (restartName JSON base n) /\ r = O).
Proof.
  unfold printPart. intros H. apply in_app_or in H. destruct H as [[H|[H|[]]]|H]; [auto|auto|].
  destruct (Nat.eqb_spec r 0) as [E|E]; [|easy]. destruct H as [H|[]]. auto.
Qed.

Lemma whole_proc base us r a : In a (nth r (@printRestart A H5 base us) []) ->
  r = O /\ In a (printWhole base us).
Proof. cbn [printRestart]. destruct r as [|[|r]]; cbn [nth]; [auto|easy|easy]. Qed.

(** ** What a finished history leaves *)

Lemma json_left base us d h r u : finished (printRestart JSON base us) h ->
  nth_error us r = Some u ->
  files (after d h) (partName (restartName JSON base (List.length us)) r)
    = Some (Part r (List.length us) u).
Proof.
  intros F E. rewrite files_after, (fold_mine _ r).
  - rewrite <- (F r), (prog_json _ _ _ _ E). unfold printPart.
    rewrite fold_left_app. cbn. rewrite !String.eqb_refl. now destruct (r =? 0)%nat.
  - intros q a t I N. apply finished_history in F.
    apply (history_in _ _ _ _ F), json_act in I. destruct I as (v & Ev & I).
    apply part_act in I.
    destruct I as [->|[->|[-> _]]]; [| |easy];
      cbn [on]; (destruct (String.eqb_spec (partName (restartName JSON base (List.length us)) r)
                        (partName (restartName JSON base (List.length us)) q)) as [K|K];
            [apply partName_inj in K; destruct K; congruence|easy]).
Qed.

Lemma json_recorded base us d h : finished (printRestart JSON base us) h -> us <> [] ->
  recorded (after d h) = Some (restartName JSON base (List.length us)).
Proof.
  intros F N. rewrite recorded_after, (fold_mine _ 0).
  - destruct us as [|u us]; [easy|]. rewrite <- (F O), (prog_json base (u :: us) O u eq_refl). reflexivity.
  - intros q a t I Q. apply finished_history in F.
    apply (history_in _ _ _ _ F), json_act in I. destruct I as (v & Ev & I).
    apply part_act in I. destruct I as [->|[->|[-> ->]]]; easy.
Qed.

Lemma h5_mine base us h {S} (f : S -> act A -> S) s : history (printRestart H5 base us) h ->
  fold_left f (map snd h) s = fold_left f (mine 0 h) s.
Proof.
  intros H. apply fold_mine. intros q a t I Q.
  apply (history_in _ _ _ _ H), whole_proc in I. now destruct I.
Qed.

Lemma h5_left base us d h : finished (printRestart H5 base us) h ->
  files (after d h) (restartName H5 base (List.length us)) = Some (Whole (List.length us) us) /\
  recorded (after d h) = Some (restartName H5 base (List.length us)).
Proof.
  intros F. rewrite files_after, recorded_after, !(h5_mine base us) by now apply finished_history.
  rewrite <- (F O). cbn [printRestart nth]. unfold printWhole. cbn [fold_left on named].
  rewrite !String.eqb_refl. easy.
Qed.

Lemma read_json d base m n r :
  readRestart d (restartName JSON base m) n r = readPart d (partName (restartName JSON base m) r) n r.
Proof. unfold readRestart. destruct (restart_dir base m) as [a ->]. now rewrite hasSuffix_app. Qed.

Lemma read_h5 d base m n r :
  readRestart d (restartName H5 base m) n r = readWhole d (restartName H5 base m) n r.
Proof.
  unfold readRestart. destruct (restart_h5 base m) as [a ->]. now rewrite h5_not_dir, hasSuffix_app.
Qed.

Lemma restored w base us d h : finished (printRestart w base us) h -> us <> [] ->
  complete (after d h) us /\ recorded (after d h) = Some (restartName w base (List.length us)).
Proof.
  intros F N. assert (R : recorded (after d h) = Some (restartName w base (List.length us))).
  { destruct w; [now apply json_recorded|now apply h5_left]. }
  split; [|easy]. exists (restartName w base (List.length us)). split; [easy|].
  intros r u E. destruct w.
  - rewrite read_json. unfold readPart. rewrite (json_left _ _ _ _ _ _ F E), !Nat.eqb_refl. easy.
  - rewrite read_h5. unfold readWhole. rewrite (proj1 (h5_left _ _ _ _ F)), Nat.eqb_refl.
    cbn [assert_ bind]. now rewrite E.
Qed.

Lemma count_refused w base us d h n r : finished (printRestart w base us) h ->
  n <> List.length us -> (r < List.length us)%nat ->
  readRestart (after d h) (restartName w base (List.length us)) n r = Abort.
Proof.
  intros F N L. destruct w.
  - destruct (nth_error us r) as [u|] eqn:E; [|apply nth_error_None in E; lia].
    rewrite read_json. unfold readPart. rewrite (json_left _ _ _ _ _ _ F E), Nat.eqb_refl.
    now rewrite (proj2 (Nat.eqb_neq _ _)) by congruence.
  - rewrite read_h5. unfold readWhole. rewrite (proj1 (h5_left _ _ _ _ F)).
    now rewrite (proj2 (Nat.eqb_neq _ _)) by congruence.
Qed.

(** ** What a history leaves alone *)

Lemma neq_close x y o (c : file A) : x <> y -> on x o (Close y c) = o.
Proof. intros N. cbn [on]. now rewrite (proj2 (String.eqb_neq _ _) N). Qed.
Lemma neq_open x y (o : option (file A)) : x <> y -> on x o (Open y) = o.
Proof. intros N. cbn [on]. now rewrite (proj2 (String.eqb_neq _ _) N). Qed.

Lemma untouched w base us d h x : history (printRestart w base us) h ->
  (forall r, w = JSON -> x <> partName (restartName JSON base (List.length us)) r) ->
  (w = H5 -> x <> restartName H5 base (List.length us)) ->
  files (after d h) x = files d x.
Proof.
  intros H HJ HH. rewrite files_after. apply fold_none. intros a t I.
  apply in_map_iff in I. destruct I as ([q a'] & <- & I). cbn.
  apply (history_in _ _ _ _ H) in I. destruct w.
  - apply json_act in I. destruct I as (u & _ & I). apply part_act in I.
    destruct I as [->|[->|[-> _]]]; [apply neq_open|apply neq_close|easy]; now apply HJ.
  - apply whole_proc in I. destruct I as [_ [<-|[<-|[<-|[]]]]]; [apply neq_open|apply neq_close|easy];
      now apply HH.
Qed.

Lemma earlier w base us d h name n r : history (printRestart w base us) h ->
  name <> restartName w base (List.length us) ->
  readRestart (after d h) name n r = readRestart d name n r.
Proof.
  intros H N. unfold readRestart.
  destruct (hasSuffix name ".dir"); [|destruct (hasSuffix name ".dnds.h5") eqn:S; [|easy]].
  - unfold readPart. rewrite (untouched w base us); [easy|easy| |].
    + intros q -> K. apply partName_inj in K. now destruct K.
    + intros -> K. destruct (restart_h5 base (List.length us)) as [a E]. rewrite E in K.
      now apply partName_not_h5 in K.
  - unfold readWhole. rewrite (untouched w base us); [easy|easy| |].
    + intros q -> K. apply hasSuffix_inv in S. destruct S as [a ->].
      symmetry in K. now apply partName_not_h5 in K.
    + intros ->. easy.
Qed.

Lemma h5_cases base us d h : history (printRestart H5 base us) h ->
  recorded (after d h) = recorded d \/
  (recorded (after d h) = Some (restartName H5 base (List.length us)) /\
   files (after d h) (restartName H5 base (List.length us)) = Some (Whole (List.length us) us)).
Proof.
  intros H. rewrite files_after, recorded_after, !(h5_mine base us) by easy.
  destruct (H O) as [rest E]. cbn [printRestart nth] in E. unfold printWhole in E.
  destruct (mine 0 h) as [|a [|b [|c [|e l]]]]; cbn [app] in E.
  - now left.
  - injection E as <- _. now left.
  - injection E as <- <- _. now left.
  - injection E as <- <- <- _. right. cbn [fold_left on named]. now rewrite !String.eqb_refl.
  - exfalso. injection E as _ _ _ E. discriminate.
Qed.

Lemma crash_h5 base old us d h : complete d old ->
  recorded d <> Some (restartName H5 base (List.length us)) ->
  history (printRestart H5 base us) h ->
  complete (after d h) old \/ complete (after d h) us.
Proof.
  intros (name & R & C) N H. destruct (h5_cases base us d h H) as [E|[E F]].
  - left. exists name. split; [congruence|]. intros r u U.
    rewrite (earlier H5 base us) by (congruence || easy). now apply C.
  - right. exists (restartName H5 base (List.length us)). split; [easy|]. intros r u U.
    rewrite read_h5. unfold readWhole. rewrite F, Nat.eqb_refl. cbn [assert_ bind]. now rewrite U.
Qed.

Lemma unnamed d name n r : (forall a, name <> a ++ ".dir") -> (forall a, name <> a ++ ".dnds.h5") ->
  readRestart d name n r = Abort.
Proof.
  intros H K. unfold readRestart.
  destruct (hasSuffix name ".dir") eqn:E.
  - apply hasSuffix_inv in E. destruct E as [a E]. now apply H in E.
  - destruct (hasSuffix name ".dnds.h5") eqn:F; [|easy].
    apply hasSuffix_inv in F. destruct F as [a F]. now apply K in F.
Qed.

Lemma printed w base us d h : history (printRestart w base us) h ->
  recorded (after d h) = recorded d \/
  recorded (after d h) = Some (restartName w base (List.length us)).
Proof.
  intros H. rewrite recorded_after.
  assert (K : forall a, In a (map snd h) -> forall x, a = Record_ x -> x = restartName w base (List.length us)).
  { intros a I x ->. apply in_map_iff in I. destruct I as ([q a] & E & I). cbn in E. subst a.
    apply (history_in _ _ _ _ H) in I. destruct w.
    - apply json_act in I. destruct I as (u & _ & I). apply part_act in I.
      destruct I as [I|[I|[I _]]]; try discriminate. now injection I.
    - apply whole_proc in I. destruct I as [_ [I|[I|[I|[]]]]]; try discriminate. now injection I. }
  generalize (recorded d) as o. revert K. generalize (map snd h) as l. clear H.
  induction l as [|a l IH]; intros K o; [now left|]. cbn [fold_left].
  assert (K' : forall b, In b l -> forall x, b = Record_ x -> x = restartName w base (List.length us))
    by (intros; eapply K; [now right; eassumption|easy]).
  destruct a as [x|x c|x]; cbn [named]; [now apply IH|now apply IH|].
  right. rewrite (K (Record_ x) (or_introl eq_refl) x eq_refl).
  destruct (IH K' (Some (restartName w base (List.length us)))); easy.
Qed.

Lemma before w base old us d h : complete d old ->
  recorded d <> Some (restartName w base (List.length us)) ->
  history (printRestart w base us) h ->
  complete (after d h) old \/ recorded (after d h) = Some (restartName w base (List.length us)).
Proof.
  intros (name & R & C) N H. destruct (printed w base us d h H) as [E|E]; [left|now right].
  exists name. split; [congruence|]. intros r u U.
  rewrite (earlier w base us) by (congruence || easy). now apply C.
Qed.

Lemma json_closed base us d h r u : history (printRestart JSON base us) h ->
  nth_error us r = Some u ->
  In (r, Close (partName (restartName JSON base (List.length us)) r) (Part r (List.length us) u)) h ->
  files (after d h) (partName (restartName JSON base (List.length us)) r)
    = Some (Part r (List.length us) u).
Proof.
  intros H E I. rewrite files_after, (fold_mine _ r).
  - apply mine_in in I. destruct (H r) as [rest P].
    rewrite (prog_json _ _ _ _ E) in P. unfold printPart in P.
    destruct (mine r h) as [|a [|b l]]; [easy| |].
    + cbn [app] in P. injection P as <- _. destruct I as [I|[]]. discriminate.
    + cbn [app] in P. injection P as <- <- P. cbn [fold_left on]. rewrite !String.eqb_refl.
      apply fold_none. intros a t J.
      destruct (r =? 0)%nat; [|symmetry in P; apply app_eq_nil in P; destruct P as [-> _]; easy].
      destruct l as [|c [|e l]]; [easy| |discriminate].
      injection P as <- _. destruct J as [<-|[]]. easy.
  - intros q a t J N. apply (history_in _ _ _ _ H), json_act in J. destruct J as (v & Ev & J).
    apply part_act in J.
    destruct J as [->|[->|[-> _]]]; [apply neq_open|apply neq_close|easy];
      intros K; apply partName_inj in K; destruct K; congruence.
Qed.

Lemma record_in : forall h (o : option string) x,
  fold_left named (map snd h) o = Some x -> o <> Some x -> exists q h1 h2, h = (h1 ++ (q, Record_ x) :: h2)%list.
Proof.
  induction h as [|[q a] h IH]; intros o x E N; cbn in E; [easy|].
  destruct a as [y|y c|y]; cbn in E.
  - destruct (IH o x E N) as (p & h1 & h2 & ->). now exists p, ((q, Open y) :: h1)%list, h2.
  - destruct (IH o x E N) as (p & h1 & h2 & ->). now exists p, ((q, Close y c) :: h1)%list, h2.
  - destruct (string_dec y x) as [->|D].
    + now exists q, [], h.
    + destruct (IH (Some y) x E) as (p & h1 & h2 & ->); [congruence|].
      now exists p, ((q, Record_ y) :: h1)%list, h2.
Qed.

Lemma crash_waiting base old us d h : complete d old ->
  recorded d <> Some (restartName JSON base (List.length us)) ->
  history (printRestart JSON base us) h -> waiting (printRestart JSON base us) h ->
  complete (after d h) old \/ complete (after d h) us.
Proof.
  intros C N H W. destruct (before JSON base old us d h C N H) as [B|B]; [now left|right].
  exists (restartName JSON base (List.length us)). split; [easy|]. intros r u E.
  assert (R := B). rewrite recorded_after in R. apply record_in in R; [|easy].
  destruct R as (q & h1 & h2 & S).
  rewrite read_json. unfold readPart. rewrite (json_closed base us d h r u H E).
  - now rewrite !Nat.eqb_refl.
  - rewrite S. apply in_or_app. left. apply (W h1 q _ h2 S).
    + rewrite (prog_json _ _ _ _ E). right. now left.
    + intros y. discriminate.
Qed.

Lemma misplaced d a n r k m f :
  files d (partName (a ++ ".dir") r) = Some (Part k m f) -> k <> r \/ m <> n ->
  readRestart d (a ++ ".dir") n r = Abort.
Proof.
  intros E H. unfold readRestart. rewrite hasSuffix_app. unfold readPart. rewrite E.
  destruct (Nat.eqb_spec k r), (Nat.eqb_spec m n); try reflexivity. now destruct H.
Qed.

End Disk.
