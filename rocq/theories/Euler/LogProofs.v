(** The convergence log shows what the solver knew. *)

From Coq Require Import List ZArith Bool String Ascii Lia.
From Verif Require Import Base.Prelude Base.PreludeFacts Euler.LogModel Euler.LogSpec Euler.LogText.
Import ListNotations.
Local Open Scope Z_scope.
Local Open Scope string_scope.

Section Proofs.
Context (F : floats).

Notation asgs := (list (string * arg F)).

(** The text shown under a name. *)
Definition V (p : Z) (m : vmap F) (t : string) : string := print F p (get F m t).

Definition okarg (a : arg F) : Prop := a <> AInt int64_min.

Lemma V_fill : forall p m k a t, okarg a ->
  V p (fill F m k a) t = if k =? t then written F p a else V p m t.
Proof.
  intros p m k a t O. unfold V, fill. cbn [get]. destruct (String.eqb_spec k t); [|reflexivity].
  destruct a as [z|d]; cbn [assign]; unfold print; cbn [vi vd].
  - destruct (Z.eqb_spec z int64_min); [subst; now elim O | reflexivity].
  - reflexivity.
Qed.

(** Assignments one after another. *)
Definition apply (l : asgs) (m : vmap F) : vmap F := fold_left (fun m ka => fill F m (fst ka) (snd ka)) l m.

Fixpoint lastof (t : string) (l : asgs) : option (arg F) :=
  match l with
  | [] => None
  | (k, a) :: r => match lastof t r with Some b => Some b | None => if k =? t then Some a else None end
  end.

Lemma lastof_app : forall t l r, lastof t (app l r) = match lastof t r with Some b => Some b | None => lastof t l end.
Proof.
  induction l as [|[k a] l IH]; intros r; cbn [app lastof].
  - now destruct (lastof t r).
  - rewrite IH. now destruct (lastof t r).
Qed.

Lemma apply_app : forall l r m, apply (app l r) m = apply r (apply l m).
Proof. intros. unfold apply. now rewrite fold_left_app. Qed.

Lemma V_apply : forall p l m t, Forall (fun ka => okarg (snd ka)) l ->
  V p (apply l m) t = match lastof t l with Some a => written F p a | None => V p m t end.
Proof.
  induction l as [|[k a] l IH]; intros m t O; [reflexivity|]. inversion O as [|x y Oa Ol]. subst.
  change (apply ((k, a) :: l) m) with (apply l (fill F m k a)). rewrite (IH _ _ Ol). cbn [lastof].
  destruct (lastof t l); [reflexivity|]. rewrite V_fill by exact Oa. now destruct (k =? t).
Qed.

(** ** The assignments of a line *)

Fixpoint comps (k : string) (i : nat) (v : list (num F)) : asgs :=
  match v with
  | [] => []
  | d :: v => (k ++ decimal (Z.of_nat i), ANum d) :: comps k (S i) v
  end.

Lemma fillVec_go : forall k v pre m,
  foldM (fun m i => do d <- vget (app pre v) (Z.of_nat i); Ok (fill F m (k ++ decimal (Z.of_nat i)) (ANum d))) m
    (seq (List.length pre) (List.length v)) = Ok (apply (comps k (List.length pre) v) m).
Proof.
  induction v as [|d v IH]; intros pre m; [reflexivity|]. cbn [List.length seq foldM].
  rewrite (vget_of_nat _ (app pre (d :: v)) (List.length pre) d).
  2: { rewrite nth_error_app2 by lia. now rewrite Nat.sub_diag. }
  cbn [bind]. specialize (IH (app pre [d]) (fill F m (k ++ decimal (Z.of_nat (List.length pre))) (ANum d))).
  rewrite <- app_assoc in IH. rewrite app_length in IH. cbn [List.length app] in IH.
  rewrite Nat.add_1_r in IH. exact IH.
Qed.

Lemma fillVec_ok : forall n m k v, spread k = true -> List.length v = n ->
  fillVec F n m k v = Ok (apply (comps k 0 v) m).
Proof. intros n m k v S L. unfold fillVec. rewrite S. subst n. exact (fillVec_go k v [] m). Qed.

Definition named (f : string -> arg F) (ks : list string) : asgs := map (fun k => (k, f k)) ks.

Lemma fills_apply : forall f ks m, fills F f ks m = apply (named f ks) m.
Proof. induction ks as [|k ks IH]; intros m; [reflexivity|]. exact (IH (fill F m k (f k))). Qed.

Definition asg (first : list string) (f : string -> arg F) (q : moment F) : asgs :=
  app (named f first) (app (comps "res" 0 (resid F q)) (app (named f middle)
    (app (comps "fluxWall" 0 (wall F q)) (named f ["CL"; "CD"; "AoA"])))).

Lemma fillAll_ok : forall n first f q m, List.length (resid F q) = n -> List.length (wall F q) = n ->
  fillAll F n first f q m = Ok (apply (asg first f q) m).
Proof.
  intros n first f q m R W. unfold fillAll. rewrite fills_apply, (fillVec_ok n _ "res" _ eq_refl R). cbn [bind].
  rewrite fills_apply, (fillVec_ok n _ "fluxWall" _ eq_refl W). cbn [bind]. rewrite fills_apply.
  unfold asg. now rewrite !apply_app.
Qed.

Definition assigned (e : event F) : asgs :=
  match e with
  | Inner q => asg ["step"; "iStep"; "iterAll"; "iter"; "tSimu"] (scalar F q) q
  | Step q => asg ["step"; "iStep"; "iter"; "tSimu"] (hidden F (scalar F q)) q
  end.

(** ** What was assigned last *)

Lemma lastof_named_in : forall f ks t, In t ks -> lastof t (named f ks) = Some (f t).
Proof.
  induction ks as [|k ks IH]; intros t I; [destruct I|]. cbn [named map lastof].
  change (map (fun k => (k, f k)) ks) with (named f ks).
  destruct (in_dec string_dec t ks) as [J|J]; [now rewrite (IH t J)|].
  destruct I as [<-|I]; [|contradiction]. rewrite String.eqb_refl.
  destruct (lastof k (named f ks)) eqn:E; [|reflexivity]. exfalso. clear IH.
  revert E. induction ks as [|x ks IH]; [discriminate|]. cbn [named map lastof].
  change (map (fun k => (k, f k)) ks) with (named f ks).
  destruct (lastof k (named f ks)) eqn:E; intros A.
  - apply IH; [|exact A]. intros B. apply J. now right.
  - destruct (String.eqb_spec x k); [|discriminate]. apply J. now left.
Qed.

Lemma lastof_named_out : forall f ks t, ~ In t ks -> lastof t (named f ks) = None.
Proof.
  induction ks as [|k ks IH]; intros t N; [reflexivity|]. cbn [named map lastof].
  change (map (fun k => (k, f k)) ks) with (named f ks). rewrite IH by (intros I; apply N; now right).
  destruct (String.eqb_spec k t); [|reflexivity]. elim N. now left.
Qed.

Lemma lastof_comps_some : forall k v i t b, lastof t (comps k i v) = Some b ->
  exists j d, t = k ++ decimal (Z.of_nat (i + j)) /\ nth_error v j = Some d /\ b = ANum d.
Proof.
  induction v as [|d v IH]; intros i t b E; [discriminate|]. cbn [comps lastof] in E.
  destruct (lastof t (comps k (S i) v)) as [b'|] eqn:L.
  - injection E as <-. destruct (IH _ _ _ L) as (j & d' & A & B & C). exists (S j), d'.
    split; [|auto]. rewrite A. f_equal. f_equal. lia.
  - destruct (String.eqb_spec (k ++ decimal (Z.of_nat i)) t) as [<-|]; [|discriminate]. injection E as <-.
    exists 0%nat, d. rewrite Nat.add_0_r. auto.
Qed.

Lemma lastof_comps_none : forall k v i t,
  (forall j d, t = k ++ decimal (Z.of_nat (i + j)) -> nth_error v j = Some d -> False) ->
  lastof t (comps k i v) = None.
Proof.
  intros k v i t N. destruct (lastof t (comps k i v)) eqn:E; [|reflexivity].
  destruct (lastof_comps_some _ _ _ _ _ E) as (j & d & A & B & _). now elim (N j d).
Qed.

Lemma lastof_comps_in : forall k v i j d, nth_error v j = Some d ->
  lastof (k ++ decimal (Z.of_nat (i + j))) (comps k i v) = Some (ANum d).
Proof.
  induction v as [|x v IH]; intros i j d E; [destruct j; discriminate|]. destruct j as [|j]; cbn [comps lastof].
  - rewrite Nat.add_0_r, String.eqb_refl. cbn in E. injection E as ->.
    rewrite lastof_comps_none; [reflexivity|]. intros j d' A _. apply app_inj_s, decimal_nat_inj in A. lia.
  - replace (i + S j)%nat with (S i + j)%nat by lia. now rewrite (IH (S i) j d E).
Qed.

(** A scalar is not the component of a vector. *)
Lemma scalar_not_comp : forall t s, In t scalars -> t = "res" ++ s \/ t = "fluxWall" ++ s -> False.
Proof.
  intros t s I E. unfold scalars in I. cbn [In] in I.
  repeat (destruct I as [<-|I]; [destruct E; discriminate|]). exact I.
Qed.

Lemma res_not_wall : forall a b, "res" ++ a <> "fluxWall" ++ b.
Proof. intros a b E. discriminate. Qed.

Lemma comps_scalar : forall t k v, In t scalars -> k = "res" \/ k = "fluxWall" -> lastof t (comps k 0 v) = None.
Proof.
  intros t k v I K. apply lastof_comps_none. intros j d E _.
  apply (scalar_not_comp t (decimal (Z.of_nat (0 + j))) I). destruct K; subst k; auto.
Qed.

Lemma asg_scalar : forall first f q t, In t scalars ->
  lastof t (asg first f q) = if in_dec string_dec t (app first (app middle ["CL"; "CD"; "AoA"])) then Some (f t) else None.
Proof.
  intros first f q t I. unfold asg. rewrite !lastof_app.
  rewrite !(comps_scalar t _ _ I) by auto.
  destruct (in_dec string_dec t (app first (app middle ["CL"; "CD"; "AoA"]))) as [J|J].
  - destruct (in_dec string_dec t ["CL"; "CD"; "AoA"]) as [A|A]; [now rewrite (lastof_named_in _ _ _ A)|].
    rewrite (lastof_named_out _ _ _ A).
    destruct (in_dec string_dec t middle) as [B|B]; [now rewrite (lastof_named_in _ _ _ B)|].
    rewrite (lastof_named_out _ _ _ B). apply lastof_named_in. apply in_app_iff in J. destruct J as [J|J]; [exact J|].
    apply in_app_iff in J. destruct J; contradiction.
  - rewrite !lastof_named_out; [reflexivity | | |]; intros A; apply J; rewrite ?in_app_iff; auto.
Qed.

Lemma asg_comp : forall first f q t, (forall x, In x first -> In x scalars) -> forall d, component F q t d ->
  lastof t (asg first f q) = Some (ANum d).
Proof.
  intros first f q t S d (i & C). unfold asg. rewrite !lastof_app.
  assert (N : forall ks, (forall x, In x ks -> In x scalars) -> lastof t (named f ks) = None).
  { intros ks K. apply lastof_named_out. intros I. apply (scalar_not_comp t (decimal (Z.of_nat i)) (K _ I)). tauto. }
  rewrite (N ["CL"; "CD"; "AoA"]) by (unfold scalars; cbn [In]; tauto).
  rewrite (N middle) by (unfold middle, scalars; cbn [In]; tauto). rewrite (N first S).
  destruct C as [[-> E]|[-> E]].
  - rewrite (lastof_comps_none "fluxWall") by (intros j d' A _; now elim (res_not_wall _ _ A)).
    pose proof (lastof_comps_in "res" _ 0 i d E) as G. cbn [Nat.add] in G. now rewrite G.
  - pose proof (lastof_comps_in "fluxWall" _ 0 i d E) as G. cbn [Nat.add] in G. now rewrite G.
Qed.

Lemma asg_unknown : forall first f q t, (forall x, In x first -> In x scalars) -> ~ In t scalars ->
  (forall d, ~ component F q t d) -> lastof t (asg first f q) = None.
Proof.
  intros first f q t S N C. unfold asg. rewrite !lastof_app.
  assert (K : forall ks, (forall x, In x ks -> In x scalars) -> lastof t (named f ks) = None).
  { intros ks K. apply lastof_named_out. intros I. apply N, K, I. }
  rewrite (K ["CL"; "CD"; "AoA"]) by (unfold scalars; cbn [In]; tauto).
  rewrite (K middle) by (unfold middle, scalars; cbn [In]; tauto). rewrite (K first S).
  rewrite !lastof_comps_none; [reflexivity | |]; intros j d E V'; apply (C d); exists j; cbn in E; auto.
Qed.

Lemma component_dec : forall q t, (exists d, component F q t d) \/ (forall d, ~ component F q t d).
Proof.
  intros q t. destruct (lastof t (comps "res" 0 (resid F q))) eqn:A.
  - destruct (lastof_comps_some _ _ _ _ _ A) as (j & d & E & X & _). left. exists d, j. auto.
  - destruct (lastof t (comps "fluxWall" 0 (wall F q))) eqn:B.
    + destruct (lastof_comps_some _ _ _ _ _ B) as (j & d & E & X & _). left. exists d, j. auto.
    + right. intros d (i & [[-> E]|[-> E]]).
      * pose proof (lastof_comps_in "res" _ 0 i d E) as G. cbn [Nat.add] in G. congruence.
      * pose proof (lastof_comps_in "fluxWall" _ 0 i d E) as G. cbn [Nat.add] in G. congruence.
Qed.

(** ** The number a column is about *)

Definition now (past : list (event F)) (e : event F) (t : string) : arg F :=
  match lastof t (app (flat_map assigned past) (assigned e)) with Some a => a | None => ANum (zero F) end.

Lemma first_inner : forall x, In x ["step"; "iStep"; "iterAll"; "iter"; "tSimu"] -> In x scalars.
Proof. intros x. unfold scalars. cbn [In]. tauto. Qed.

Lemma first_step : forall x, In x ["step"; "iStep"; "iter"; "tSimu"] -> In x scalars.
Proof. intros x. unfold scalars. cbn [In]. tauto. Qed.

Lemma assigned_inner : forall q t, In t scalars -> lastof t (assigned (Inner q)) = Some (scalar F q t).
Proof.
  intros q t I. cbn [assigned]. rewrite (asg_scalar _ _ _ _ I). destruct (in_dec _ _ _) as [J|J]; [reflexivity|].
  exfalso. apply J. unfold scalars in I. unfold middle. cbn [In app] in *. tauto.
Qed.

Lemma assigned_step : forall q t, In t scalars -> t <> "iterAll" ->
  lastof t (assigned (Step q)) = Some (hidden F (scalar F q) t).
Proof.
  intros q t I N. cbn [assigned]. rewrite (asg_scalar _ _ _ _ I). destruct (in_dec _ _ _) as [J|J]; [reflexivity|].
  exfalso. apply J. unfold scalars in I. unfold middle. cbn [In app] in *.
  destruct I as [I|[I|[I|I]]]; [tauto | tauto | now subst t | tauto].
Qed.

Lemma iterAll_in : In "iterAll" scalars.
Proof. unfold scalars. cbn [In]. tauto. Qed.

Lemma assigned_count : forall q, lastof "iterAll" (assigned (Step q)) = None.
Proof.
  intros q. cbn [assigned]. rewrite (asg_scalar _ _ _ _ iterAll_in). destruct (in_dec _ _ _) as [J|J]; [|reflexivity].
  exfalso. unfold middle in J. cbn [In app] in J. repeat (destruct J as [J|J]; [discriminate|]). exact J.
Qed.

Lemma assigned_comp : forall e t d, component F (moment_of F e) t d -> lastof t (assigned e) = Some (ANum d).
Proof.
  intros [q|q] t d C; cbn [assigned moment_of] in *; apply asg_comp; auto using first_inner, first_step.
Qed.

Lemma assigned_unknown : forall e t, ~ In t scalars -> (forall d, ~ component F (moment_of F e) t d) ->
  lastof t (assigned e) = None.
Proof.
  intros [q|q] t N C; cbn [assigned moment_of] in *; apply asg_unknown; auto using first_inner, first_step.
Qed.

Lemma steps_count : forall es, (forall e, In e es -> exists q, e = Step q) -> lastof "iterAll" (flat_map assigned es) = None.
Proof.
  induction es as [|e es IH]; intros S; [reflexivity|]. cbn [flat_map]. rewrite lastof_app.
  rewrite IH by (intros e' I; apply S; now right).
  destruct (S e (or_introl eq_refl)) as [q ->]. apply assigned_count.
Qed.

(** Moments with equally long vectors have the same components. *)
Lemma same_components : forall n e e' t, proper F n e -> proper F n e' ->
  (forall d, ~ component F (moment_of F e) t d) -> forall d, ~ component F (moment_of F e') t d.
Proof.
  intros n e e' t (R & W & _) (R' & W' & _) C d (i & X).
  destruct X as [[T X]|[T X]]; assert (L : (i < n)%nat) by (rewrite <- ?R', <- ?W'; first [rewrite R' || rewrite W' | idtac];
    try (rewrite <- R'; apply nth_error_Some; congruence); try (rewrite <- W'; apply nth_error_Some; congruence)).
  - destruct (nth_error (resid F (moment_of F e)) i) as [x|] eqn:E; [apply (C x); exists i; auto|].
    apply nth_error_None in E. lia.
  - destruct (nth_error (wall F (moment_of F e)) i) as [x|] eqn:E; [apply (C x); exists i; auto|].
    apply nth_error_None in E. lia.
Qed.

Lemma past_unknown : forall n past e t, proper F n e -> Forall (proper F n) past -> ~ In t scalars ->
  (forall d, ~ component F (moment_of F e) t d) -> lastof t (flat_map assigned past) = None.
Proof.
  induction past as [|e' past IH]; intros e t P A N C; [reflexivity|]. inversion A. subst. cbn [flat_map].
  rewrite lastof_app, (IH e t P) by assumption. apply assigned_unknown; [exact N|].
  now apply (same_components n e e' t).
Qed.

Lemma about_now : forall n past e t a, proper F n e -> Forall (proper F n) past -> about F past e t a -> now past e t = a.
Proof.
  intros n past e t a P A B. unfold now. rewrite lastof_app. destruct B as
    [q t I | q t I N1 N2 N3 | q t H | q q0 p1 p2 E S | q S | e t d C | e t N C].
  - now rewrite (assigned_inner q t I).
  - rewrite (assigned_step q t I N3). unfold hidden.
    destruct (String.eqb_spec t "iStep"); [contradiction|]. destruct (String.eqb_spec t "iter"); [contradiction|]. reflexivity.
  - rewrite assigned_step; [| unfold scalars; destruct H; subst t; cbn [In]; tauto | destruct H; subst t; discriminate].
    unfold hidden. destruct H; subst t; reflexivity.
  - rewrite assigned_count. subst past. rewrite flat_map_app, lastof_app. cbn [flat_map]. rewrite lastof_app.
    rewrite (steps_count p2 S), (assigned_inner q0 _ iterAll_in). reflexivity.
  - now rewrite assigned_count, (steps_count past S).
  - now rewrite (assigned_comp e t d C).
  - now rewrite (assigned_unknown e t N C), (past_unknown n past e t P A N C).
Qed.

Lemma last_inner : forall es : list (event F), (forall e, In e es -> exists q, e = Step q) \/
  exists p1 q0 p2, es = app p1 (Inner q0 :: p2) /\ forall e, In e p2 -> exists q, e = Step q.
Proof.
  induction es as [|e es IH]; [left; intros e []|]. destruct IH as [IH|(p1 & q0 & p2 & -> & S)].
  - destruct e as [q|q].
    + right. exists [], q, es. auto.
    + left. intros e [<-|I]; [now exists q | now apply IH].
  - right. exists (e :: p1), q0, p2. auto.
Qed.

Lemma about_exists : forall past e t, exists a, about F past e t a.
Proof.
  intros past e t. destruct (in_dec string_dec t scalars) as [I|N].
  - destruct e as [q|q]; [eexists; now apply about_inner|].
    destruct (string_dec t "iStep") as [E|N1]; [exists (AInt (-1)); apply about_none; auto|].
    destruct (string_dec t "iter") as [E|N2]; [exists (AInt (-1)); apply about_none; auto|].
    destruct (string_dec t "iterAll") as [->|N3]; [|eexists; now apply about_step].
    destruct (last_inner past) as [S|(p1 & q0 & p2 & E & S)].
    + eexists. now apply about_zero.
    + eexists. exact (about_count F past q q0 p1 p2 E S).
  - destruct (component_dec (moment_of F e) t) as [[d C]|C]; [exists (ANum d); now apply about_component|].
    eexists. now apply about_unknown.
Qed.

Lemma about_unique : forall n past e t a b, proper F n e -> Forall (proper F n) past ->
  about F past e t a -> about F past e t b -> a = b.
Proof. intros n past e t a b P A X Y. rewrite <- (about_now n past e t a P A X). now apply (about_now n). Qed.

Lemma now_about : forall n past e t, proper F n e -> Forall (proper F n) past -> about F past e t (now past e t).
Proof.
  intros n past e t P A. destruct (about_exists past e t) as [a B]. now rewrite (about_now n past e t a P A B).
Qed.

(** ** The run *)

Lemma ok_named : forall f ks, (forall k, In k ks -> okarg (f k)) -> Forall (fun ka => okarg (snd ka)) (named f ks).
Proof.
  induction ks as [|k ks IH]; intros O; constructor; [apply O; now left | apply IH; intros; apply O; now right].
Qed.

Lemma ok_comps : forall k v i, Forall (fun ka => okarg (snd ka)) (comps k i v).
Proof. induction v as [|d v IH]; intros i; constructor; [discriminate | apply IH]. Qed.

Lemma ok_assigned : forall n e, proper F n e -> Forall (fun ka => okarg (snd ka)) (assigned e).
Proof.
  intros n e (_ & _ & S).
  assert (K : forall x, In x middle \/ In x ["CL"; "CD"; "AoA"] -> In x scalars)
    by (intros x; unfold middle, scalars; cbn [In]; tauto).
  destruct e as [q|q]; cbn [assigned moment_of] in *; unfold asg; rewrite !Forall_app;
    repeat (split; [first [apply ok_comps | apply ok_named; intros k I] |]); try (apply ok_named; intros k I).
  all: try (unfold hidden; destruct ((k =? "iStep") || (k =? "iter")); [discriminate|]); apply S; auto using first_inner, first_step.
Qed.

Lemma start_ok : forall p n ts m, (forall t, V p m t = show F p (zero F)) ->
  exists m', start F n ts m = Ok (m', columns n ts) /\ forall t, V p m' t = show F p (zero F).
Proof.
  induction ts as [|t ts IH]; intros m Z; [now exists m|].
  cbn [start]. unfold columns. cbn [flat_map]. fold (columns n ts). fold (spread t). destruct (spread t) eqn:S.
  - rewrite (fillVec_ok n m t _ S (repeat_length _ _)). cbn [bind].
    destruct (IH (apply (comps t 0 (repeat (zero F) n)) m)) as (m' & E & W).
    { intros t'. rewrite V_apply by apply ok_comps. destruct (lastof t' _) eqn:L; [|apply Z].
      destruct (lastof_comps_some _ _ _ _ _ L) as (j & d & _ & X & ->). cbn [written].
      apply nth_error_In, repeat_spec in X. now subst d. }
    rewrite E. cbn [bind fst snd]. exists m'. split; [reflexivity | exact W].
  - destruct (IH (fill F m t (ANum (zero F)))) as (m' & E & W).
    { intros t'. rewrite V_fill by discriminate. destruct (t =? t'); [reflexivity | apply Z]. }
    rewrite E. cbn [bind fst snd]. exists m'. split; [reflexivity | exact W].
Qed.

(** The fields of the line of [e] after [past]. *)
Definition fields (p : Z) (cols : list string) (past : list (event F)) (e : event F) : list string :=
  map (fun t => written F p (now past e t)) cols.

Fixpoint allfields (p : Z) (cols : list string) (past es : list (event F)) : list (list string) :=
  match es with
  | [] => []
  | e :: es => fields p cols past e :: allfields p cols (app past [e]) es
  end.

Definition shows (p : Z) (m : vmap F) (past : list (event F)) : Prop :=
  forall t, V p m t = match lastof t (flat_map assigned past) with Some a => written F p a | None => show F p (zero F) end.

Definition holds (cols : list string) (ls : list (list string)) (w : table) : Prop :=
  titles w = cols
  /\ nLine w = Z.of_nat (List.length ls)
  /\ text w = match ls with [] => "" | _ => body (joined cols :: map joined ls) end.

Lemma writeLine_ok : forall p m cols ls w fs, holds cols ls w ->
  map (fun t => print F p (get F m t)) cols = fs -> holds cols (app ls [fs]) (writeLine F p m w).
Proof.
  intros p m cols ls w fs (T & N & X) E. unfold writeLine.
  assert (L : app ls [fs] <> []) by (destruct ls; discriminate).
  destruct ls as [|l ls].
  - cbn in N. rewrite N. cbn [Z.eqb]. unfold holds. cbn [titles nLine text writeTitle].
    rewrite T, X, E, N. repeat split.
    change ("" ++ joined cols ++ nl) with (joined cols ++ nl). now rewrite app_assoc_s.
  - destruct (Z.eqb_spec (nLine w) 0) as [Z|_]; [rewrite N in Z; cbn [List.length] in Z; lia|].
    unfold holds. cbn [titles nLine text]. rewrite T, E, X, N. split; [reflexivity|]. split.
    + rewrite app_length. cbn [List.length]. lia.
    + cbn [app]. change (l :: app ls [fs]) with (app (l :: ls) [fs]). rewrite map_app.
      change (joined cols :: app (map joined (l :: ls)) (map joined [fs]))
        with (app (joined cols :: map joined (l :: ls)) [joined fs]). now rewrite body_snoc.
Qed.

Lemma shows_now : forall p m past e, shows p m past -> Forall (fun ka => okarg (snd ka)) (assigned e) ->
  forall t, V p (apply (assigned e) m) t = written F p (now past e t).
Proof.
  intros p m past e S O t. rewrite (V_apply _ _ _ _ O). unfold now. rewrite lastof_app.
  destruct (lastof t (assigned e)); [reflexivity|]. rewrite (S t). now destruct (lastof t (flat_map assigned past)).
Qed.

Lemma shows_next : forall p m past e, shows p m past -> Forall (fun ka => okarg (snd ka)) (assigned e) ->
  shows p (apply (assigned e) m) (app past [e]).
Proof.
  intros p m past e S O t. rewrite (shows_now p m past e S O t). unfold now. rewrite flat_map_app. cbn [flat_map].
  rewrite app_nil_r. now destruct (lastof t _).
Qed.

Lemma line_ok : forall n p cols past ls m w e, proper F n e -> shows p m past -> holds cols ls w ->
  exists m' w', line F n p (m, w) e = Ok (m', w') /\ shows p m' (app past [e]) /\ holds cols (app ls [fields p cols past e]) w'.
Proof.
  intros n p cols past ls m w e P S H. pose proof (ok_assigned n e P) as O.
  pose proof (shows_next p m past e S O) as S'. pose proof (shows_now p m past e S O) as SN.
  pose proof P as (R & W & G).
  assert (X : holds cols (app ls [fields p cols past e]) (writeLine F p (apply (assigned e) m) w)).
  { apply writeLine_ok; [exact H|]. apply map_ext. intros t. apply SN. }
  destruct e as [q|q]; cbn [line fst snd moment_of assigned] in *.
  - rewrite (fillAll_ok n _ _ q m R W). cbn [bind]. eexists _, _. split; [reflexivity|]. split; [|exact X].
    intros t. rewrite V_fill by (apply G; unfold scalars; cbn [In]; tauto).
    destruct (String.eqb_spec "step" t) as [<-|]; [|apply S'].
    rewrite flat_map_app, lastof_app. cbn [flat_map]. rewrite app_nil_r.
    now rewrite assigned_inner by (unfold scalars; cbn [In]; tauto).
  - rewrite (fillAll_ok n _ _ q m R W). cbn [bind]. eexists _, _. split; [reflexivity|]. split; [exact S' | exact X].
Qed.

Lemma lines_ok : forall n p cols es past ls m w, Forall (proper F n) es -> shows p m past -> holds cols ls w ->
  exists m' w', foldM (line F n p) (m, w) es = Ok (m', w') /\ holds cols (app ls (allfields p cols past es)) w'.
Proof.
  induction es as [|e es IH]; intros past ls m w A S H.
  - exists m, w. cbn [allfields]. rewrite app_nil_r. auto.
  - inversion A as [|x y Pe Pes]. subst. destruct (line_ok n p cols past ls m w e Pe S H) as (m1 & w1 & E & S1 & H1).
    destruct (IH (app past [e]) (app ls [fields p cols past e]) m1 w1 Pes S1 H1) as (m2 & w2 & E2 & H2).
    exists m2, w2. cbn [foldM]. rewrite E. cbn [bind]. split; [exact E2|].
    rewrite <- app_assoc in H2. exact H2.
Qed.

Lemma fields_row : forall n p cols past e, proper F n e -> Forall (proper F n) past ->
  row_of F p cols past e (fields p cols past e).
Proof.
  intros n p cols past e P A. unfold row_of, fields. induction cols as [|t cols IH]; constructor; [|exact IH].
  exists (now past e t). split; [now apply (now_about n) | reflexivity].
Qed.

Lemma allfields_rows : forall n p cols es past, Forall (proper F n) es -> Forall (proper F n) past ->
  List.length (allfields p cols past es) = List.length es
  /\ forall i e r, nth_error es i = Some e -> nth_error (allfields p cols past es) i = Some r ->
     row_of F p cols (app past (firstn i es)) e r.
Proof.
  induction es as [|e es IH]; intros past A B; [split; [reflexivity | intros i e r X; destruct i; discriminate]|].
  inversion A as [|x y Pe Pes]. subst. cbn [allfields List.length].
  destruct (IH (app past [e]) Pes) as [L R]; [apply Forall_app; split; [exact B | constructor; [exact Pe | constructor]]|].
  split; [now rewrite L|]. intros i e' r X Y. destruct i as [|i]; cbn [nth_error firstn] in *.
  - injection X as <-. injection Y as <-. rewrite app_nil_r. now apply (fields_row n).
  - specialize (R i e' r X Y). rewrite <- app_assoc in R. exact R.
Qed.

Lemma written_plain : legible F -> forall p a, plain (written F p a).
Proof. intros L p [z|d]; cbn [written]; [apply clean_plain, clean_decimal | apply L]. Qed.

Lemma columns_plain : forall n ts, Forall plain ts -> Forall plain (columns n ts).
Proof.
  intros n ts P. unfold columns. rewrite Forall_forall in *. intros x I. apply in_flat_map in I.
  destruct I as (t & I & J). destruct ((t =? "res") || (t =? "fluxWall")) eqn:S.
  - apply in_map_iff in J. destruct J as (i & <- & _). pose proof (clean_plain _ (clean_decimal (Z.of_nat i))) as D.
    specialize (P t I). clear -P D. induction t as [|c t IH]; [exact D|]. cbn [append plain] in *. tauto.
  - destruct J as [<-|[]]. now apply P.
Qed.

Lemma allfields_shape : forall p cols es past, legible F ->
  Forall (fun l => List.length l = List.length cols /\ Forall plain l) (allfields p cols past es).
Proof.
  induction es as [|e es IH]; intros past L; constructor; [|apply IH, L]. unfold fields. split; [apply map_length|].
  apply Forall_forall. intros x I. apply in_map_iff in I. destruct I as (t & <- & _). now apply written_plain.
Qed.

Lemma log_ok : forall n p ts es, legible F -> Forall plain ts -> columns n ts <> [] -> es <> [] -> Forall (proper F n) es ->
  exists s rs, run F n p ts es = Ok s /\ rows s = Some (columns n ts :: rs) /\ rows_of F p (columns n ts) es rs.
Proof.
  intros n p ts es L P C N A. unfold run.
  destruct (start_ok p n ts []) as (m & E & Z); [reflexivity|]. rewrite E. cbn [bind fst snd].
  destruct (lines_ok n p (columns n ts) es [] [] m {| titles := columns n ts; text := ""; nLine := 0 |} A) as (m' & w & E' & H).
  { intros t. apply Z. }
  { repeat split. }
  rewrite E'. cbn [bind snd]. cbn [app] in H. set (ls := allfields p (columns n ts) [] es) in *.
  exists (text w), ls. split; [reflexivity|]. destruct H as (_ & _ & X).
  pose proof (allfields_rows n p (columns n ts) es [] A (Forall_nil _)) as [Len R]. fold ls in Len, R.
  assert (B : text w = body (joined (columns n ts) :: map joined ls)).
  { rewrite X. destruct ls; [|reflexivity]. destruct es; [contradiction | discriminate]. }
  pose proof (allfields_shape p (columns n ts) es [] L) as Sh. fold ls in Sh.
  pose proof (columns_plain n ts P) as Cp. split.
  - rewrite B, rows_body.
    + cbn [map]. rewrite split_joined by assumption. f_equal. f_equal. rewrite map_map. clear -Sh C.
      induction Sh as [|l ls [Hl Hp] Sh IH]; [reflexivity|]. cbn [map]. rewrite IH. f_equal. apply split_joined; [|exact Hp].
      intros ->. destruct (columns n ts); [contradiction | discriminate].
    + constructor; [now apply joined_line|]. apply Forall_forall. intros x I. apply in_map_iff in I.
      destruct I as (l & <- & I). apply joined_line. rewrite Forall_forall in Sh. now apply Sh.
  - split; [exact Len | exact R].
Qed.

End Proofs.
