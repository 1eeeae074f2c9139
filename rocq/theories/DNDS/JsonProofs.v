From Coq Require Import ZArith List Bool String Ascii Arith Lia.
From Verif Require Import Base.Prelude Base.PreludeFacts DNDS.JsonModel DNDS.JsonSpec DNDS.JsonRun.
Import ListNotations.
Open Scope list_scope.

(** ** Strings *)
Lemma good_parts : forall n, good_name n = true ->
  nonempty n = true /\ free_of slash n = true /\ free_of "~" n = true /\ array_token n = false.
Proof.
  intros n H. unfold good_name in H. rewrite !andb_true_iff, !negb_true_iff in H.
  destruct H as [[[[A B] C] D] E].
  split; [destruct n; [discriminate|reflexivity]|].
  split; [exact B|]. split; [exact C|].
  unfold array_token. change (all_digits n) with (number n). rewrite D, E. reflexivity.
Qed.

Lemma split_free : forall d n, free_of d n = true -> split d n = [n].
Proof.
  induction n as [|c n IH]; cbn; auto.
  rewrite andb_true_iff, negb_true_iff. intros [A B]. rewrite A, (IH B). reflexivity.
Qed.
Lemma split_app : forall d n r, free_of d n = true ->
  split d (n ++ String d r)%string = n :: split d r.
Proof.
  induction n as [|c n IH]; intros r; cbn.
  - intros _. rewrite Ascii.eqb_refl. reflexivity.
  - rewrite andb_true_iff, negb_true_iff. intros [A B]. rewrite A, (IH r B). reflexivity.
Qed.
Lemma app_empty : forall s, (s ++ "")%string = s.
Proof. induction s; cbn; congruence. Qed.
Lemma app_assoc_s : forall a b c : string, ((a ++ b) ++ c)%string = (a ++ (b ++ c))%string.
Proof. induction a; intros; cbn; congruence. Qed.

Lemma constructPath_slashes : forall l, constructPath l = slashes l.
Proof. induction l as [|n l IH]; [reflexivity|]. cbn [constructPath]. rewrite IH. reflexivity. Qed.
Lemma slashes_app : forall a b, slashes (a ++ b) = (slashes a ++ slashes b)%string.
Proof.
  induction a as [|n a IH]; intros; cbn; auto.
  rewrite IH, app_assoc_s. reflexivity.
Qed.

Definition good (l : list string) : Prop := forall n, In n l -> good_name n = true.
Lemma good_cons : forall n l, good (n :: l) -> good_name n = true /\ good l.
Proof. intros n l H. split; [apply H; left; reflexivity|intros m I; apply H; right; exact I]. Qed.
Lemma good_app : forall a b, good a -> good b -> good (a ++ b).
Proof. intros a b A B n I. apply in_app_or in I. destruct I; auto. Qed.

Lemma split_slashes : forall n l, good (n :: l) -> split slash (n ++ slashes l) = n :: l.
Proof.
  intros n l. revert n. induction l as [|m l IH]; intros n G.
  - destruct (good_cons _ _ G) as [A _]. destruct (good_parts n A) as (_ & F & _).
    change (slashes []) with ""%string. rewrite app_empty. apply split_free. exact F.
  - destruct (good_cons _ _ G) as [A B]. destruct (good_parts n A) as (_ & F & _).
    change (slashes (m :: l)) with (String slash (m ++ slashes l)).
    rewrite split_app by exact F. f_equal. apply IH. exact B.
Qed.

Lemma unescape_free : forall n, free_of "~" n = true -> unescape n = Ok n.
Proof.
  induction n as [|c n IH]; [reflexivity|].
  cbn [free_of]. rewrite andb_true_iff, negb_true_iff. intros [A B].
  assert (E : unescape (String c n) = do r' <- unescape n; Ok (String c r')).
  { destruct c as [[] [] [] [] [] [] [] []]; try reflexivity. discriminate A. }
  rewrite E, (IH B). reflexivity.
Qed.
Lemma pointer_good : forall l, good l -> pointer (slashes l) = Ok l.
Proof.
  intros [|n l] G; [reflexivity|].
  change (slashes (n :: l)) with (String slash (n ++ slashes l)).
  unfold pointer. rewrite Ascii.eqb_refl, split_slashes by exact G.
  remember (n :: l) as k. clear Heqk. induction k as [|m k IH]; [reflexivity|].
  destruct (good_cons _ _ G) as [A B]. destruct (good_parts m A) as (_ & _ & F & _).
  cbn [mapM]. rewrite (unescape_free m F). cbn [bind]. rewrite (IH B). reflexivity.
Qed.

Lemma filter_good : forall l, good l -> filter nonempty l = l.
Proof.
  induction l as [|n l IH]; intros G; [reflexivity|].
  destruct (good_cons _ _ G) as [A B]. destruct (good_parts n A) as (E & _).
  cbn [filter]. rewrite E, (IH B). reflexivity.
Qed.
Lemma process_text : forall p, good (path_names p) ->
  processPath (split slash (text p)) =
  (match p with Abs _ => true | Rel _ _ => false end, path_names p).
Proof.
  intros [l|n l] G; cbn [text path_names] in *.
  - destruct l as [|n l]; [reflexivity|].
    change (slashes (n :: l)) with (String slash (n ++ slashes l)).
    cbn [split]. rewrite Ascii.eqb_refl, split_slashes by exact G.
    unfold processPath. cbn [nonempty negb filter]. f_equal. exact (filter_good _ G).
  - rewrite split_slashes by exact G. unfold processPath.
    destruct (good_cons _ _ G) as [A _]. destruct (good_parts n A) as (E & _).
    rewrite E, (filter_good _ G). reflexivity.
Qed.

(** ** Documents *)
Section Doc.
Variable T : Type.
Notation json := (json T).

Lemma look_put : forall n v (f : list (string * json)) m,
  look m (put n v f) = if String.eqb m n then Some v else look m f.
Proof.
  induction f as [|[k w] f IH]; intros m; cbn.
  - destruct (String.eqb m n); reflexivity.
  - destruct (String.eqb_spec n k) as [->|N]; cbn.
    + destruct (String.eqb m k); reflexivity.
    + rewrite IH. destruct (String.eqb_spec m k) as [->|]; [|reflexivity].
      destruct (String.eqb_spec k n); [subst; congruence|reflexivity].
Qed.

Lemma at_key_ext : forall n (g h : json -> res json) j,
  (forall x, g x = h x) -> at_key n g j = at_key n h j.
Proof. intros n g h [] E; cbn; try rewrite E; auto. Qed.
Lemma at_pointer_ext : forall p (g h : json -> res json) j,
  (forall x, g x = h x) -> at_pointer p g j = at_pointer p h j.
Proof.
  induction p as [|n p IH]; intros g h j E; [apply E|].
  cbn [at_pointer]. rewrite (at_key_ext n _ (at_pointer p h) j) by (intros; apply IH; exact E).
  reflexivity.
Qed.
Lemma at_pointer_app : forall p q (g : json -> res json) j,
  at_pointer (p ++ q) g j = at_pointer p (at_pointer q g) j.
Proof.
  induction p as [|n p IH]; intros q g j; [reflexivity|].
  cbn [at_pointer app]. rewrite (at_key_ext n _ (at_pointer p (at_pointer q g)) j) by (intros; apply IH).
  reflexivity.
Qed.
Lemma at_pointer_key : forall p n (g : json -> res json) j, array_token n = false ->
  at_pointer p (at_key n g) j = at_pointer (p ++ [n]) g j.
Proof.
  intros p n g j H. rewrite at_pointer_app. apply at_pointer_ext. intros x.
  cbn [at_pointer]. rewrite H. destruct x; reflexivity.
Qed.

Lemma stored_null : forall x, stored x (@JNull T) = None.
Proof. intros [|]; reflexivity. Qed.
Lemma stored_cons : forall n x (j : json),
  stored (n :: x) j = match j with JObj f => stored x (match look n f with Some v => v | None => JNull end) | _ => None end.
Proof.
  intros n x j. cbn. destruct j; auto. destruct (look n f); auto. symmetry. apply stored_null.
Qed.

(** the places below [n] *)
Definition under (n : string) (t : tree T) : tree T := fun x => t (n :: x).
Lemma blocked_cons : forall (t : tree T) n q,
  blocked t (n :: q) = is_val (t []) || blocked (under n t) q.
Proof.
  intros. unfold blocked. cbn [List.length seq existsb firstn]. f_equal.
  rewrite <- seq_shift. induction (seq 0 (List.length q)) as [|k l IH]; [reflexivity|].
  cbn [map existsb firstn]. rewrite IH. reflexivity.
Qed.
Lemma blocked_ext : forall (t u : tree T) q, (forall x, t x = u x) -> blocked t q = blocked u q.
Proof.
  intros t u q E. unfold blocked. induction (seq 0 (List.length q)); cbn; auto. rewrite E, IHl. reflexivity.
Qed.
Lemma blocked_null : forall q, blocked (fun x => stored x (@JNull T)) q = false.
Proof.
  intros q. unfold blocked. induction (seq 0 (List.length q)) as [|k l IH]; cbn; auto.
  rewrite stored_null, IH. reflexivity.
Qed.

Definition above (q : list string) (inner outer : tree T) : tree T :=
  fun x => if prefix q x then inner (skipn (List.length q) x)
           else if prefix x q then Some Dir else outer x.

(** What storing [new] at [q] does to a document. *)
Lemma at_pointer_spec : forall q new (j : json), good q ->
  if blocked (fun x => stored x j) q then at_pointer q (fun _ => Ok new) j = Abort
  else exists j', at_pointer q (fun _ => Ok new) j = Ok j' /\
       forall x, stored x j' = above q (fun y => stored y new) (fun y => stored y j) x.
Proof.
  induction q as [|n q IH]; intros new j G.
  - cbn. exists new. split; auto.
  - destruct (good_cons _ _ G) as [A B]. destruct (good_parts n A) as (_ & _ & _ & NT).
    rewrite blocked_cons.
    assert (E : forall f, stored (T:=T) [] (JObj f) = Some Dir) by reflexivity.
    assert (K : forall f, (forall v, at_pointer q (fun _ => Ok new)
                   (match look n f with Some w => w | None => JNull end) = v ->
                   at_pointer (n :: q) (fun _ => Ok new) (JObj f) = bind v (fun v => Ok (JObj (put n v f)))))
      by (intros f v <-; reflexivity).
    assert (L : forall f j', (forall x, stored x j' =
                   above q (fun y => stored y new)
                     (fun y => stored y (match look n f with Some w => w | None => JNull end)) x) ->
                 forall x, stored x (JObj (put n j' f)) =
                   above (n :: q) (fun y => stored y new) (fun y => stored y (JObj f)) x).
    { intros f j' H [|m x]; [reflexivity|].
      rewrite stored_cons, look_put. unfold above.
      cbn [prefix List.length skipn]. rewrite (String.eqb_sym n m).
      destruct (String.eqb_spec m n) as [->|N]; cbn [andb].
      - rewrite H. unfold above. rewrite stored_cons. reflexivity.
      - rewrite stored_cons. reflexivity. }
    destruct j as [|z|s|l|l|f]; try reflexivity.
    + cbn [is_val stored orb].
      rewrite (blocked_ext _ (fun x => stored x JNull)) by (intros; unfold under; rewrite !stored_null; reflexivity).
      rewrite blocked_null. specialize (IH new JNull B). rewrite blocked_null in IH.
      destruct IH as (j' & P & Q). exists (JObj [(n, j')]).
      split. { cbn [at_pointer at_key]. rewrite NT, P. reflexivity. }
      intros x. specialize (L [] j'). cbn [look put] in L. rewrite (L Q).
      destruct x as [|m x]; [reflexivity|]. reflexivity.
    + cbn [is_val stored orb].
      rewrite (blocked_ext _ (fun x => stored x (match look n f with Some w => w | None => JNull end)))
        by (intros; unfold under; rewrite stored_cons; reflexivity).
      specialize (IH new (match look n f with Some w => w | None => JNull end) B).
      destruct (blocked _ q).
      * rewrite (K f _ IH). reflexivity.
      * destruct IH as (j' & P & Q). exists (JObj (put n j' f)).
        rewrite (K f _ P). split; [reflexivity|]. apply L. exact Q.
Qed.

Lemma get_app : forall p q (j : json), get (p ++ q) j = bind (get p j) (get q).
Proof.
  induction p as [|n p IH]; intros q j; [reflexivity|].
  cbn [app get]. destruct (key n j); cbn [bind]; auto.
Qed.
Lemma get_stored : forall q (j : json),
  match get q j with
  | Ok v => stored q j = stored [] v
  | Abort => stored q j = None
  | UB => False
  end.
Proof.
  induction q as [|n q IH]; intros j; [reflexivity|].
  cbn [get]. rewrite stored_cons. destruct j as [|z|s|l|l|f]; cbn [key bind]; auto.
  - specialize (IH JNull). rewrite stored_null in IH. exact IH.
  - apply IH.
Qed.
End Doc.

(** ** The refinement *)
Section Refine.
Variable T : Type.

Definition rel (s : ser T) (st : list string * tree T) : Prop :=
  cps s = fst st /\ cP s = slashes (fst st) /\ good (fst st) /\
  forall x, stored x (root s) = snd st x.

Lemma prefix_refl : forall q, prefix q q = true.
Proof. induction q; cbn; auto. rewrite String.eqb_refl. auto. Qed.
Lemma prefix_app : forall q x, prefix q x = true -> x = q ++ skipn (List.length q) x.
Proof.
  induction q as [|a q IH]; intros [|b x] H; cbn in *; auto; try discriminate.
  apply andb_true_iff in H. destruct H as [E H]. apply String.eqb_eq in E. subst. f_equal. auto.
Qed.
Lemma prefix_both : forall q x, prefix q x = true -> (prefix x q = true <-> skipn (List.length q) x = []).
Proof.
  induction q as [|a q IH]; intros x H.
  - destruct x; cbn; split; auto; discriminate.
  - destruct x as [|b x]; [discriminate|]. cbn in H. apply andb_true_iff in H. destruct H as [E H].
    cbn. apply String.eqb_eq in E. subst b. rewrite String.eqb_refl. cbn. apply IH. exact H.
Qed.
Lemma above_place : forall q e (inner outer : tree T),
  (forall y, inner y = match y with [] => Some e | _ => None end) ->
  forall x, above T q inner outer x = place outer q e x.
Proof.
  intros q e inner outer I x. unfold above, place.
  destruct (prefix q x) eqn:P; [|reflexivity].
  rewrite I. pose proof (prefix_both q x P) as B.
  destruct (prefix x q), (skipn (List.length q) x) eqn:S; auto.
  - pose proof (proj1 B eq_refl). discriminate.
  - pose proof (proj2 B eq_refl). discriminate.
Qed.
Lemma stored_leaf : forall v y, stored y (json_of (T:=T) v) = match y with [] => Some (Val v) | _ => None end.
Proof. intros [] [|]; reflexivity. Qed.
Lemma stored_nil_obj : forall y, stored y (@JObj T []) = match y with [] => Some Dir | _ => None end.
Proof. intros [|]; reflexivity. Qed.

Lemma put_at : forall q new e (j : json T) t, good q ->
  (forall y, stored y new = match y with [] => Some e | _ => None end) ->
  (forall x, stored x j = t x) ->
  if blocked t q then at_pointer q (fun _ => Ok new) j = Abort
  else exists j', at_pointer q (fun _ => Ok new) j = Ok j' /\ forall x, stored x j' = place t q e x.
Proof.
  intros q new e j t G I E. pose proof (at_pointer_spec T q new j G) as H.
  rewrite (blocked_ext T t (fun x => stored x j)) by (intros; symmetry; apply E).
  destruct (blocked _ q); [exact H|].
  destruct H as (j' & P & Q). exists j'. split; [exact P|].
  intros x. rewrite Q. rewrite (above_place q e) by exact I.
  unfold place. rewrite E. reflexivity.
Qed.

Lemma resolve_good : forall cur p, good cur -> good (path_names p) -> good (resolve cur p).
Proof. intros cur [l|n l] A B; cbn in *; auto. apply good_app; auto. Qed.

Lemma step_ok : forall s st o, rel s st -> good_op o ->
  match sstep st o with
  | Some (st', a) => exists s', step s o = Ok (s', a) /\ rel s' st' /\ ptr2pth s' = ptr2pth s /\ pth2ssp s' = pth2ssp s
  | None => step s o = Abort
  end.
Proof.
  intros s [cur t] o (C & P & G & V) GO. cbn [fst snd] in *. unfold good_op in GO.
  destruct o as [p|p|n v|k n]; cbn [op_names] in GO; cbn [sstep].
  - (* Create *)
    assert (GR := resolve_good cur p G GO).
    pose proof (put_at (resolve cur p) (JObj []) Dir (root s) t GR (fun y => stored_nil_obj y) V) as H.
    unfold step, CreatePath. rewrite (process_text p GO), constructPath_slashes, P.
    replace (pointer _) with (Ok (resolve cur p)).
    2:{ destruct p as [l|n l]; cbn [path_names resolve] in *; symmetry.
        - apply pointer_good; exact GO.
        - rewrite <- slashes_app. apply pointer_good. exact GR. }
    cbn [bind]. destruct (blocked t (resolve cur p)).
    + rewrite H. reflexivity.
    + destruct H as (j' & E & Q). rewrite E. cbn [bind].
      exists (with_root s j'). split; [reflexivity|]. split; [|split; reflexivity]. split; [exact C|].
      split; [exact P|]. split; [exact G|exact Q].
  - (* GoTo *)
    assert (GR := resolve_good cur p G GO).
    unfold step, GoToPath. rewrite (process_text p GO), C.
    replace (if match p with Abs _ => true | Rel _ _ => false end then path_names p else cur ++ path_names p)
      with (resolve cur p) by (destruct p; reflexivity).
    rewrite constructPath_slashes, (pointer_good _ GR). cbn [bind].
    pose proof (get_stored T (resolve cur p) (root s)) as H. rewrite V in H.
    destruct (get (resolve cur p) (root s)) as [v| |]; cbn [bind].
    + rewrite H. destruct v; cbn [stored is_object assert_ bind]; try reflexivity.
      eexists. split; [reflexivity|]. split; [|split; reflexivity]. split; [reflexivity|]. split; [reflexivity|].
      split; [exact GR|exact V].
    + rewrite H. reflexivity.
    + destruct H.
  - (* Put *)
    assert (N : good_name n = true) by (apply GO; left; reflexivity).
    destruct (good_parts n N) as (_ & _ & _ & NT).
    assert (GR : good (cur ++ [n])) by (apply good_app; [exact G|exact GO]).
    pose proof (put_at (cur ++ [n]) (json_of v) (Val v) (root s) t GR (stored_leaf v) V) as H.
    unfold step, write. rewrite P, (pointer_good _ G). cbn [bind].
    rewrite (at_pointer_key T cur n _ (root s) NT).
    destruct (blocked t (cur ++ [n])).
    + rewrite H. reflexivity.
    + destruct H as (j' & E & Q). rewrite E. cbn [bind].
      exists (with_root s j'). split; [reflexivity|]. split; [|split; reflexivity]. split; [exact C|].
      split; [exact P|]. split; [exact G|exact Q].
  - (* Get *)
    assert (PK : peek s n = get (cur ++ [n]) (root s)).
    { unfold peek. rewrite P, (pointer_good _ G). cbn [bind]. rewrite get_app.
      destruct (get cur (root s)) as [v| |]; cbn [bind]; auto.
      cbn [get]. destruct (key n v); reflexivity. }
    pose proof (get_stored T (cur ++ [n]) (root s)) as H. rewrite V in H. rewrite <- PK in H.
    assert (R : rel s (cur, t)) by (split; [exact C|split; [exact P|split; [exact G|exact V]]]).
    destruct k; unfold step, ReadNum, ReadStr, ReadVec, ReadData;
      (destruct (peek s n) as [v| |]; [|rewrite H; reflexivity|destruct H]);
      rewrite H; destruct v; cbn [stored kind_of kind_eqb bind]; try reflexivity;
      exists s; (split; [reflexivity|split; [exact R|split; reflexivity]]).
Qed.

Theorem run_ok : forall ops s st, rel s st -> (forall o, In o ops -> good_op o) ->
  match srun st ops with
  | Some (st', l) => exists s', run s ops = Ok (s', l) /\ rel s' st' /\ ptr2pth s' = ptr2pth s /\ pth2ssp s' = pth2ssp s
  | None => run s ops = Abort
  end.
Proof.
  induction ops as [|o ops IH]; intros s [cur t] R G; cbn [srun run].
  - exists s. split; [reflexivity|]. split; [exact R|split; reflexivity].
  - pose proof (step_ok s (cur, t) o R (G o (or_introl eq_refl))) as H.
    destruct (sstep (cur, t) o) as [[st' a]|].
    + destruct H as (s' & E & R' & X & Y). rewrite E. cbn [bind fst snd].
      specialize (IH s' st' R' (fun o I => G o (or_intror I))).
      destruct (srun st' ops) as [[st'' l]|].
      * destruct IH as (s'' & E' & R'' & X' & Y'). rewrite E'. cbn [bind fst snd].
        exists s''. split; [reflexivity|]. split; [exact R''|]. split; congruence.
      * rewrite IH. reflexivity.
    + rewrite H. reflexivity.
Qed.
Lemma rel_open : rel open_write ([], empty_tree).
Proof. split; [reflexivity|]. split; [reflexivity|]. split; [intros n []|]. intros x. apply stored_null. Qed.

(** ** Consequences *)
Definition reached (s : ser T) (cur : list string) : Prop :=
  exists ops l t, (forall o, In o ops -> good_op o) /\ run open_write ops = Ok (s, l) /\
    srun ([], empty_tree) ops = Some (cur, t, l).

Lemma reached_rel : forall s cur, reached s cur -> exists t, rel s (cur, t).
Proof.
  intros s cur (ops & l & t & G & E & S).
  pose proof (run_ok ops _ _ rel_open G) as H. rewrite S in H.
  destruct H as (s' & E' & R & _). rewrite E in E'. injection E' as <-. exists t. exact R.
Qed.

Lemma place_self : forall (t : tree T) q e, place t q e q = Some e.
Proof. intros. unfold place. rewrite prefix_refl. reflexivity. Qed.
Lemma rel_ext : forall s cur (t u : tree T), rel s (cur, t) -> (forall x, t x = u x) -> rel s (cur, u).
Proof.
  intros s cur t u (A & B & C & D) E. split; [exact A|]. split; [exact B|]. split; [exact C|].
  intros x. rewrite <- E. apply D.
Qed.

Lemma create_goto : forall s cur t p, rel s (cur, t) -> good (path_names p) ->
  (exists s1 s2, CreatePath s (text p) = Ok s1 /\ GoToPath s1 (text p) = Ok s2 /\
     GetCurrentPath s1 = GetCurrentPath s /\
     GetCurrentPath s2 = slashes (resolve cur p) /\
     rel s2 (resolve cur p, place t (resolve cur p) Dir)) \/
  (blocked t (resolve cur p) = true /\ CreatePath s (text p) = Abort).
Proof.
  intros s cur t p R G.
  pose proof (step_ok s (cur, t) (Create p) R G) as H. cbn [sstep] in H.
  destruct (blocked t (resolve cur p)) eqn:B.
  - right. split; [reflexivity|]. cbn [step] in H. destruct (CreatePath s (text p)); cbn in H; congruence.
  - left. destruct H as (s1 & E1 & R1 & _).
    pose proof (step_ok s1 _ (GoTo p) R1 G) as H. cbn [sstep] in H.
    rewrite place_self in H. destruct H as (s2 & E2 & R2 & _).
    exists s1, s2. cbn [step] in E1, E2.
    destruct (CreatePath s (text p)) as [sa| |]; cbn in E1; try discriminate. injection E1 as ->.
    destruct (GoToPath s1 (text p)) as [sb| |]; cbn in E2; try discriminate. injection E2 as ->.
    split; [reflexivity|]. split; [reflexivity|].
    destruct R as (_ & P & _). destruct R1 as (_ & P1 & _). cbn [fst] in P, P1.
    split. { unfold GetCurrentPath. congruence. }
    split; [|exact R2]. destruct R2 as (_ & P2 & _). exact P2.
Qed.

Lemma goto_same : forall s cur t, rel s (cur, t) -> t cur = Some Dir ->
  exists s', GoToPath s (GetCurrentPath s) = Ok s' /\ s' = s.
Proof.
  intros s cur t R D. pose proof R as (C & P & G & V). cbn [fst snd] in *.
  pose proof (step_ok s (cur, t) (GoTo (Abs cur)) R G) as H. cbn [sstep resolve] in H. rewrite D in H.
  destruct H as (s' & E & R' & X & Y). cbn [step text] in E. unfold GetCurrentPath. rewrite P.
  destruct (GoToPath s (slashes cur)) as [s0| |] eqn:E0; cbn in E; try discriminate. injection E as ->.
  exists s'. split; [reflexivity|].
  unfold GoToPath in E0. change (slashes cur) with (text (Abs cur)) in E0.
  rewrite process_text in E0 by exact G. inv_bind. rewrite <- E0.
  cbn [path_names] in *. rewrite constructPath_slashes. destruct s; cbn in *. congruence.
Qed.

(** Going somewhere and back to the saved path. *)
Lemma goto_back : forall s cur t p s1, rel s (cur, t) -> t cur = Some Dir -> good (path_names p) ->
  GoToPath s (text p) = Ok s1 -> GoToPath s1 (GetCurrentPath s) = Ok s.
Proof.
  intros s cur t p s1 R D G E.
  pose proof (step_ok s (cur, t) (GoTo p) R G) as H. cbn [sstep step] in H. rewrite E in H. cbn [bind] in H.
  destruct (t (resolve cur p)) as [[|v]|] eqn:TR; try discriminate.
  destruct H as (s1' & E1 & R1 & X1 & Y1). injection E1 as <-.
  pose proof R as (C & P & GC & V). cbn [fst snd] in *.
  pose proof (step_ok s1 _ (GoTo (Abs cur)) R1 GC) as H. cbn [sstep resolve] in H. rewrite D in H.
  destruct H as (s2 & E2 & R2 & X2 & Y2). cbn [step text] in E2. unfold GetCurrentPath. rewrite P.
  destruct (GoToPath s1 (slashes cur)) as [s0| |] eqn:E0; cbn in E2; try discriminate. injection E2 as ->.
  f_equal.
  unfold GoToPath in E0. change (slashes cur) with (text (Abs cur)) in E0.
  rewrite process_text in E0 by exact GC. inv_bind. rewrite <- E0.
  unfold GoToPath in E. rewrite process_text in E by exact G. inv_bind. rewrite <- E.
  cbn [path_names cps cP ptr2pth pth2ssp root] in *. rewrite constructPath_slashes. destruct s; cbn in *. congruence.
Qed.

(** A place no operation touches keeps what it holds. *)
Lemma place_elsewhere : forall (t : tree T) q e x, comparable q x = false -> place t q e x = t x.
Proof.
  intros t q e x H. unfold comparable in H. apply orb_false_iff in H. destruct H as [A B].
  unfold place. rewrite A, B. reflexivity.
Qed.
Lemma sstep_keeps : forall st o st' a q, sstep (T:=T) st o = Some (st', a) ->
  touches (fst st) o q = false -> snd st' q = snd st q.
Proof.
  intros [cur t] o [cur' t'] a q S N. cbn [fst snd] in *.
  destruct o as [p|p|n v|k n]; cbn [sstep touches] in *.
  - destruct (blocked t (resolve cur p)); [discriminate|]. injection S as <- <- <-. apply place_elsewhere. exact N.
  - destruct (t (resolve cur p)) as [[|]|]; try discriminate. injection S as <- <- <-. reflexivity.
  - destruct (blocked t (cur ++ [n])); [discriminate|]. injection S as <- <- <-. apply place_elsewhere. exact N.
  - destruct (t (cur ++ [n])) as [[|v]|]; try discriminate.
    destruct (kind_eqb k (kind_of v)); [|discriminate]. injection S as <- <- <-. reflexivity.
Qed.
Lemma sstep_cur : forall st o st' a, sstep (T:=T) st o = Some (st', a) ->
  fst st' = match o with GoTo p => resolve (fst st) p | _ => fst st end.
Proof.
  intros [cur t] o [cur' t'] a S. cbn [fst].
  destruct o as [p|p|n v|k n]; cbn [sstep] in *.
  - destruct (blocked t (resolve cur p)); [discriminate|]. congruence.
  - destruct (t (resolve cur p)) as [[|]|]; congruence.
  - destruct (blocked t (cur ++ [n])); congruence.
  - destruct (t (cur ++ [n])) as [[|v]|]; try discriminate.
    destruct (kind_eqb k (kind_of v)); congruence.
Qed.
Lemma srun_keeps : forall ops st st' l q, srun (T:=T) st ops = Some (st', l) ->
  untouched (fst st) ops q = true -> snd st' q = snd st q.
Proof.
  induction ops as [|o ops IH]; intros st st' l q S U; cbn [srun untouched] in *.
  - injection S as <- _. reflexivity.
  - apply andb_true_iff in U. destruct U as [N U]. apply negb_true_iff in N.
    destruct (sstep st o) as [[st1 a]|] eqn:E; [|discriminate].
    destruct (srun st1 ops) as [[st2 l']|] eqn:E2; [|discriminate]. injection S as <- _.
    rewrite (IH _ _ _ q E2); [exact (sstep_keeps _ _ _ _ _ E N)|].
    rewrite (sstep_cur _ _ _ _ E). exact U.
Qed.

Lemma kind_eqb_refl : forall k, kind_eqb k k = true.
Proof. intros []; reflexivity. Qed.

Lemma stored_ancestor : forall p n x (j : json T), stored (p ++ n :: x) j <> None -> stored p j = Some Dir.
Proof.
  induction p as [|m p IH]; intros n x j H.
  - cbn [app] in H. rewrite stored_cons in H. destruct j; try congruence. reflexivity.
  - cbn [app] in H. rewrite stored_cons in *. destruct j; try congruence. apply (IH n x). exact H.
Qed.

(** Write a value, do anything elsewhere, come back and read it. *)
Lemma write_then_read : forall s cur t n v s1 ops s2 l,
  rel s (cur, t) -> good_name n = true ->
  write s n (json_of v) = Ok s1 ->
  (forall o, In o ops -> good_op o) -> untouched cur ops (cur ++ [n]) = true ->
  run s1 ops = Ok (s2, l) ->
  exists s3, GoToPath s2 (GetCurrentPath s) = Ok s3 /\ GetCurrentPath s3 = GetCurrentPath s /\
    step s3 (Get (kind_of v) n) = Ok (s3, Some v).
Proof.
  intros s cur t n v s1 ops s2 l R N W GO U E.
  assert (GN : good_op (T:=T) (Put n v)) by (intros m [<-|[]]; exact N).
  pose proof (step_ok s (cur, t) (Put n v) R GN) as H. cbn [sstep step] in H. rewrite W in H. cbn [bind] in H.
  destruct (blocked t (cur ++ [n])); [discriminate|].
  destruct H as (s1' & E1 & R1 & _). injection E1 as <-.
  pose proof (run_ok ops s1 _ R1 GO) as H. rewrite E in H.
  destruct (srun (cur, place t (cur ++ [n]) (Val v)) ops) as [[[cur2 t2] l2]|] eqn:S; [|discriminate].
  destruct H as (s2' & E2 & R2 & _). injection E2 as <- <-.
  pose proof (srun_keeps _ _ _ _ (cur ++ [n]) S U) as K. cbn [snd] in K. rewrite place_self in K.
  pose proof R as (_ & P & G & _). pose proof R2 as (_ & _ & _ & V2). cbn [fst snd] in *.
  assert (D : t2 cur = Some Dir).
  { rewrite <- V2. apply (stored_ancestor cur n []). rewrite V2. congruence. }
  pose proof (step_ok s2 _ (GoTo (Abs cur)) R2 G) as H. cbn [sstep resolve] in H. rewrite D in H.
  destruct H as (s3 & E3 & R3 & _). cbn [step text] in E3.
  destruct (GoToPath s2 (slashes cur)) as [s0| |] eqn:E0; cbn in E3; try discriminate. injection E3 as ->.
  exists s3. unfold GetCurrentPath. rewrite P. split; [exact E0|].
  split. { destruct R3 as (_ & P3 & _). exact P3. }
  assert (GK : good_op (T:=T) (Get (kind_of v) n)) by (intros m [<-|[]]; exact N).
  pose proof (step_ok s3 _ (Get (kind_of v) n) R3 GK) as H. cbn [sstep] in H. rewrite K, kind_eqb_refl in H.
  destruct H as (s4 & E4 & _). rewrite E4. f_equal. f_equal.
  clear - E4. destruct (kind_of v); cbn [step] in E4; inv_bind; congruence.
Qed.
End Refine.

Section Statements.
Variable T : Type.
Lemma refines_all : forall ops : list (op T), (forall o, In o ops -> good_op o) ->
  match srun ([], empty_tree) ops with
  | Some (cur, t, l) =>
      exists s, run open_write ops = Ok (s, l) /\ GetCurrentPath s = slashes cur /\
        (forall x, stored x (root s) = t x)
  | None => run open_write ops = Abort
  end.
Proof.
  intros ops G. pose proof (run_ok T ops _ _ (rel_open T) G) as H.
  destruct (srun ([], empty_tree) ops) as [[[cur t] l]|]; [|exact H].
  destruct H as (s & E & (_ & P & _ & V) & _). exists s. split; [exact E|]. split; [exact P|exact V].
Qed.
Lemma reopen_all : forall (ops : list (op T)) s l cur t l' ops2,
  (forall o, In o ops -> good_op o) -> (forall o, In o ops2 -> good_op o) ->
  run open_write ops = Ok (s, l) -> srun ([], empty_tree) ops = Some (cur, t, l') ->
  match srun ([], t) ops2 with
  | Some (cur2, t2, l2) => exists s2, run (open_read (root s)) ops2 = Ok (s2, l2)
  | None => run (open_read (root s)) ops2 = Abort
  end.
Proof.
  intros ops s l cur t l' ops2 G G2 E S.
  pose proof (run_ok T ops _ _ (rel_open T) G) as H. rewrite S, E in H.
  destruct H as (s' & E' & (_ & _ & _ & V) & _). injection E' as <- <-.
  assert (R : rel T (open_read (root s)) ([], t)).
  { split; [reflexivity|]. split; [reflexivity|]. split; [intros n []|exact V]. }
  pose proof (run_ok T ops2 _ _ R G2) as H. destruct (srun ([], t) ops2) as [[[c2 t2] l2]|]; [|exact H].
  destruct H as (s2 & E2 & _). exists s2. exact E2.
Qed.
Lemma from_runs : forall (ops : list (op T)) s l cur t l',
  (forall o, In o ops -> good_op o) ->
  run open_write ops = Ok (s, l) -> srun ([], empty_tree) ops = Some (cur, t, l') -> rel T s (cur, t).
Proof.
  intros ops s l cur t l' G E S. pose proof (run_ok T ops _ _ (rel_open T) G) as H. rewrite S, E in H.
  destruct H as (s' & E' & R & _). injection E' as <- <-. exact R.
Qed.
Lemma create_goto_all : forall (ops : list (op T)) s l cur t l' p,
  (forall o, In o ops -> good_op o) -> good (path_names p) ->
  run open_write ops = Ok (s, l) -> srun ([], empty_tree) ops = Some (cur, t, l') ->
  blocked t (resolve cur p) = false ->
  exists s1 s2, CreatePath s (text p) = Ok s1 /\ GetCurrentPath s1 = GetCurrentPath s /\
    GoToPath s1 (text p) = Ok s2 /\ GetCurrentPath s2 = slashes (resolve cur p).
Proof.
  intros ops s l cur t l' p G GP E S B. pose proof (from_runs _ _ _ _ _ _ G E S) as R.
  destruct (create_goto T s cur t p R GP) as [(s1 & s2 & A1 & A2 & A3 & A4 & _)|[C _]]; [|congruence].
  exists s1, s2. split; [exact A1|]. split; [exact A3|]. split; [exact A2|exact A4].
Qed.
Lemma goto_current_all : forall (ops : list (op T)) s l cur t l',
  (forall o, In o ops -> good_op o) ->
  run open_write ops = Ok (s, l) -> srun ([], empty_tree) ops = Some (cur, t, l') ->
  t cur = Some Dir -> GoToPath s (GetCurrentPath s) = Ok s.
Proof.
  intros ops s l cur t l' G E S D. pose proof (from_runs _ _ _ _ _ _ G E S) as R.
  destruct (goto_same T s cur t R D) as (s' & A & ->). exact A.
Qed.
Lemma goto_back_all : forall (ops : list (op T)) s l cur t l' p s1,
  (forall o, In o ops -> good_op o) -> good (path_names p) ->
  run open_write ops = Ok (s, l) -> srun ([], empty_tree) ops = Some (cur, t, l') ->
  t cur = Some Dir -> GoToPath s (text p) = Ok s1 -> GoToPath s1 (GetCurrentPath s) = Ok s.
Proof.
  intros ops s l cur t l' p s1 G GP E S D A. pose proof (from_runs _ _ _ _ _ _ G E S) as R.
  exact (goto_back T s cur t p s1 R D GP A).
Qed.
Lemma write_read_all : forall (ops : list (op T)) s l cur t l' n v s1 ops2 s2 l2,
  (forall o, In o ops -> good_op o) -> (forall o, In o ops2 -> good_op o) -> good_name n = true ->
  run open_write ops = Ok (s, l) -> srun ([], empty_tree) ops = Some (cur, t, l') ->
  write s n (json_of v) = Ok s1 ->
  untouched cur ops2 (cur ++ [n]) = true ->
  run s1 ops2 = Ok (s2, l2) ->
  exists s3, GoToPath s2 (GetCurrentPath s) = Ok s3 /\ GetCurrentPath s3 = GetCurrentPath s /\
    step s3 (Get (kind_of v) n) = Ok (s3, Some v).
Proof.
  intros ops s l cur t l' n v s1 ops2 s2 l2 G G2 N E S W U E2. pose proof (from_runs _ _ _ _ _ _ G E S) as R.
  exact (write_then_read T s cur t n v s1 ops2 s2 l2 R N W G2 U E2).
Qed.
Lemma tilde : exists n : string, n <> ""%string /\ free_of "/" n = true /\
  CreatePath (@open_write T) n = Abort.
Proof. exists "~"%string. split; [discriminate|]. split; reflexivity. Qed.
End Statements.
