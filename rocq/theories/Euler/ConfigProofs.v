(** Patching, pointing and overwriting. *)

From Coq Require Import List ZArith Bool String Ascii Lia DecimalString.
From Verif Require Import Base.Prelude Base.PreludeFacts Euler.ConfigModel Euler.ConfigSpec.
Import ListNotations.
Local Open Scope string_scope.

(** ** Members *)

Lemma find_put_same : forall k v l, find k (put k v l) = Some v.
Proof.
  induction l as [|[x w] l IH]; cbn [put find]; [now rewrite String.eqb_refl|].
  destruct (x =? k) eqn:E; cbn [find]; rewrite E; auto.
Qed.

Lemma find_put_other : forall k k' v l, k <> k' -> find k' (put k v l) = find k' l.
Proof.
  intros k k' v l N. induction l as [|[x w] l IH]; cbn [put find].
  - now rewrite (proj2 (String.eqb_neq k k') N).
  - destruct (String.eqb_spec x k) as [->|]; cbn [find].
    + now rewrite (proj2 (String.eqb_neq k k') N).
    + now rewrite IH.
Qed.

Lemma find_erase_same : forall k l, find k (erase k l) = None.
Proof.
  induction l as [|[x w] l IH]; [reflexivity|]. unfold erase in *. cbn [filter fst].
  destruct (x =? k) eqn:E; cbn [negb]; [exact IH|]. cbn [find]. now rewrite E.
Qed.

Lemma find_erase_other : forall k k' l, k <> k' -> find k' (erase k l) = find k' l.
Proof.
  intros k k' l N. induction l as [|[x w] l IH]; [reflexivity|]. unfold erase in *. cbn [filter fst find].
  destruct (String.eqb_spec x k) as [->|]; cbn [negb].
  - rewrite (proj2 (String.eqb_neq k k') N). exact IH.
  - cbn [find]. now rewrite IH.
Qed.

Lemma find_in : forall l k v, NoDup (map fst l) -> In (k, v) l -> find k l = Some v.
Proof.
  induction l as [|[x w] l IH]; intros k v D I; [destruct I|]. cbn [map fst] in D. inversion D as [|a b Nx Dl]. subst.
  cbn [find]. destruct I as [E|I].
  - injection E as -> ->. now rewrite String.eqb_refl.
  - destruct (String.eqb_spec x k) as [->|]; [|now apply IH]. elim Nx. apply in_map_iff. now exists (k, v).
Qed.

Lemma find_out : forall l k, ~ In k (map fst l) -> find k l = None.
Proof.
  induction l as [|[x w] l IH]; intros k N; [reflexivity|]. cbn [find map fst] in *.
  destruct (String.eqb_spec x k) as [->|]; [elim N; now left | apply IH; intros I; apply N; now right].
Qed.

(** ** Patching *)

Fixpoint goes (l m : list (string * json)) : list (string * json) :=
  match l with
  | [] => m
  | (k, v) :: l => goes l (if null v then erase k m else put k (merge v (member k m)) m)
  end.

Lemma merge_obj : forall l j, merge (Obj l) j = Obj (goes l (members j)).
Proof. reflexivity. Qed.

Lemma goes_out : forall l m k, ~ In k (map fst l) -> find k (goes l m) = find k m.
Proof.
  induction l as [|[x v] l IH]; intros m k N; [reflexivity|]. cbn [goes map fst] in *.
  rewrite IH by (intros I; apply N; now right).
  assert (X : x <> k) by (intros ->; apply N; now left).
  destruct (null v); [now apply find_erase_other | now apply find_put_other].
Qed.

Lemma goes_in : forall l m k v, NoDup (map fst l) -> In (k, v) l ->
  find k (goes l m) = if null v then None else Some (merge v (member k m)).
Proof.
  induction l as [|[x w] l IH]; intros m k v D I; [destruct I|]. cbn [goes map fst] in *.
  inversion D as [|a b Nx Dl]. subst. destruct I as [E|I].
  - injection E as -> ->. rewrite goes_out by exact Nx. destruct (null v); [apply find_erase_same | apply find_put_same].
  - rewrite (IH _ k v Dl I). assert (X : x <> k) by (intros ->; apply Nx, in_map_iff; now exists (k, v)).
    destruct (null v); [reflexivity|]. f_equal. f_equal. unfold member.
    destruct (null w); [now rewrite find_erase_other | now rewrite find_put_other].
Qed.

Lemma gives_null : forall u p v, gives u p v -> null u = false.
Proof. intros u p v G. destruct G; [assumption | reflexivity]. Qed.

Lemma silent_null : forall u p, silent u p -> null u = false.
Proof. intros u p S. destruct S; reflexivity. Qed.

Lemma removes_null : forall u p, removes u p -> null u = false.
Proof. intros u p S. destruct S; reflexivity. Qed.

Lemma user_ok : forall u p v, wf u -> gives u p v -> forall j, at_path (merge u j) p = Some v.
Proof.
  intros u p v W G. induction G as [v N O | l k u p v I G IH]; intros j.
  - destruct v; try discriminate; reflexivity.
  - inversion W as [| | |l' D A]. subst. rewrite merge_obj. cbn [at_path]. rewrite (goes_in l _ k u D I).
    rewrite (gives_null _ _ _ G). apply IH. now apply (A k).
Qed.

Lemma at_nil : forall k p, at_path Null (k :: p) = None.
Proof. reflexivity. Qed.

(** What is no object has no members. *)
Lemma at_members : forall j k p, isArr j = false -> at_path j (k :: p) = match find k (members j) with Some v => at_path v p | None => None end.
Proof. intros [| | |l] k p N; try reflexivity. discriminate. Qed.

Lemma at_none_member : forall l k p, p <> [] -> match find k l with Some v => at_path v p | None => None end = at_path (member k l) p.
Proof. intros l k p N. unfold member. destruct (find k l); [reflexivity|]. destruct p; [contradiction | reflexivity]. Qed.

Lemma silent_nonempty : forall u p, silent u p -> p <> [].
Proof. intros u p S. destruct S; discriminate. Qed.

Lemma default_ok : forall u p, wf u -> silent u p -> forall j, plainly j p -> at_path (merge u j) p = at_path j p.
Proof.
  intros u p W S. induction S as [l k p N | l k u p I S IH]; intros j P; inversion P as [|j' k' p' A Q]; subst;
    rewrite merge_obj, (at_members j k p A); cbn [at_path].
  - now rewrite goes_out.
  - inversion W as [| | |l' D B]. subst. rewrite (goes_in l _ k u D I), (silent_null _ _ S).
    rewrite (IH (B k u I) _ Q). symmetry. apply at_none_member. exact (silent_nonempty _ _ S).
Qed.

Lemma removed_ok : forall u p, wf u -> removes u p -> forall j, at_path (merge u j) p = None.
Proof.
  intros u p W S. induction S as [l k p I | l k u p I S IH]; intros j; inversion W as [| | |l' D B]; subst;
    rewrite merge_obj; cbn [at_path].
  - now rewrite (goes_in l _ k Null D I).
  - rewrite (goes_in l _ k u D I), (removes_null _ _ S). apply IH. exact (B k u I).
Qed.

(** ** Pointers *)

Lemma rev_s_app : forall s a b, rev_s s (a ++ b) = rev_s s a ++ b.
Proof. induction s as [|c s IH]; intros a b; cbn [rev_s]; [reflexivity | now rewrite <- IH]. Qed.

Lemma rev_rev_s : forall s acc, rev_s (rev_s s acc) "" = rev_s acc s.
Proof. induction s as [|c s IH]; intros acc; cbn [rev_s]; [reflexivity | now rewrite IH]. Qed.

Lemma tokens_char : forall a t rest cur, tokens (escape (String a t) ++ rest) cur = tokens (escape t ++ rest) (String a cur).
Proof. intros [[] [] [] [] [] [] [] []] t rest cur; reflexivity. Qed.

Lemma tokens_escape : forall t rest cur, tokens (escape t ++ rest) cur = tokens rest (rev_s t cur).
Proof. induction t as [|a t IH]; intros rest cur; [reflexivity|]. rewrite tokens_char, IH. reflexivity. Qed.

Lemma tokens_spell : forall p t, tokens (escape t ++ spell p) "" = Ok (t :: p).
Proof.
  induction p as [|x p IH]; intros t; rewrite tokens_escape.
  - cbn. now rewrite rev_rev_s.
  - change (spell (x :: p)) with (String "/" (escape x ++ spell p)). cbn [tokens]. rewrite IH. cbn [bind].
    now rewrite rev_rev_s.
Qed.

Lemma pointer_spell : forall p, pointer (spell p) = Ok p.
Proof. intros [|t p]; [reflexivity | exact (tokens_spell p t)]. Qed.

(** ** Overwriting *)

Lemma index_inj : forall t t' i, index t = Ok i -> index t' = Ok i -> t = t'.
Proof.
  unfold index. intros t t' i A B.
  destruct (NilZero.uint_of_string t) as [d|]; [|discriminate]. destruct (NilZero.uint_of_string t') as [d'|]; [|discriminate].
  destruct (String.eqb_spec (digits (Nat.of_uint d)) t) as [E|]; [|discriminate].
  destruct (String.eqb_spec (digits (Nat.of_uint d')) t') as [E'|]; [|discriminate].
  injection A as A. injection B as B. rewrite <- E, <- E'. congruence.
Qed.

Lemma padded_length : forall l n, List.length (padded l n) = Nat.max (List.length l) n.
Proof. intros l n. unfold padded. rewrite app_length, repeat_length. lia. Qed.

Lemma padded_nth : forall l n i x, nth_error l i = Some x -> nth_error (padded l n) i = Some x.
Proof.
  intros l n i x E. unfold padded. rewrite nth_error_app1; [exact E|]. apply nth_error_Some. congruence.
Qed.

Lemma poke_there : forall ts j v j', poke j ts v = Ok j' -> ~ In "-" ts -> at_path j' ts = Some v.
Proof.
  induction ts as [|t ts IH]; intros j v j' E N; cbn [poke] in E; [injection E as <-; reflexivity|].
  assert (N' : ~ In "-" ts) by (intros I; apply N; now right).
  destruct (opened t j) as [|s|l|l]; try discriminate.
  - destruct (String.eqb_spec t "-") as [->|_]; [elim N; now left|].
    destruct (index t) as [i| |] eqn:X; cbn [bind] in E; try discriminate.
    destruct (poke (nth i (padded l (S i)) Null) ts v) as [x| |] eqn:P; cbn [bind] in E; try discriminate.
    injection E as <-. cbn [at_path]. rewrite X, nth_error_upd_same by (rewrite padded_length; lia).
    exact (IH _ _ _ P N').
  - destruct (poke (member t l) ts v) as [x| |] eqn:P; cbn [bind] in E; try discriminate. injection E as <-.
    cbn [at_path]. rewrite find_put_same. exact (IH _ _ _ P N').
Qed.

Lemma apart_cons : forall t p q, apart (t :: p) (t :: q) -> apart p q.
Proof.
  intros t p q [A B]. split; intros r E.
  - apply (A r). now rewrite E.
  - apply (B r). now rewrite E.
Qed.

Lemma poke_apart : forall ts j v j' q x, poke j ts v = Ok j' -> at_path j q = Some x -> apart ts q -> at_path j' q = Some x.
Proof.
  induction ts as [|t ts IH]; intros j v j' q x E Q A; [destruct A as [A _]; now elim (A q)|].
  destruct q as [|t' q]; [destruct A as [_ A]; now elim (A (t :: ts))|].
  cbn [poke] in E. assert (O : opened t j = j) by (destruct j; [discriminate | reflexivity ..]). rewrite O in E.
  destruct j as [|s|l|l]; try discriminate; cbn [at_path] in Q.
  - destruct (index t') as [i'| |] eqn:X'; try discriminate.
    destruct (nth_error l i') as [y|] eqn:Y; [|discriminate].
    assert (Y' : (i' < List.length l)%nat) by (apply nth_error_Some; congruence).
    assert (K : exists i z, (i = i' -> t = t') /\ poke (nth i (padded l (S i)) Null) ts v = Ok z /\ j' = Arr (upd i z (padded l (S i)))).
    { destruct (t =? "-") eqn:D.
      - cbn [bind] in E. destruct (poke (nth (List.length l) (padded l (S (List.length l))) Null) ts v) as [z| |] eqn:P; cbn [bind] in E; try discriminate.
        injection E as <-. exists (List.length l), z. split; [lia|]. auto.
      - destruct (index t) as [i| |] eqn:X; cbn [bind] in E; try discriminate.
        destruct (poke (nth i (padded l (S i)) Null) ts v) as [z| |] eqn:P; cbn [bind] in E; try discriminate.
        injection E as <-. exists i, z. split; [|auto]. intros ->. exact (index_inj _ _ _ X X'). }
    destruct K as (i & z & J & P & ->). cbn [at_path]. rewrite X'.
    destruct (Nat.eq_dec i i') as [->|N].
    + specialize (J eq_refl). subst t'. rewrite nth_error_upd_same by (rewrite padded_length; lia).
      apply (IH _ _ _ q x P); [|now apply apart_cons in A].
      rewrite (nth_error_nth _ _ Null (padded_nth _ (S i') _ _ Y)). exact Q.
    + rewrite nth_error_upd_other by exact N. now rewrite (padded_nth _ _ _ _ Y).
  - destruct (poke (member t l) ts v) as [z| |] eqn:P; cbn [bind] in E; try discriminate. injection E as <-. cbn [at_path].
    destruct (string_dec t t') as [<-|N].
    + rewrite find_put_same. destruct (find t l) as [y|] eqn:Y; [|discriminate].
      apply (IH _ _ _ q x P); [|now apply apart_cons in A]. unfold member. now rewrite Y.
    + now rewrite find_put_other.
Qed.

Lemma overwrite_spelled : forall j p v, overwrite j (spell p, Some v) = poke j p v.
Proof. intros. unfold overwrite. cbn [fst snd]. now rewrite pointer_spell. Qed.

Lemma combine_spelled : forall os, combine (spelled os) (given os) = map (fun o => (spell (fst o), Some (snd o))) os.
Proof. induction os as [|o os IH]; [reflexivity|]. cbn [spelled given map combine]. f_equal. exact IH. Qed.

Lemma overwrites_apart : forall os j j' q x, foldM overwrite j (map (fun o => (spell (fst o), Some (snd o))) os) = Ok j' ->
  at_path j q = Some x -> (forall o, In o os -> apart (fst o) q) -> at_path j' q = Some x.
Proof.
  induction os as [|o os IH]; intros j j' q x E Q A; cbn [map foldM] in E; [congruence|].
  rewrite overwrite_spelled in E. destruct (poke j (fst o) (snd o)) as [j1| |] eqn:P; cbn [bind] in E; try discriminate.
  apply (IH _ _ _ _ E); [|intros o' I; apply A; now right].
  apply (poke_apart _ _ _ _ _ _ P Q). apply A. now left.
Qed.

Lemma foldM_app : forall A S (f : S -> A -> res S) l r s,
  foldM f s (app l r) = do s' <- foldM f s l; foldM f s' r.
Proof.
  induction l as [|x l IH]; intros r s; [reflexivity|]. cbn [app foldM]. destruct (f s x); cbn [bind]; auto.
Qed.

Lemma overwrites_last : forall a p v b j j', foldM overwrite j (map (fun o => (spell (fst o), Some (snd o))) (app a ((p, v) :: b))) = Ok j' ->
  ~ In "-" p -> (forall o, In o b -> apart (fst o) p) -> at_path j' p = Some v.
Proof.
  intros a p v b j j' E N A. rewrite map_app, foldM_app in E.
  destruct (foldM overwrite j (map _ a)) as [j1| |]; cbn [bind] in E; try discriminate. cbn [map foldM fst snd] in E.
  rewrite overwrite_spelled in E. destruct (poke j1 p v) as [j2| |] eqn:P; cbn [bind] in E; try discriminate.
  apply (overwrites_apart _ _ _ _ _ E); [|exact A]. exact (poke_there _ _ _ _ P N).
Qed.

(** ** Reading *)

Lemma mapM_all : forall A B (f : A -> res B) l ys, mapM f l = Ok ys -> forall x, In x l -> exists y, f x = Ok y.
Proof.
  induction l as [|a l IH]; intros ys E x I; [destruct I|]. cbn [mapM] in E.
  destruct (f a) as [y| |] eqn:Y; cbn [bind] in E; try discriminate.
  destruct (mapM f l) as [ys'| |] eqn:R; cbn [bind] in E; try discriminate.
  destruct I as [<-|I]; [now exists y | exact (IH _ eq_refl x I)].
Qed.

Lemma at__path : forall j k v p, at_ j k = Ok v -> at_path j (k :: p) = at_path v p.
Proof.
  intros [| | |l] k v p E; try discriminate. cbn [at_ at_path] in *. destruct (find k l); [|discriminate]. congruence.
Qed.

Lemma configured : forall req d u ks vs j, configure req d u ks vs = Ok j ->
  foldM overwrite (match u with Some u => merge u d | None => d end) (combine ks vs) = Ok j
  /\ readAll req j = Ok tt /\ List.length ks = List.length vs.
Proof.
  intros req d u ks vs j E. unfold configure in E.
  destruct (List.length ks =? List.length vs)%nat eqn:L; cbn [assert_ bind] in E; [|discriminate].
  destruct (foldM _ _ _) as [j1| |]; cbn [bind] in E; try discriminate.
  destruct (readAll req j1) as [[]| |] eqn:R; cbn [bind] in E; try discriminate. injection E as <-.
  repeat split; auto. now apply Nat.eqb_eq.
Qed.

Lemma complete_ok : forall req d u ks vs j, configure req d u ks vs = Ok j -> complete req j.
Proof.
  intros req d u ks vs j E s fs f I J. destruct (configured _ _ _ _ _ _ E) as (_ & R & _). unfold readAll in R.
  destruct (mapM (readSection j) req) as [y| |] eqn:M; cbn [bind] in R; try discriminate. clear R.
  destruct (mapM_all _ _ _ _ _ M (s, fs) I) as [u' X]. unfold readSection in X. cbn [fst snd] in X.
  destruct (at_ j s) as [x| |] eqn:Y; cbn [bind] in X; try discriminate.
  destruct (mapM (at_ x) fs) as [zs| |] eqn:Z; cbn [bind] in X; try discriminate.
  destruct (mapM_all _ _ _ _ _ Z f J) as [w W]. exists w.
  rewrite (at__path _ _ _ _ Y). exact (at__path _ _ _ [] W).
Qed.

(** ** The settings in effect *)

Lemma effect_overwrite : forall req d u a p v b j,
  configure req d u (spelled (app a ((p, v) :: b))) (given (app a ((p, v) :: b))) = Ok j ->
  ~ In "-" p -> (forall o, In o b -> apart (fst o) p) -> at_path j p = Some v.
Proof.
  intros req d u a p v b j E. destruct (configured _ _ _ _ _ _ E) as (F & _). rewrite combine_spelled in F.
  now apply (overwrites_last _ _ _ _ _ _ F).
Qed.

Lemma effect_user : forall req d u os p v j, wf u -> gives u p v ->
  configure req d (Some u) (spelled os) (given os) = Ok j -> (forall o, In o os -> apart (fst o) p) ->
  at_path j p = Some v.
Proof.
  intros req d u os p v j W G E A. destruct (configured _ _ _ _ _ _ E) as (F & _). rewrite combine_spelled in F.
  apply (overwrites_apart _ _ _ _ _ F); [|exact A]. now apply user_ok.
Qed.

Lemma effect_default : forall req d u os p v j, wf u -> silent u p -> plainly d p -> at_path d p = Some v ->
  configure req d (Some u) (spelled os) (given os) = Ok j -> (forall o, In o os -> apart (fst o) p) ->
  at_path j p = Some v.
Proof.
  intros req d u os p v j W G P D E A. destruct (configured _ _ _ _ _ _ E) as (F & _). rewrite combine_spelled in F.
  apply (overwrites_apart _ _ _ _ _ F); [|exact A]. now rewrite default_ok.
Qed.

Lemma effect_none : forall req d os p v j, at_path d p = Some v ->
  configure req d None (spelled os) (given os) = Ok j -> (forall o, In o os -> apart (fst o) p) ->
  at_path j p = Some v.
Proof.
  intros req d os p v j D E A. destruct (configured _ _ _ _ _ _ E) as (F & _). rewrite combine_spelled in F.
  now apply (overwrites_apart _ _ _ _ _ F).
Qed.

Lemma effect_removed : forall req d u s fs f, wf u -> removes u [s; f] -> In (s, fs) req -> In f fs ->
  forall j, configure req d (Some u) [] [] <> Ok j.
Proof.
  intros req d u s fs f W R I J j E. pose proof (complete_ok _ _ _ _ _ _ E s fs f I J) as [v V].
  destruct (configured _ _ _ _ _ _ E) as (F & _). cbn in F. injection F as <-.
  rewrite (removed_ok u _ W R d) in V. discriminate.
Qed.

(** ** Settings that are accepted *)

Lemma obj_path : forall j k, isObj j = true -> at_path j [k] = find k (members j).
Proof. intros [| | |l] k O; try discriminate. cbn [at_path members]. now destruct (find k l). Qed.

Lemma path_at_ : forall j k v, isObj j = true -> at_path j [k] = Some v -> at_ j k = Ok v.
Proof. intros [| | |l] k v O E; try discriminate. cbn [at_path at_] in *. destruct (find k l); congruence. Qed.

Lemma mapM_ok : forall A B (f : A -> res B) l, (forall x, In x l -> exists y, f x = Ok y) -> exists ys, mapM f l = Ok ys.
Proof.
  induction l as [|a l IH]; intros H; [now exists []|]. destruct (H a (or_introl eq_refl)) as [y Y].
  destruct IH as [ys E]; [intros x I; apply H; now right|]. exists (y :: ys). cbn [mapM]. rewrite Y. cbn [bind]. now rewrite E.
Qed.

Lemma ready_read : forall req j, ready req j -> readAll req j = Ok tt.
Proof.
  intros req j (O & S & (e & E & Eo) & (v & V & Vo) & (b & B & Bo)). unfold readAll.
  destruct (mapM_ok _ _ (readSection j) req) as [ys M].
  { intros [s fs] I. destruct (S s fs I) as (x & X & Xo & Xf). unfold readSection. cbn [fst snd].
    rewrite (path_at_ _ _ _ O X). cbn [bind].
    destruct (mapM_ok _ _ (at_ x) fs) as [zs Z]; [|rewrite Z; cbn [bind]; now exists tt].
    intros f J. destruct (Xf f J) as [w W]. exists w. apply path_at_; [|exact W]. apply Xo. intros ->. destruct J. }
  rewrite M. cbn [bind]. rewrite (path_at_ _ _ _ O E), (path_at_ _ _ _ O V), (path_at_ _ _ _ O B). cbn [bind].
  rewrite Eo, Vo, Bo. reflexivity.
Qed.

Lemma poke_exists : forall ts j v x, at_path j ts = Some x -> exists j', poke j ts v = Ok j'.
Proof.
  induction ts as [|t ts IH]; intros j v x E; [now exists v|]. cbn [poke].
  assert (O : opened t j = j) by (destruct j; [discriminate | reflexivity ..]). rewrite O.
  destruct j as [|s|l|l]; try discriminate; cbn [at_path] in E.
  - destruct (String.eqb_spec t "-") as [->|_]; [discriminate|]. destruct (index t) as [i| |] eqn:X; try discriminate.
    cbn [bind]. destruct (nth_error l i) as [y|] eqn:Y; [|discriminate]. destruct (IH y v x E) as [j' P].
    rewrite (nth_error_nth _ _ Null (padded_nth _ (S i) _ _ Y)), P. cbn [bind]. now eexists.
  - destruct (find t l) as [y|] eqn:Y; [|discriminate]. destruct (IH y v x E) as [j' P].
    unfold member. rewrite Y, P. cbn [bind]. now eexists.
Qed.

Lemma poke_kind : forall t ts j v j', null j = false -> poke j (t :: ts) v = Ok j' -> isObj j' = isObj j /\ isArr j' = isArr j.
Proof.
  intros t ts j v j' N E. cbn [poke] in E. assert (O : opened t j = j) by (unfold opened; now rewrite N). rewrite O in E.
  destruct j as [|s|l|l]; try discriminate.
  - destruct (if t =? "-" then Ok (List.length l) else index t) as [i| |]; cbn [bind] in E; try discriminate.
    destruct (poke _ ts v); cbn [bind] in E; try discriminate. injection E as <-. auto.
  - destruct (poke _ ts v); cbn [bind] in E; try discriminate. injection E as <-. auto.
Qed.

Lemma poke_field : forall t ts j v j' f w, isObj j = true -> poke j (t :: ts) v = Ok j' -> at_path j [f] = Some w ->
  exists w', at_path j' [f] = Some w'.
Proof.
  intros t ts [| | |l] v j' f w O E W; try discriminate. cbn [poke opened null] in E.
  destruct (poke (member t l) ts v) as [z| |]; cbn [bind] in E; try discriminate. injection E as <-.
  rewrite obj_path in W |- * by reflexivity. cbn [members] in *. destruct (string_dec t f) as [<-|N].
  - exists z. apply find_put_same.
  - exists w. now rewrite find_put_other.
Qed.

Lemma poke_section : forall s0 t0 ts j v j' y s x, isObj j = true -> poke j (s0 :: t0 :: ts) v = Ok j' ->
  at_path j (s0 :: t0 :: ts) = Some y -> at_path j [s] = Some x ->
  exists x', at_path j' [s] = Some x' /\ isObj x' = isObj x /\ isArr x' = isArr x
    /\ (isObj x = true -> forall f w, at_path x [f] = Some w -> exists w', at_path x' [f] = Some w').
Proof.
  intros s0 t0 ts [| | |l] v j' y s x O E Y X; try discriminate.
  change (poke (Obj l) (s0 :: t0 :: ts) v) with (do z <- poke (member s0 l) (t0 :: ts) v; Ok (Obj (put s0 z l))) in E.
  destruct (poke (member s0 l) (t0 :: ts) v) as [z| |] eqn:P; cbn [bind] in E; try discriminate. injection E as <-.
  rewrite obj_path in X |- * by reflexivity. cbn [members] in *. destruct (string_dec s0 s) as [<-|N].
  - exists z. rewrite find_put_same. split; [reflexivity|]. unfold member in P. rewrite X in P.
    change (at_path (Obj l) (s0 :: t0 :: ts)) with (match find s0 l with Some v => at_path v (t0 :: ts) | None => None end) in Y.
    rewrite X in Y. assert (Nx : null x = false) by (destruct x; [discriminate | reflexivity ..]).
    destruct (poke_kind _ _ _ _ _ Nx P) as [K1 K2]. split; [exact K1|]. split; [exact K2|].
    intros Ox f w W. exact (poke_field _ _ _ _ _ f w Ox P W).
  - exists x. rewrite find_put_other by exact N. split; [exact X|]. split; [reflexivity|]. split; [reflexivity|].
    intros _ f w W. now exists w.
Qed.

Lemma poke_ready : forall req s0 t0 ts j v j' y, ready req j -> poke j (s0 :: t0 :: ts) v = Ok j' ->
  at_path j (s0 :: t0 :: ts) = Some y -> ready req j'.
Proof.
  intros req s0 t0 ts j v j' y (O & S & (e & E & Eo) & (w & W & Wo) & (b & B & Bo)) P Y.
  assert (N : null j = false) by (destruct j; [discriminate | reflexivity ..]).
  assert (K : forall s x, at_path j [s] = Some x -> exists x', at_path j' [s] = Some x' /\ isObj x' = isObj x /\ isArr x' = isArr x
    /\ (isObj x = true -> forall f w, at_path x [f] = Some w -> exists w', at_path x' [f] = Some w'))
    by (intros s x X; exact (poke_section _ _ _ _ _ _ _ _ _ O P Y X)).
  destruct (poke_kind _ _ _ _ _ N P) as [K1 _]. split; [now rewrite K1|]. split.
  - intros s fs I. destruct (S s fs I) as (x & X & Xo & Xf). destruct (K s x X) as (x' & X' & A & _ & C).
    exists x'. split; [exact X'|]. split; [intros F; rewrite A; now apply Xo|].
    intros f J. destruct (Xf f J) as [u U]. apply (C (Xo ltac:(intros ->; destruct J)) f u U).
  - destruct (K _ _ E) as (e' & E' & A1 & _). destruct (K _ _ W) as (w' & W' & A2 & _). destruct (K _ _ B) as (b' & B' & _ & A3 & _).
    split; [exists e'; split; congruence|]. split; [exists w'; split; congruence | exists b'; split; congruence].
Qed.

Lemma overwrites_ready : forall req os j, ready req j ->
  ForallOrdPairs (fun a b => apart (fst a) (fst b)) os ->
  (forall o, In o os -> (2 <= List.length (fst o))%nat /\ exists y, at_path j (fst o) = Some y) ->
  exists j', foldM overwrite j (map (fun o => (spell (fst o), Some (snd o))) os) = Ok j' /\ ready req j'.
Proof.
  induction os as [|o os IH]; intros j R A H; [now exists j|]. inversion A as [|x y Ao Aos]. subst.
  destruct (H o (or_introl eq_refl)) as [L [y Y]]. cbn [map foldM]. rewrite overwrite_spelled.
  destruct (poke_exists (fst o) j (snd o) y Y) as [j1 P]. rewrite P. cbn [bind].
  destruct (fst o) as [|s0 [|t0 ts]] eqn:F; cbn [List.length] in L; [lia | lia |].
  apply IH; [exact (poke_ready _ _ _ _ _ _ _ _ R P Y) | exact Aos|].
  intros o' I. destruct (H o' (or_intror I)) as [L' [y' Y']]. split; [exact L'|]. exists y'.
  rewrite Forall_forall in Ao. exact (poke_apart _ _ _ _ _ _ P Y' (Ao o' I)).
Qed.

Lemma accepts : forall req d u os, ready req (match u with Some u => merge u d | None => d end) ->
  ForallOrdPairs (fun a b => apart (fst a) (fst b)) os ->
  (forall o, In o os -> (2 <= List.length (fst o))%nat
     /\ exists y, at_path (match u with Some u => merge u d | None => d end) (fst o) = Some y) ->
  exists j, configure req d u (spelled os) (given os) = Ok j.
Proof.
  intros req d u os R A H. destruct (overwrites_ready req os _ R A H) as (j & E & R'). exists j. unfold configure.
  unfold spelled, given at 1. rewrite !map_length, Nat.eqb_refl. cbn [assert_ bind].
  change (map (fun o => spell (fst o)) os) with (spelled os). rewrite combine_spelled, E. cbn [bind].
  rewrite (ready_read req j R'). reflexivity.
Qed.

(** A file that only changes settings leaves the defaults ready. *)
Lemma gentle_ready : forall req d u, wf u -> ready req d -> gentle req u -> ready req (merge u d).
Proof.
  intros req d u W (O & S & (e & E & Eo) & (v & V & Vo) & (b & B & Bo)) (Uo & Us & Ub & Ur).
  destruct u as [| | |l]; try discriminate. inversion W as [| | |l' D A]. subst. destruct d as [| | |m]; try discriminate.
  rewrite merge_obj. cbn [members] in *.
  assert (K : forall s x, find s m = Some x -> s <> "bcSettings" -> (In s (map fst req) \/ s = "eulerSettings" \/ s = "vfvSettings") ->
    exists x', find s (goes l m) = Some x' /\ (isObj x = true -> isObj x' = true)
      /\ (isObj x = true -> forall f w, at_path x [f] = Some w -> (exists w', at_path x' [f] = Some w') \/ removes (Obj l) [s; f])).
  { intros s x X N I. destruct (in_dec string_dec s (map fst l)) as [J|J].
    - apply in_map_iff in J. destruct J as ([s' y] & Es & J). cbn in Es. subst s'.
      destruct (Us s y I N J) as [n ->]. rewrite (goes_in l m s (Obj n) D J). cbn [null].
      eexists. split; [reflexivity|]. rewrite merge_obj. split; [reflexivity|]. intros Ox f w F.
      unfold member. rewrite X. destruct x as [| | |k]; try discriminate. cbn [members].
      rewrite obj_path by reflexivity. cbn [members]. rewrite obj_path in F by reflexivity. cbn [members] in F.
      pose proof (A s (Obj n) J) as Wn. inversion Wn as [| | |n' Dn An]. subst.
      destruct (in_dec string_dec f (map fst n)) as [H|H].
      + apply in_map_iff in H. destruct H as ([f' z] & Ef & H). cbn in Ef. subst f'. rewrite (goes_in n k f z Dn H).
        destruct (null z) eqn:Z; [|left; now eexists]. right. destruct z; try discriminate.
        apply (removes_in l s (Obj n) [f] J). now apply removes_here.
      + left. exists w. now rewrite goes_out.
    - exists x. rewrite goes_out by exact J. split; [exact X|]. split; [auto|]. intros _ f w F. left. now exists w. }
  assert (KB : exists x', find "bcSettings" (goes l m) = Some x' /\ isArr x' = true).
  { rewrite obj_path in B by reflexivity. cbn [members] in B. destruct (in_dec string_dec "bcSettings" (map fst l)) as [J|J].
    - apply in_map_iff in J. destruct J as ([s' y] & Es & J). cbn in Es. subst s'. rewrite (goes_in l m _ y D J).
      pose proof (Ub y J) as Y. destruct y; try discriminate. cbn [null]. eexists. split; [reflexivity | reflexivity].
    - exists b. now rewrite goes_out. }
  rewrite obj_path in E, V by reflexivity. cbn [members] in E, V.
  split; [reflexivity|]. split.
  - intros s fs I. destruct (S s fs I) as (x & X & Xo & Xf). rewrite obj_path in X |- * by reflexivity. cbn [members] in *.
    destruct (string_dec s "bcSettings") as [->|N].
    + destruct KB as (x' & X' & A'). exists x'. split; [exact X'|].
      assert (F : fs = []).
      { destruct fs as [|f fs]; [reflexivity|]. exfalso. specialize (Xo ltac:(discriminate)).
        rewrite obj_path in B by reflexivity. cbn [members] in B. assert (x = b) by congruence. subst. destruct b; discriminate. }
      subst fs. split; [congruence | intros f []].
    + destruct (K s x X N) as (x' & X' & A' & C); [left; apply in_map_iff; now exists (s, fs)|].
      exists x'. split; [exact X'|]. split; [intros F; now apply A', Xo|].
      intros f J. destruct (Xf f J) as [w F]. destruct (C (Xo ltac:(intros ->; destruct J)) f w F) as [G|G]; [exact G|].
      now elim (Ur s fs f I J).
  - destruct (K _ _ E) as (e' & E' & A1 & _); [discriminate | auto|]. destruct (K _ _ V) as (v' & V' & A2 & _); [discriminate | auto|].
    destruct KB as (b' & B' & A3). split; [|split]; [exists e' | exists v' | exists b']; rewrite obj_path by reflexivity; auto.
Qed.
