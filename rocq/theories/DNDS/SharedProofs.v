From Coq Require Import ZArith List Bool String Ascii Arith Lia.
From Verif Require Import Base.Prelude Base.PreludeFacts DNDS.JsonModel DNDS.JsonSpec DNDS.JsonRun
  DNDS.JsonProofs DNDS.SharedModel DNDS.SharedSpec.
Import ListNotations.
Open Scope list_scope.

Section Shared.
Variable T : Type.

Lemma slashes_inj : forall p q, good p -> good q -> slashes p = slashes q -> p = q.
Proof.
  intros p q P Q E. pose proof (pointer_good p P) as A. pose proof (pointer_good q Q) as B.
  rewrite E in A. congruence.
Qed.
Lemma slashes_snoc : forall p n, (slashes p ++ String slash n)%string = slashes (p ++ [n]).
Proof. intros. rewrite slashes_app. cbn. rewrite app_empty. reflexivity. Qed.

Lemma WriteShared_new : forall (s : ser T) cur t n a l,
  rel T s (cur, t) -> good_name n = true -> assoc Nat.eqb a (ptr2pth s) = None ->
  match WriteShared s n a l with
  | Ok s' => rel T s' (cur, place t (cur ++ [n]) (Val (VVec l))) /\
             ptr2pth s' = (a, slashes (cur ++ [n])) :: ptr2pth s
  | Abort => True
  | UB => False
  end.
Proof.
  intros s cur t n a l (C & P & G & V) N A. cbn [fst snd] in *.
  destruct (good_parts n N) as (_ & _ & _ & NT).
  assert (GR : good (cur ++ [n])) by (apply good_app; [exact G|intros m [<-|[]]; exact N]).
  pose proof (put_at T (cur ++ [n]) (JVec l) (Val (VVec l)) (root s) t GR (stored_leaf T (VVec l)) V) as H.
  unfold WriteShared. rewrite P, (pointer_good _ G), A. cbn [bind].
  rewrite (at_pointer_key T cur n _ (root s) NT).
  destruct (blocked t (cur ++ [n])).
  - rewrite H. exact I.
  - destruct H as (j' & E & Q). rewrite E. cbn [bind ptr2pth].
    split; [|rewrite slashes_snoc; reflexivity].
    split; [exact C|]. split; [reflexivity|]. split; [exact G|exact Q].
Qed.
Lemma WriteShared_old : forall (s : ser T) cur t n a l p,
  rel T s (cur, t) -> good_name n = true -> assoc Nat.eqb a (ptr2pth s) = Some p ->
  match WriteShared s n a l with
  | Ok s' => rel T s' (cur, place t ((cur ++ [n]) ++ ["ref"%string]) (Val (VStr p))) /\
             ptr2pth s' = ptr2pth s
  | Abort => True
  | UB => False
  end.
Proof.
  intros s cur t n a l p (C & P & G & V) N A. cbn [fst snd] in *.
  destruct (good_parts n N) as (_ & _ & _ & NT).
  assert (GR : good ((cur ++ [n]) ++ ["ref"%string])).
  { apply good_app; [apply good_app; [exact G|intros m [<-|[]]; exact N]|intros m [<-|[]]; reflexivity]. }
  pose proof (put_at T _ (JStr p) (Val (VStr p)) (root s) t GR (stored_leaf T (VStr p)) V) as H.
  unfold WriteShared. rewrite P, (pointer_good _ G), A. cbn [bind].
  rewrite (at_pointer_key T cur n _ (root s) NT).
  rewrite (at_pointer_key T (cur ++ [n]) "ref" _ (root s)) by reflexivity.
  destruct (blocked t _).
  - rewrite H. exact I.
  - destruct H as (j' & E & Q). rewrite E. cbn [bind].
    split; [|reflexivity]. split; [exact C|]. split; [exact P|]. split; [exact G|exact Q].
Qed.

(** ** What the document holds after the writes *)
Record kept (s : ser T) (t : tree T) (log home : list shared) : Prop := {
  k_ptr : forall a, assoc Nat.eqb a (ptr2pth s) =
          option_map (fun h => slashes (splace h)) (find (fun h => Nat.eqb a (saddr h)) home);
  k_log : forall x, In x log -> good (splace x) /\
          exists h, In h home /\ saddr h = saddr x /\ scont h = scont x /\
            (splace x = splace h \/
             t (splace x) = Some Dir /\ t (splace x ++ ["ref"%string]) = Some (Val (VStr (slashes (splace h)))));
  k_home : forall h, In h home -> In h log /\ t (splace h) = Some (Val (VVec (scont h)));
  k_addr : NoDup (map saddr home);
  k_place : NoDup (map splace log)
}.

Lemma find_addr : forall a home h, NoDup (map saddr home) -> In h home -> saddr h = a ->
  find (fun h => Nat.eqb a (saddr h)) home = Some h.
Proof.
  induction home as [|k home IH]; intros h D I E; [destruct I|].
  cbn [map] in D. inversion D as [|? ? N D' ]; subst. cbn [find].
  destruct (Nat.eqb_spec (saddr h) (saddr k)) as [Q|Q].
  - destruct I as [->|I]; [reflexivity|]. exfalso. apply N. rewrite <- Q. apply in_map. exact I.
  - destruct I as [->|I]; [congruence|]. apply IH; auto.
Qed.

Lemma comparable_refl : forall q, comparable q q = true.
Proof. intros. unfold comparable. rewrite prefix_refl. reflexivity. Qed.
Lemma prefix_trans_app : forall a b x, prefix a (x) = true -> prefix a (x ++ b) = true.
Proof.
  induction a as [|n a IH]; intros b x H; [reflexivity|]. destruct x as [|m x]; [discriminate|].
  cbn in *. apply andb_true_iff in H. destruct H as [-> H]. cbn. apply IH. exact H.
Qed.
Lemma prefix_shorten : forall a x b, prefix (a ++ b) x = true -> prefix a x = true.
Proof.
  induction a as [|n a IH]; intros x b H; [reflexivity|]. destruct x as [|m x]; [discriminate|].
  cbn in *. apply andb_true_iff in H. destruct H as [-> H]. cbn. eapply IH. exact H.
Qed.
Lemma prefix_of_app : forall a x b, prefix a (x ++ b) = true -> prefix a x = true \/ prefix x a = true.
Proof.
  induction a as [|n a IH]; intros x b H; [left; reflexivity|]. destruct x as [|m x]; [right; reflexivity|].
  cbn in *. apply andb_true_iff in H. destruct H as [E H].
  apply String.eqb_eq in E. subst m. rewrite !String.eqb_refl. cbn. eapply IH. exact H.
Qed.
Lemma comparable_below : forall q x b, comparable q x = false -> comparable q (x ++ b) = false.
Proof.
  intros q x b H. unfold comparable in *. apply orb_false_iff in H. destruct H as [A B].
  apply orb_false_iff. split.
  - destruct (prefix q (x ++ b)) eqn:E; [|reflexivity]. destruct (prefix_of_app _ _ _ E); congruence.
  - destruct (prefix (x ++ b) q) eqn:E; [|reflexivity]. apply prefix_shorten in E. congruence.
Qed.
Lemma comparable_sym : forall a b, comparable a b = comparable b a.
Proof. intros. unfold comparable. apply orb_comm. Qed.

(** changes away from all the written places keep everything *)
Lemma kept_elsewhere : forall s s' t t' log home,
  kept s t log home -> ptr2pth s' = ptr2pth s ->
  (forall x, In x log -> forall b, t' (splace x ++ b) = t (splace x ++ b)) ->
  kept s' t' log home.
Proof.
  intros s s' t t' log home K E F.
  assert (F0 : forall x, In x log -> t' (splace x) = t (splace x)).
  { intros x I. rewrite <- (app_nil_r (splace x)). apply F. exact I. }
  destruct K as [A B C D P]. constructor.
  - intros a. rewrite E. apply A.
  - intros x I. destruct (B x I) as (G & h & H1 & H2 & H3 & H4). split; [exact G|].
    exists h. split; [exact H1|]. split; [exact H2|]. split; [exact H3|].
    destruct H4 as [H4|[H4 H5]]; [left; exact H4|right]. rewrite F0, F by exact I. split; assumption.
  - intros h I. destruct (C h I) as [I' Q]. split; [exact I'|]. rewrite F0 by exact I'. exact Q.
  - exact D.
  - exact P.
Qed.

Definition safe (cur : list string) (m : memory) (log home : list shared) (evs : list (event T)) : Prop :=
  (forall x, In x log -> forallb (fun e => negb (ends (saddr x) e)) evs = true /\
                         left_alone cur (splace x) evs = true) /\
  (forall h, In h home -> m (saddr h) = Some (scont h)).

Lemma place_below : forall (t : tree T) q e x b, comparable q x = false -> place t q e (x ++ b) = t (x ++ b).
Proof. intros. apply place_elsewhere. apply comparable_below. assumption. Qed.

Lemma sstep_below : forall st o st' a q b, sstep (T:=T) st o = Some (st', a) ->
  touches (fst st) o q = false -> snd st' (q ++ b) = snd st (q ++ b).
Proof.
  intros st o st' a q b S N. eapply sstep_keeps; [exact S|].
  destruct o; cbn [touches] in *; auto; apply comparable_below; exact N.
Qed.

Lemma kept_run : forall evs s m s' m' cur t log home,
  rel T s (cur, t) -> kept s t log home -> safe cur m log home evs ->
  (forall e, In e evs -> good_event e) -> careful cur evs = true ->
  wrun (s, m) evs = Ok (s', m') ->
  exists cur' t' home', rel T s' (cur', t') /\ kept s' t' (log ++ written cur m evs) home'.
Proof.
  induction evs as [|e evs IH]; intros s m s' m' cur t log home R K [SL SH] G C E.
  - cbn in E. injection E as <- <-. exists cur, t, home. cbn [written]. rewrite app_nil_r. split; assumption.
  - unfold wrun in *. cbn [foldM] in E. apply bind_Ok in E. destruct E as ([s1 m1] & E1 & E).
    cbn [careful] in C. apply andb_true_iff in C. destruct C as [C0 C].
    assert (G1 : forall e, In e evs -> good_event e) by (intros; apply G; right; assumption).
    assert (GE : good_event e) by (apply G; left; reflexivity).
    assert (SL' : forall x, In x log -> ends (saddr x) e = false /\ disturbs cur (splace x) e = false /\
        forallb (fun e => negb (ends (saddr x) e)) evs = true /\ left_alone (goes cur e) (splace x) evs = true).
    { intros x I. destruct (SL x I) as [A B]. cbn [forallb left_alone] in A, B.
      apply andb_true_iff in A. apply andb_true_iff in B. destruct A as [A1 A2], B as [B1 B2].
      rewrite negb_true_iff in A1, B1. auto. }
    assert (HL : forall h, In h home -> In h log) by (intros h I; apply (k_home _ _ _ _ K h I)).
    destruct e as [o|a l|a|a l|n a]; cbn [wstep written goes changes] in *.
    + (* another call *)
      apply bind_Ok in E1. destruct E1 as ([s2 an] & E2 & E1). injection E1 as <- <-. cbn [fst] in *.
      pose proof (step_ok T s (cur, t) o R GE) as H. rewrite E2 in H.
      destruct (sstep (cur, t) o) as [[[cur1 t1] an1]|] eqn:S; [|discriminate].
      destruct H as (s3 & E3 & R1 & X & _). injection E3 as <- <-.
      assert (CU : cur1 = match o with GoTo p => resolve cur p | _ => cur end)
        by (exact (sstep_cur T _ _ _ _ S)).
      rewrite <- CU in *.
      apply (IH s2 m s' m' cur1 t1 log home); auto.
      * apply (kept_elsewhere s s2 t t1); auto.
        intros x I b. destruct (SL' x I) as (_ & D & _). exact (sstep_below _ _ _ _ (splace x) b S D).
      * split; [|exact SH]. intros x I. destruct (SL' x I) as (_ & _ & A & B). split; assumption.
    + destruct (m a) eqn:MA; [discriminate|]. injection E1 as <- <-.
      apply (IH s _ s' m' cur t log home); auto.
      split; [intros x I; destruct (SL' x I) as (_ & _ & A & B); split; assumption|].
      intros h I. unfold mset. destruct (Nat.eqb_spec (saddr h) a); [|apply SH; exact I].
      rewrite <- e in MA. rewrite (SH h I) in MA. discriminate.
    + destruct (m a) eqn:MA; [|discriminate]. injection E1 as <- <-.
      apply (IH s _ s' m' cur t log home); auto.
      split; [intros x I; destruct (SL' x I) as (_ & _ & A & B); split; assumption|].
      intros h I. unfold mset. destruct (SL' h (HL h I)) as (Q & _). cbn [ends] in Q. rewrite Q.
      apply SH; exact I.
    + destruct (m a) eqn:MA; [|discriminate]. injection E1 as <- <-.
      apply (IH s _ s' m' cur t log home); auto.
      split; [intros x I; destruct (SL' x I) as (_ & _ & A & B); split; assumption|].
      intros h I. unfold mset. destruct (SL' h (HL h I)) as (Q & _). cbn [ends] in Q. rewrite Q.
      apply SH; exact I.
    + (* a shared vector *)
      destruct (m a) as [l|] eqn:MA; [|discriminate].
      apply bind_Ok in E1. destruct E1 as (s2 & E2 & E1). injection E1 as <- <-.
      apply andb_true_iff in C0. destruct C0 as [C1 C2].
      set (x := {| sdir := cur; sname := n; saddr := a; scont := l |}) in *.
      assert (PX : splace x = cur ++ [n]) by reflexivity.
      assert (GP : good (splace x)).
      { rewrite PX. apply good_app; [apply R|intros k [<-|[]]; exact GE]. }
      assert (NC : forall y, In y log -> comparable (cur ++ [n]) (splace y) = false).
      { intros y I. destruct (SL' y I) as (_ & D & _). exact D. }
      assert (NP : NoDup (map splace (log ++ [x]))).
      { rewrite map_app. cbn [map]. apply NoDup_Add with (a := splace x) (l := map splace log).
        - replace (map splace log) with (map splace log ++ []) by apply app_nil_r.
          rewrite <- app_assoc. apply Add_app.
        - split; [apply K|]. intros I. apply in_map_iff in I. destruct I as (y & Q & I).
          pose proof (NC y I) as W. rewrite Q, PX, comparable_refl in W. discriminate. }
      rewrite app_assoc.
      assert (SX : forall y, In y (log ++ [x]) -> forallb (fun e => negb (ends (saddr y) e)) evs = true /\
                         left_alone cur (splace y) evs = true).
      { intros y I. apply in_app_or in I. destruct I as [I|[<-|[]]].
        - destruct (SL' y I) as (_ & _ & A & B). split; assumption.
        - split; assumption. }
      destruct (assoc Nat.eqb a (ptr2pth s)) as [p|] eqn:AS.
      * pose proof (WriteShared_old s cur t n a l p R GE AS) as H. rewrite E2 in H. destruct H as [R1 PT].
        rewrite <- PX in R1.
        rewrite (k_ptr _ _ _ _ K) in AS.
        destruct (find (fun h => Nat.eqb a (saddr h)) home) as [h|] eqn:FH; [|discriminate].
        cbn [option_map] in AS. injection AS as <-.
        apply find_some in FH. destruct FH as [IH' AH]. apply Nat.eqb_eq in AH.
        pose proof (SH h IH') as MH. rewrite <- AH, MA in MH. injection MH as MH.
        apply (IH s2 m s' m' cur _ (log ++ [x]) home R1); auto; [|split; assumption].
        pose proof (kept_elsewhere s s2 t _ log home K PT
          (fun y I b => place_below t (splace x ++ ["ref"%string]) (Val (VStr (slashes (splace h)))) (splace y) b
              (eq_trans (comparable_sym _ _) (comparable_below _ _ _ (eq_trans (comparable_sym _ _) (NC y I)))))) as K1.
        destruct K1 as [A B D F P1]. constructor; auto.
        -- intros y I. apply in_app_or in I. destruct I as [I|[<-|[]]]; [apply B; exact I|].
           split; [exact GP|]. exists h. split; [exact IH'|]. split; [symmetry; exact AH|].
           split; [symmetry; exact MH|]. right. split; [|apply place_self].
           unfold place. destruct (prefix (splace x ++ ["ref"%string]) (splace x)) eqn:Q.
           ++ exfalso. clear - Q. induction (splace x) as [|k r IHr]; [discriminate|].
              cbn in Q. rewrite String.eqb_refl in Q. auto.
           ++ rewrite (prefix_trans_app _ ["ref"%string] _ (prefix_refl (splace x))). reflexivity.
        -- intros k I. destruct (D k I) as [I' Q]. split; [apply in_or_app; left; exact I'|exact Q].
      * pose proof (WriteShared_new s cur t n a l R GE AS) as H. rewrite E2 in H. destruct H as [R1 PT].
        rewrite <- PX in R1, PT.
        assert (NH : ~ In a (map saddr home)).
        { intros I. apply in_map_iff in I. destruct I as (h & Q & I).
          rewrite (k_ptr _ _ _ _ K) in AS. rewrite (find_addr a home h (k_addr _ _ _ _ K) I Q) in AS. discriminate. }
        apply (IH s2 m s' m' cur _ (log ++ [x]) (x :: home) R1); auto.
        2:{ split; [exact SX|]. intros h [<-|I]; [exact MA|apply SH; exact I]. }
        assert (BL : forall y, In y log -> forall b,
                  place t (splace x) (Val (VVec l)) (splace y ++ b) = t (splace y ++ b)).
        { intros y I b. apply place_below. exact (NC y I). }
        assert (B0 : forall y, In y log -> place t (splace x) (Val (VVec l)) (splace y) = t (splace y)).
        { intros y I. rewrite <- (app_nil_r (splace y)). apply BL. exact I. }
        destruct K as [A B D F P1]. constructor; auto.
        -- intros b. rewrite PT. cbn [assoc find]. rewrite A. change (saddr x) with a.
           destruct (Nat.eqb b a); reflexivity.
        -- intros y I. apply in_app_or in I. destruct I as [I|[<-|[]]].
           ++ destruct (B y I) as (GY & h & H1 & H2 & H3 & H4). split; [exact GY|]. exists h.
              split; [right; exact H1|]. split; [exact H2|]. split; [exact H3|].
              destruct H4 as [H4|[H4 H5]]; [left; exact H4|right]. rewrite B0, BL by exact I. split; assumption.
           ++ split; [exact GP|]. exists x. split; [left; reflexivity|]. split; [reflexivity|]. split; [reflexivity|left; reflexivity].
        -- intros h [<-|I].
           ++ split; [apply in_or_app; right; left; reflexivity|apply place_self].
           ++ destruct (D h I) as [I' Q]. split; [apply in_or_app; left; exact I'|]. rewrite B0 by exact I'. exact Q.
        -- cbn [map]. constructor; [exact NH|exact F].
Qed.

(** ** Reading back *)
Lemma get_stored_app : forall q y (j v : json T), get q j = Ok v -> stored (q ++ y) j = stored y v.
Proof.
  induction q as [|n q IH]; intros y j v H; [cbn in H; injection H as ->; reflexivity|].
  cbn [get] in H. apply bind_Ok in H. destruct H as (k & E & H).
  cbn [app]. rewrite stored_cons. destruct j; try discriminate; cbn [key] in E; injection E as <-.
  - rewrite <- (IH y _ _ H). symmetry. apply stored_null.
  - apply IH. exact H.
Qed.
Lemma stored_get : forall q (j : json T) e, stored q j = Some e -> exists v, get q j = Ok v /\ stored [] v = Some e.
Proof.
  intros q j e H. pose proof (get_stored T q j) as G. destruct (get q j) as [v| |].
  - exists v. split; [reflexivity|]. congruence.
  - congruence.
  - destruct G.
Qed.

Record reading (t : tree T) (home : list shared) (r : rst T) (done : list (shared * nat)) (K : nat -> option nat) : Prop := {
  r_rel : exists d, rel T (rser r) (d, t);
  r_cache : forall h, In h home ->
    match assoc String.eqb (slashes (splace h)) (pth2ssp (rser r)) with
    | Some y => In y (map snd done) /\ exists k, K (saddr h) = Some k /\ vars r y = Some (Some k)
    | None => K (saddr h) = None
    end;
  r_vec : forall h k, In h home -> K (saddr h) = Some k -> nth_error (vecs r) k = Some (scont h);
  r_inj : forall a b k, K a = Some k -> K b = Some k -> a = b;
  r_lt : forall a k, K a = Some k -> (k < List.length (vecs r))%nat;
  r_done : forall x v, In (x, v) done -> exists k, K (saddr x) = Some k /\ vars r v = Some (Some k)
}.

Lemma reading_goto : forall t home r done K s1,
  reading t home r done K -> pth2ssp s1 = pth2ssp (rser r) -> (exists d, rel T s1 (d, t)) ->
  reading t home {| rser := s1; vecs := vecs r; vars := vars r |} done K.
Proof.
  intros t home r done K s1 [A B C D E F] P R. constructor; cbn [rser vecs vars]; auto.
  intros h I. rewrite P. apply B. exact I.
Qed.

(** one shared vector read into a variable not used before *)
Lemma read_shared_ok : forall s t log home r done K x v,
  kept s t log home -> reading t home r done K -> In x log ->
  (forall y, In y (map snd done) -> y <> v) -> rel T (rser r) (sdir x, t) ->
  exists s2 h2 k K',
    ReadShared (rser r) (sname x) v (fun l => (vecs r ++ [l], Some (List.length (vecs r))))
       (star (vars r)) (vecs r) = Ok (s2, h2, Some k) /\
    reading t home {| rser := s2; vecs := h2; vars := set_var (vars r) v (Some (Some k)) |} (done ++ [(x, v)]) K' /\
    rel T s2 (sdir x, t) /\ (exists e, h2 = vecs r ++ e) /\ nth_error h2 k = Some (scont x).
Proof.
  intros s t log home r done K x v KE R IX HX R1.
  destruct (k_log _ _ _ _ KE x IX) as (GX & h & IHm & AD & CO & PL).
  destruct (k_home _ _ _ _ KE h IHm) as (ILH & TH).
  assert (GD : good (sdir x)).
  { intros k I. apply GX. unfold splace. apply in_or_app. left. exact I. }
  pose proof R1 as (C1 & P1 & _ & V1). cbn [fst snd] in *.
  set (ref := slashes (splace h)).
  assert (PK : peek (rser r) (sname x) = get (splace x) (root (rser r))).
  { unfold peek. rewrite P1, (pointer_good _ GD). cbn [bind]. unfold splace. rewrite get_app.
    destruct (get (sdir x) (root (rser r))) as [w| |]; cbn [bind get]; auto. destruct (key (sname x) w); reflexivity. }
  assert (RF : exists w, peek (rser r) (sname x) = Ok w /\
     match w with
     | JObj f => match look "ref" f with Some (JStr p) => Ok p | _ => Abort end
     | _ => Ok (cP (rser r) ++ String slash (sname x))%string
     end = Ok ref).
  { rewrite PK. destruct PL as [Q|[Q1 Q2]].
    - assert (TX : stored (splace x) (root (rser r)) = Some (Val (VVec (scont h)))) by (rewrite V1, Q; exact TH).
      destruct (stored_get _ _ _ TX) as (w & GW & SW). exists w. split; [exact GW|].
      destruct w; cbn in SW; try discriminate. rewrite P1, slashes_snoc. unfold ref. rewrite <- Q. reflexivity.
    - rewrite <- V1 in Q1, Q2. destruct (stored_get _ _ _ Q1) as (w & GW & SW). exists w. split; [exact GW|].
      destruct w as [| | | | |f]; cbn in SW; try discriminate.
      rewrite (get_stored_app _ _ _ _ GW) in Q2. cbn in Q2.
      destruct (look "ref" f) as [[]|]; cbn in Q2; try discriminate. injection Q2 as ->. reflexivity. }
  destruct RF as (w & PW & RW).
  unfold ReadShared. rewrite PW. cbn [bind]. rewrite RW. cbn [bind].
  pose proof (r_cache _ _ _ _ _ R h IHm) as RC. fold ref in RC.
  destruct (assoc String.eqb ref (pth2ssp (rser r))) as [y|] eqn:AS.
  - destruct RC as (IY & k & KK & VY). unfold star. rewrite VY. cbn [bind].
    exists (rser r), (vecs r), k, K. split; [reflexivity|].
    split; [|split; [exact R1|split; [exists []; rewrite app_nil_r; reflexivity|]]].
    2:{ rewrite <- CO. exact (r_vec _ _ _ _ _ R h k IHm KK). }
    constructor; cbn [rser vecs vars].
    * exists (sdir x). exact R1.
    * intros h' I'. pose proof (r_cache _ _ _ _ _ R h' I') as Q.
      destruct (assoc String.eqb (slashes (splace h')) (pth2ssp (rser r))) as [z|]; [|exact Q].
      destruct Q as (IZ & k' & KK' & VZ). split; [rewrite map_app; apply in_or_app; left; exact IZ|].
      exists k'. split; [exact KK'|]. unfold set_var. destruct (Nat.eqb_spec z v); [|exact VZ].
      exfalso. apply (HX z IZ). assumption.
    * apply (r_vec _ _ _ _ _ R).
    * apply (r_inj _ _ _ _ _ R).
    * apply (r_lt _ _ _ _ _ R).
    * intros x' v' I. apply in_app_or in I. unfold set_var. destruct I as [I|[I|[]]].
      -- destruct (r_done _ _ _ _ _ R x' v' I) as (k' & A & B). exists k'. split; [exact A|].
         destruct (Nat.eqb_spec v' v); [|exact B]. exfalso. apply (HX v'); [|assumption].
         apply in_map_iff. exists (x', v'). split; [reflexivity|exact I].
      -- injection I as <- <-. exists k. rewrite <- AD. split; [exact KK|]. rewrite Nat.eqb_refl. reflexivity.
  - assert (PR : pointer ref = Ok (splace h)) by (exact (pointer_good _ (proj1 (k_log _ _ _ _ KE h ILH)))).
    rewrite PR. cbn [bind].
    assert (TX : stored (splace h) (root (rser r)) = Some (Val (VVec (scont h)))) by (rewrite V1; exact TH).
    destruct (stored_get _ _ _ TX) as (u & GU & SU). rewrite GU. cbn [bind].
    destruct u; cbn in SU; try discriminate. injection SU as ->.
    set (k := List.length (vecs r)).
    exists {| root := root (rser r); cps := cps (rser r); cP := cP (rser r); ptr2pth := ptr2pth (rser r);
              pth2ssp := (ref, v) :: pth2ssp (rser r) |}, (vecs r ++ [scont h]), k,
           (fun a => if Nat.eqb a (saddr h) then Some k else K a).
    split; [reflexivity|].
    assert (R2 : rel T {| root := root (rser r); cps := cps (rser r); cP := cP (rser r); ptr2pth := ptr2pth (rser r);
              pth2ssp := (ref, v) :: pth2ssp (rser r) |} (sdir x, t)).
    { destruct R1 as (A1 & A2 & A3 & A4). split; [exact A1|]. split; [exact A2|]. split; [exact A3|exact A4]. }
    split; [|split; [exact R2|split; [exists [scont h]; reflexivity|]]].
    2:{ unfold k. rewrite nth_error_app2 by lia. rewrite Nat.sub_diag, <- CO. reflexivity. }
    constructor; cbn [rser vecs vars pth2ssp].
    * exists (sdir x). exact R2.
    * intros h' I'. cbn [assoc]. destruct (String.eqb_spec (slashes (splace h')) ref) as [Q|Q].
      -- assert (h' = h).
         { apply slashes_inj in Q.
           - destruct (k_home _ _ _ _ KE h' I') as [L' TH'].
             assert (ND' := k_place _ _ _ _ KE). clear - Q L' ILH ND'.
             induction log as [|a l IHl]; [destruct L'|]. cbn [map] in ND'. inversion ND' as [|? ? N D]; subst.
             destruct L' as [->|L'], ILH as [->|ILH]; auto.
             + exfalso. apply N. rewrite Q. apply in_map. exact ILH.
             + exfalso. apply N. rewrite <- Q. apply in_map. exact L'.
           - apply (k_log _ _ _ _ KE). apply (k_home _ _ _ _ KE). exact I'.
           - apply (k_log _ _ _ _ KE). exact ILH. }
         subst h'. rewrite map_app. split; [apply in_or_app; right; left; reflexivity|].
         exists k. rewrite Nat.eqb_refl. split; [reflexivity|]. unfold set_var. rewrite Nat.eqb_refl. reflexivity.
      -- pose proof (r_cache _ _ _ _ _ R h' I') as Q'.
         assert (NA : saddr h' <> saddr h).
         { intros EQ. apply Q.
           pose proof (find_addr (saddr h) home h (k_addr _ _ _ _ KE) IHm eq_refl) as F1.
           pose proof (find_addr (saddr h) home h' (k_addr _ _ _ _ KE) I' EQ) as F2.
           assert (Z : h' = h) by congruence. rewrite Z. reflexivity. }
         apply Nat.eqb_neq in NA. rewrite NA.
         destruct (assoc String.eqb (slashes (splace h')) (pth2ssp (rser r))) as [z|]; [|exact Q'].
         destruct Q' as (IZ & k' & KK' & VZ). split; [rewrite map_app; apply in_or_app; left; exact IZ|].
         exists k'. split; [exact KK'|]. unfold set_var. destruct (Nat.eqb_spec z v); [|exact VZ].
         exfalso. apply (HX z IZ). assumption.
    * intros h' k' I' KK'. destruct (Nat.eqb_spec (saddr h') (saddr h)) as [EQ|NE].
      -- injection KK' as <-.
         assert (h' = h).
         { pose proof (find_addr (saddr h) home h (k_addr _ _ _ _ KE) IHm eq_refl) as F1.
           pose proof (find_addr (saddr h) home h' (k_addr _ _ _ _ KE) I' EQ) as F2. congruence. }
         subst h'. rewrite nth_error_app2 by (unfold k; lia). unfold k. rewrite Nat.sub_diag. reflexivity.
      -- rewrite nth_error_app1 by (exact (r_lt _ _ _ _ _ R _ _ KK')). apply (r_vec _ _ _ _ _ R); assumption.
    * intros a b j A B. destruct (Nat.eqb_spec a (saddr h)) as [->|NA], (Nat.eqb_spec b (saddr h)) as [->|NB]; auto.
      -- injection A as <-. pose proof (r_lt _ _ _ _ _ R _ _ B). unfold k in *. lia.
      -- injection B as <-. pose proof (r_lt _ _ _ _ _ R _ _ A). unfold k in *. lia.
      -- apply (r_inj _ _ _ _ _ R _ _ _ A B).
    * intros a j A. rewrite app_length. cbn [List.length]. destruct (Nat.eqb a (saddr h)).
      -- injection A as <-. unfold k. lia.
      -- pose proof (r_lt _ _ _ _ _ R _ _ A). lia.
    * intros x' v' I. apply in_app_or in I. unfold set_var. destruct I as [I|[I|[]]].
      -- destruct (r_done _ _ _ _ _ R x' v' I) as (k' & A & B). exists k'.
         assert (VV : v' <> v).
         { apply HX. apply in_map_iff. exists (x', v'). split; [reflexivity|exact I]. }
         apply Nat.eqb_neq in VV. rewrite VV. split; [|exact B].
         destruct (Nat.eqb_spec (saddr x') (saddr h)) as [EQ|]; [|exact A].
         rewrite EQ, RC in A. discriminate.
      -- injection I as <- <-. exists k. rewrite <- AD. rewrite !Nat.eqb_refl. split; reflexivity.
Qed.

Lemma kept_dir : forall s t log home r x d, kept s t log home -> In x log -> rel T r (d, t) -> t (sdir x) = Some Dir.
Proof.
  intros s t log home r x d KE IX (_ & _ & _ & V0). cbn [snd] in V0.
  destruct (k_log _ _ _ _ KE x IX) as (GX & h & IHm & AD & CO & PL).
  destruct (k_home _ _ _ _ KE h IHm) as (ILH & TH).
  rewrite <- V0. apply (stored_ancestor T (sdir x) (sname x) []). rewrite V0.
  change (sdir x ++ [sname x]) with (splace x).
  destruct PL as [Q|[Q _]]; [rewrite Q, TH|rewrite Q]; discriminate.
Qed.

Lemma reads_go : forall todo s t log home r done K,
  kept s t log home -> reading t home r done K ->
  (forall x v, In (x, v) todo -> In x log) -> NoDup (map snd (done ++ todo)) ->
  exists r' K', rrun r (read_events todo) = Ok r' /\ reading t home r' (done ++ todo) K'.
Proof.
  induction todo as [|[x v] todo IH]; intros s t log home r done K KE R IL ND.
  - exists r, K. rewrite app_nil_r. split; [reflexivity|exact R].
  - assert (IX : In x log) by (apply (IL x v); left; reflexivity).
    destruct (k_log _ _ _ _ KE x IX) as (GX & _).
    destruct (r_rel _ _ _ _ _ R) as (d0 & R0).
    assert (GD : good (sdir x)).
    { intros k I. apply GX. unfold splace. apply in_or_app. left. exact I. }
    pose proof (kept_dir _ _ _ _ _ _ _ KE IX R0) as TD.
    pose proof (step_ok T (rser r) _ (GoTo (Abs (sdir x))) R0 GD) as H. cbn [sstep resolve] in H. rewrite TD in H.
    destruct H as (s1 & E1 & R1 & X1 & Y1). cbn [step text] in E1.
    destruct (GoToPath (rser r) (slashes (sdir x))) as [s0| |] eqn:E0; cbn in E1; try discriminate. injection E1 as ->.
    assert (HX : forall y, In y (map snd done) -> y <> v).
    { intros y I ->. rewrite map_app in ND. cbn [map snd] in ND.
      apply NoDup_remove_2 in ND. apply ND. apply in_or_app. left. exact I. }
    pose proof (reading_goto t home r done K s1 R Y1 (ex_intro _ (sdir x) R1)) as R1'.
    destruct (read_shared_ok s t log home _ done K x v KE R1' IX HX R1) as (s2 & h2 & k & K' & E2 & R2 & _).
    assert (EV : read_events ((x, v) :: todo) = Go (sdir x) :: Read (sname x) v :: read_events todo) by reflexivity.
    rewrite EV. unfold rrun. cbn [foldM rstep]. rewrite E0. cbn [bind rser vecs vars].
    cbn [rser vecs vars] in E2. rewrite E2. cbn [bind].
    replace (done ++ (x, v) :: todo) with ((done ++ [(x, v)]) ++ todo) in *
      by (rewrite <- app_assoc; reflexivity).
    apply (IH s t log home _ (done ++ [(x, v)]) K' KE R2); auto.
    intros; apply (IL x0 v0); right; assumption.
Qed.

Lemma kept_start : kept (@open_write T) empty_tree [] [].
Proof.
  constructor.
  - reflexivity.
  - intros ? [].
  - intros ? [].
  - constructor.
  - constructor.
Qed.
Theorem shared_all : forall evs (s : ser T) m reads,
  (forall e, In e evs -> good_event e) -> careful [] evs = true ->
  wrun (open_write, fun _ => None) evs = Ok (s, m) ->
  (forall x v, In (x, v) reads -> In x (written [] (fun _ => None) evs)) ->
  NoDup (map snd reads) ->
  exists r, rrun (rstart (root s)) (read_events reads) = Ok r /\
    (forall x v, In (x, v) reads -> exists k, vars r v = Some (Some k) /\ nth_error (vecs r) k = Some (scont x)) /\
    (forall x v y w, In (x, v) reads -> In (y, w) reads -> (vars r v = vars r w <-> saddr x = saddr y)).
Proof.
  intros evs s m reads G C E IL ND.
  destruct (kept_run evs open_write (fun _ => None) s m [] empty_tree [] [] (rel_open T) kept_start) as (cur & t & home & R & K); auto.
  { split; intros ? []. }
  cbn [app] in K.
  destruct (reads_go reads s t _ home (rstart (root s)) [] (fun _ => None) K) as (r & K' & ER & RR); auto.
  { constructor.
    - exists []. destruct R as (_ & _ & _ & V). cbn [snd] in V.
      split; [reflexivity|]. split; [reflexivity|]. split; [intros n []|exact V].
    - intros h _. reflexivity.
    - discriminate. - discriminate. - discriminate. - intros ? ? []. }
  cbn [app] in RR. exists r. split; [exact ER|].
  assert (Q : forall x v, In (x, v) reads -> exists k, K' (saddr x) = Some k /\ vars r v = Some (Some k) /\ nth_error (vecs r) k = Some (scont x)).
  { intros x v I. destruct (r_done _ _ _ _ _ RR x v I) as (k & A & B). exists k. split; [exact A|]. split; [exact B|].
    destruct (k_log _ _ _ _ K x (IL x v I)) as (_ & h & IHm & AD & CO & _).
    rewrite <- CO. apply (r_vec _ _ _ _ _ RR h k IHm). rewrite AD. exact A. }
  split.
  - intros x v I. destruct (Q x v I) as (k & _ & B & D). exists k. split; assumption.
  - intros x v y w I J. destruct (Q x v I) as (k & A & B & _). destruct (Q y w J) as (k' & A' & B' & _).
    rewrite B, B'. split; intros H.
    + injection H as <-. exact (r_inj _ _ _ _ _ RR _ _ _ A A').
    + rewrite H in A. congruence.
Qed.

Theorem stored_once : forall evs (s : ser T) m,
  (forall e, In e evs -> good_event e) -> careful [] evs = true ->
  wrun (open_write, fun _ => None) evs = Ok (s, m) ->
  let log := written [] (fun _ => None) evs in
  (forall x, In x log -> exists y, In y log /\ saddr y = saddr x /\
      stored (splace y) (root s) = Some (Val (VVec (scont x)))) /\
  (forall x y l l', In x log -> In y log -> saddr x = saddr y ->
      stored (splace x) (root s) = Some (Val (VVec l)) -> stored (splace y) (root s) = Some (Val (VVec l')) ->
      splace x = splace y) /\
  NoDup (map splace log).
Proof.
  intros evs s m G C E log.
  destruct (kept_run evs open_write (fun _ => None) s m [] empty_tree [] [] (rel_open T) kept_start) as (cur & t & home & R & K); auto.
  { split; intros ? []. }
  cbn [app] in K. fold log in K. destruct R as (_ & _ & _ & V). cbn [snd] in V.
  split; [|split; [|apply K]].
  - intros x I. destruct (k_log _ _ _ _ K x I) as (_ & h & IHm & AD & CO & _).
    destruct (k_home _ _ _ _ K h IHm) as [IL TH]. exists h. split; [exact IL|]. split; [exact AD|].
    rewrite V, TH, CO. reflexivity.
  - intros x y l l' I J EQ SX SY. rewrite V in SX, SY.
    destruct (k_log _ _ _ _ K x I) as (_ & h & IHm & AD & CO & PL).
    destruct (k_log _ _ _ _ K y J) as (_ & h' & IHm' & AD' & CO' & PL').
    destruct PL as [PL|[PL _]]; [|congruence]. destruct PL' as [PL'|[PL' _]]; [|congruence].
    pose proof (find_addr (saddr h) home h (k_addr _ _ _ _ K) IHm eq_refl) as F1.
    pose proof (find_addr (saddr h) home h' (k_addr _ _ _ _ K) IHm') as F2.
    rewrite F1 in F2. assert (h = h') by (assert (Z : saddr h' = saddr h) by congruence; specialize (F2 Z); congruence).
    congruence.
Qed.
End Shared.

(** ** Counterexamples *)
Definition reuse : list (event Z) :=
  [Alloc 1 [5%Z]; Share "x" 1; Free 1; Alloc 1 [6%Z]; Share "y" 1].
Definition change : list (event Z) :=
  [Alloc 1 [5%Z]; Share "x" 1; Assign 1 [6%Z]; Share "y" 1].
Definition two : list (event Z) := [Alloc 1 [5%Z]; Share "x" 1; Share "y" 1].

Lemma reuse_wrong : exists s m r,
  wrun (open_write, fun _ => None) reuse = Ok (s, m) /\
  map (fun x => (sname x, saddr x, scont x)) (written [] (fun _ => None) reuse) =
    [("x"%string, 1%nat, [5%Z]); ("y"%string, 1%nat, [6%Z])] /\
  rrun (rstart (root s)) [Read "x" 0; Read "y" 1] = Ok r /\
  vars r 1%nat = Some (Some 0%nat) /\ nth_error (vecs r) 0 = Some [5%Z].
Proof.
  do 3 eexists. split; [reflexivity|]. split; [reflexivity|]. split; [reflexivity|]. split; reflexivity.
Qed.
Lemma change_wrong : exists s m r,
  wrun (open_write, fun _ => None) change = Ok (s, m) /\
  map (fun x => (sname x, saddr x, scont x)) (written [] (fun _ => None) change) =
    [("x"%string, 1%nat, [5%Z]); ("y"%string, 1%nat, [6%Z])] /\
  rrun (rstart (root s)) [Read "x" 0; Read "y" 1] = Ok r /\
  vars r 1%nat = Some (Some 0%nat) /\ nth_error (vecs r) 0 = Some [5%Z].
Proof.
  do 3 eexists. split; [reflexivity|]. split; [reflexivity|]. split; [reflexivity|]. split; reflexivity.
Qed.
Lemma variable_wrong : exists s m r,
  wrun (open_write, fun _ => None) two = Ok (s, m) /\ careful [] two = true /\
  rrun (rstart (root s)) [Read "x" 0; Kill 0; Read "y" 1] = UB /\
  rrun (rstart (root s)) [Read "x" 0; SetVar 0 None; Read "y" 1] = Ok r /\ vars r 1%nat = Some None.
Proof.
  do 3 eexists. split; [reflexivity|]. split; [reflexivity|]. split; [reflexivity|]. split; reflexivity.
Qed.
