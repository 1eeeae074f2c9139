(** Proofs about the table of boundary conditions. *)
From Coq Require Import Reals List Arith ZArith String Bool Lia Permutation.
From Verif Require Import Base.Prelude Base.PreludeFacts Geom.BoundaryModel Geom.BoundaryProofs Euler.BndModel Euler.HandlerModel Euler.HandlerSpec.
Import ListNotations.
Local Open Scope list_scope.

Lemma carries_has : forall t, carries_state t <-> has_value t = true.
Proof. intros t. unfold carries_state. destruct t; cbn; split; try discriminate; intuition discriminate. Qed.

Lemma map_find_app : forall l l' k, map_find (l ++ l') k = match map_find l k with Some v => Some v | None => map_find l' k end.
Proof. induction l as [|[k' v] l IH]; intros; cbn; auto. destruct (String.eqb k' k); auto. Qed.
Lemma map_find_none : forall l k, map_find l k = None <-> ~ In k (map fst l).
Proof.
  induction l as [|[k' v] l IH]; intros; cbn; [intuition|]. destruct (String.eqb_spec k' k).
  - split; [discriminate|]. intros H. exfalso. auto.
  - rewrite IH. split; intros H; [intros [E|E]; auto|auto].
Qed.
Lemma map_find_in : forall l k v, NoDup (map fst l) -> In (k, v) l -> map_find l k = Some v.
Proof.
  induction l as [|[k' v'] l IH]; cbn; intros k v ND H; [contradiction|]. inversion ND; subst.
  destruct (String.eqb_spec k' k) as [->|N].
  - destruct H as [H|H]; [congruence|]. exfalso. apply H2. apply in_map_iff. exists (k, v). auto.
  - destruct H as [H|H]; [congruence|]. auto.
Qed.

(** *** the table after reading *)
Definition val_of (nV : nat) (it : item) : list R :=
  if has_value (i_type it) then match i_value it with Some v => v | None => [] end else repeat 0%R nV.
Definition flags_of (it : item) : flags := match item_flags it with Some f => f | None => [] end.
Fixpoint numbered (n : nat) (j : list item) : list (string * Z) :=
  match j with [] => [] | it :: j => (i_name it, Z.of_nat n) :: numbered (S n) j end.
Definition appended (nV : nat) (h : handler) (j : list item) : handler :=
  {| h_types := h_types h ++ map i_type j; h_values := h_values h ++ map (fun it => Some (val_of nV it)) j;
     h_flags := h_flags h ++ map flags_of j; h_extra := h_extra h ++ map extra_or_none j;
     h_name2id := h_name2id h ++ numbered (List.length (h_types h)) j; h_id2name := h_id2name h |}.

Definition fresh (h : handler) (j : list item) : Prop := NoDup (map i_name j) /\ forall it, In it j -> ~ In (i_name it) (map fst (h_name2id h)).

Lemma read_one : forall nV h it, item_ok nV it -> ~ In (i_name it) (map fst (h_name2id h)) -> read_item nV h it = Ok (appended nV h [it]).
Proof.
  intros nV h it (T & V) N. unfold read_item. apply map_find_none in N.
  assert (F : item_flags it = Some (flags_of it)) by (unfold flags_of, item_flags; destruct (i_type it); auto; congruence).
  rewrite F. assert (E : item_value nV it = Ok (val_of nV it)).
  { unfold item_value, val_of. destruct (has_value (i_type it)) eqn:C; auto. apply carries_has in C.
    destruct (V C) as (v & -> & L). rewrite L, Nat.eqb_refl. reflexivity. }
  rewrite E. cbn [bind]. rewrite N. unfold appended. cbn [map numbered]. unfold set_name. rewrite app_length. cbn [List.length].
  replace (Z.of_nat (List.length (h_types h) + 1) - 1)%Z with (Z.of_nat (List.length (h_types h))) by lia. reflexivity.
Qed.
Lemma appended_app : forall nV h a b, appended nV (appended nV h a) b = appended nV h (a ++ b).
Proof.
  intros. unfold appended. cbn [h_types h_values h_flags h_extra h_name2id h_id2name]. rewrite !map_app, !app_assoc. f_equal.
  rewrite <- app_assoc. f_equal. rewrite app_length, map_length.
  generalize (List.length (h_types h)). induction a as [|x a IH]; intros n; cbn [numbered app List.length].
  - f_equal. lia.
  - f_equal. rewrite <- IH. f_equal. f_equal. lia.
Qed.
Lemma numbered_names : forall j n, map fst (numbered n j) = map i_name j.
Proof. induction j; cbn; intros; f_equal; auto. Qed.
Lemma read_ok : forall nV j h, Forall (item_ok nV) j -> fresh h j -> foldM (read_item nV) h j = Ok (appended nV h j).
Proof.
  induction j as [|it j IH]; intros h F (ND & N).
  - cbn. unfold appended. cbn. rewrite !app_nil_r. destruct h; reflexivity.
  - cbn [foldM]. inversion F; subst. inversion ND; subst. rewrite read_one by (auto; apply N; left; auto). cbn [bind].
    rewrite IH; auto.
    + rewrite appended_app. reflexivity.
    + split; auto. intros x Hx. cbn [appended h_name2id numbered]. rewrite map_app. cbn. rewrite in_app_iff. intros [C|[C|[]]].
      * apply (N x); cbn; auto.
      * apply H3. rewrite C. apply in_map. auto.
Qed.
Lemma read_inv : forall nV j h h', foldM (read_item nV) h j = Ok h' -> Forall (item_ok nV) j /\ fresh h j.
Proof.
  induction j as [|it j IH]; intros h h' H.
  - split; [constructor|]. split; [constructor|]. intros x [].
  - cbn [foldM] in H. destruct (read_item nV h it) as [h1| |] eqn:E; try discriminate. cbn [bind] in H.
    assert (K : item_ok nV it /\ ~ In (i_name it) (map fst (h_name2id h))).
    { unfold read_item in E. destruct (item_flags it) eqn:F; [|discriminate].
      destruct (item_value nV it) as [v| |] eqn:V; try discriminate. cbn [bind] in E.
      destruct (map_find (h_name2id h) (i_name it)) eqn:M; [discriminate|]. split; [|apply map_find_none; auto].
      split.
      - intros C. unfold item_flags in F. rewrite C in F. discriminate.
      - intros C. apply carries_has in C. unfold item_value in V. rewrite C in V. destruct (i_value it) as [w|]; [|discriminate].
        exists w. split; auto. destruct (Nat.eqb_spec (List.length w) nV); [auto|discriminate]. }
    destruct K as (K1 & K2). rewrite read_one in E by auto. assert (E' : h1 = appended nV h [it]) by congruence. subst h1.
    destruct (IH _ _ H) as (F & ND & N). split; [constructor; auto|]. split.
    + constructor; auto. intros C. apply in_map_iff in C. destruct C as (x & Ex & Hx). apply (N x Hx).
      cbn [appended h_name2id numbered]. rewrite map_app, in_app_iff. right. cbn. auto.
    + intros x [<-|Hx]; auto. intros C. apply (N x Hx). cbn [appended h_name2id numbered]. rewrite map_app, in_app_iff. auto.
Qed.

Lemma settings_fresh : forall nV j it0, settings_ok nV j <-> Forall (item_ok nV) j /\ fresh (new_handler it0) j.
Proof. intros. unfold settings_ok, fresh. cbn [new_handler h_name2id]. tauto. Qed.

Lemma accepts : forall nV o it0 j, (exists h, from_json o nV (new_handler it0) j = Ok h) <-> settings_ok nV j.
Proof.
  intros. rewrite (settings_fresh nV j it0). unfold from_json. split.
  - intros (h & H). destruct (foldM _ _ _) as [h1| |] eqn:E; try discriminate. apply (read_inv _ _ _ _ E).
  - intros (F & N). rewrite read_ok by auto. cbn [bind]. eauto.
Qed.
Definition table (nV : nat) (o : list (string * Z) -> list (string * Z)) (it0 : list (string * Z)) (j : list item) : handler :=
  let h := appended nV (new_handler it0) j in with_names h (renew (o (h_name2id h))).
Lemma from_json_val : forall nV o it0 j h, from_json o nV (new_handler it0) j = Ok h ->
  settings_ok nV j /\ h = table nV o it0 j.
Proof.
  intros nV o it0 j h H. assert (S : settings_ok nV j) by (apply (accepts nV o it0); eauto). split; auto.
  apply (settings_fresh nV j it0) in S. destruct S as (F & N). unfold from_json in H. rewrite read_ok in H by auto. cbn [bind] in H.
  unfold table. congruence.
Qed.
Lemma from_json_ok : forall nV o it0 j, settings_ok nV j -> from_json o nV (new_handler it0) j = Ok (table nV o it0 j).
Proof. intros. apply (accepts nV o it0) in H. destruct H as (h & H). rewrite H. f_equal. apply (from_json_val _ _ _ _ _ H). Qed.

Lemma nth_app_at : forall A (l l' : list A) k, nth_error (l ++ l') (List.length l + k) = nth_error l' k.
Proof. intros. rewrite nth_error_app2 by lia. f_equal. lia. Qed.
Lemma types20 : List.length default_types = 20%nat.
Proof. reflexivity. Qed.

(** the id of the k-th condition *)
Definition idk (k : nat) : Z := (BC_ID_DEFAULT_MAX + Z.of_nat k)%Z.
Lemma idk_nat : forall k, Z.to_nat (idk k) = (20 + k)%nat.
Proof. intros. unfold idk, BC_ID_DEFAULT_MAX. lia. Qed.
Lemma idk_ext : forall k, FaceIDIsExternalBC (idk k) = true.
Proof. intros. unfold FaceIDIsExternalBC, idk, BC_ID_DEFAULT_MAX. apply Z.ltb_lt. lia. Qed.
Lemma vat_idk : forall A (l l' : list A) k x, List.length l = 20%nat -> nth_error l' k = Some x -> vat (l ++ l') (idk k) = Ok x.
Proof.
  intros A l l' k x L H. unfold vat. destruct (Z.ltb_spec (idk k) 0) as [C|_]; [unfold idk, BC_ID_DEFAULT_MAX in C; lia|].
  rewrite idk_nat, <- L, nth_app_at, H. reflexivity.
Qed.
Lemma nth_map_ : forall A B (f : A -> B) l k x, nth_error l k = Some x -> nth_error (map f l) k = Some (f x).
Proof. intros. rewrite nth_error_map_. rewrite H. reflexivity. Qed.
Lemma numbered_nth : forall j n k it, nth_error j k = Some it -> In (i_name it, Z.of_nat (n + k)) (numbered n j).
Proof.
  induction j as [|x j IH]; intros n [|k] it H; cbn in *; try discriminate.
  - left. replace (n + 0)%nat with n by lia. congruence.
  - right. replace (n + S k)%nat with (S n + k)%nat by lia. apply IH. auto.
Qed.
Lemma numbered_in : forall j n s id, In (s, id) (numbered n j) -> exists k it, nth_error j k = Some it /\ s = i_name it /\ id = Z.of_nat (n + k).
Proof.
  induction j as [|x j IH]; cbn; intros n s id H; [contradiction|]. destruct H as [H|H].
  - exists 0%nat, x. repeat split; try congruence. replace (n + 0)%nat with n by lia. congruence.
  - destruct (IH _ _ _ H) as (k & it & A & B & C). exists (S k), it. repeat split; auto. rewrite C. f_equal. lia.
Qed.
Lemma default_names_nodup : NoDup (map fst GetFaceName2IDDefault).
Proof.
  cbn. repeat (constructor; [cbn; intros H; repeat destruct H as [H|H]; try discriminate; try contradiction|]). constructor.
Qed.
Lemma all_names_nodup : forall nV j, settings_ok nV j -> NoDup (map fst (GetFaceName2IDDefault ++ numbered 20 j)).
Proof.
  intros nV j (_ & ND & N). rewrite map_app, numbered_names.
  assert (D : forall l, NoDup l -> (forall s, In s l -> ~ In s (map i_name j)) -> NoDup (l ++ map i_name j)).
  { induction l as [|a l IH]; cbn; auto. intros A B. inversion A; subst. constructor; auto.
    rewrite in_app_iff. intros [C|C]; auto. apply (B a); auto. }
  apply D; [apply default_names_nodup|]. intros s Hs C. apply in_map_iff in C. destruct C as (it & <- & Hi). apply (N it Hi Hs).
Qed.

Lemma id_of_name : forall nV o it0 j k it, settings_ok nV j -> nth_error j k = Some it ->
  GetIDFromName (table nV o it0 j) (i_name it) = idk k.
Proof.
  intros nV o it0 j k it S H. unfold GetIDFromName. cbn [table with_names appended h_name2id new_handler h_types]. rewrite types20.
  rewrite (map_find_in _ _ (idk k)); auto; [eapply all_names_nodup; eauto|]. apply in_app_iff. right.
  replace (idk k) with (Z.of_nat (20 + k)) by (unfold idk, BC_ID_DEFAULT_MAX; lia). apply numbered_nth. auto.
Qed.

(** *** the inverse map, for any order of iteration *)
Lemma renew_app : forall l m, fold_left (fun m p => (snd p, fst p) :: m) l m = (fold_left (fun m (p : string * Z) => (snd p, fst p) :: m) l [] ++ m)%list.
Proof.
  induction l as [|p l IH]; intros m; cbn; auto. rewrite IH, (IH [_]). rewrite <- app_assoc. reflexivity.
Qed.
Lemma renew_in : forall l s id, In (id, s) (renew l) <-> In (s, id) l.
Proof.
  induction l as [|[s' id'] l IH]; intros s id; [reflexivity|]. unfold renew in *. cbn [fold_left fst snd]. rewrite renew_app, in_app_iff, IH. cbn.
  split; [intros [H|[H|[]]]; auto; left; congruence|intros [H|H]; auto; right; left; congruence].
Qed.
Lemma id_find_in : forall l id s, id_find l id = Some s -> In (id, s) l.
Proof.
  induction l as [|[i s'] l IH]; cbn; intros id s H; [discriminate|]. destruct (Z.eqb_spec i id); [left; congruence|right; auto].
Qed.
Lemma id_find_some : forall l id s, In (id, s) l -> exists s', id_find l id = Some s'.
Proof.
  induction l as [|[i s'] l IH]; cbn; intros id s H; [contradiction|]. destruct (Z.eqb_spec i id); [eauto|].
  destruct H as [H|H]; [congruence|eauto].
Qed.
Lemma renew_find : forall l id s, In (s, id) l -> (forall s', In (s', id) l -> s' = s) -> id_find (renew l) id = Some s.
Proof.
  intros l id s H U. destruct (id_find_some (renew l) id s) as (s' & E); [apply renew_in; auto|].
  rewrite E. f_equal. apply U. apply renew_in. apply id_find_in. auto.
Qed.
Lemma default_ids : forall s id, In (s, id) GetFaceName2IDDefault -> (id < 20)%Z.
Proof. intros s id H. cbn in H. repeat destruct H as [H|H]; try (inversion H; reflexivity). Qed.
Lemma name_of_id : forall nV o it0 j k it, (forall l, Permutation (o l) l) -> settings_ok nV j -> nth_error j k = Some it ->
  id_find (h_id2name (table nV o it0 j)) (idk k) = Some (i_name it).
Proof.
  intros nV o it0 j k it P S H. cbn [table with_names h_id2name appended h_name2id new_handler h_types]. rewrite types20.
  assert (Q : forall x, In x (o (GetFaceName2IDDefault ++ numbered 20 j)) <-> In x (GetFaceName2IDDefault ++ numbered 20 j)).
  { intros x. split; apply Permutation_in; [apply P|apply Permutation_sym, P]. }
  apply renew_find.
  - apply Q. apply in_app_iff. right. replace (idk k) with (Z.of_nat (20 + k)) by (unfold idk, BC_ID_DEFAULT_MAX; lia). apply numbered_nth. auto.
  - intros s' Hs. apply Q in Hs. apply in_app_iff in Hs. destruct Hs as [C|C].
    + apply default_ids in C. unfold idk, BC_ID_DEFAULT_MAX in C. lia.
    + apply numbered_in in C. destruct C as (k' & it' & A & B & D). unfold idk, BC_ID_DEFAULT_MAX in D.
      assert (k' = k) by lia. subst. congruence.
Qed.

(** *** flags *)
Lemma u32_ok : forall z, (0 <= u32 z < 2 ^ 32)%Z /\ exists q, z = (u32 z + q * 2 ^ 32)%Z.
Proof.
  intros. unfold u32. split; [apply Z.mod_pos_bound; reflexivity|]. exists (z / 2 ^ 32)%Z.
  rewrite Z.add_comm, Z.mul_comm. apply Z.div_mod. discriminate.
Qed.
Lemma option_setting : forall it k, setting it k (option_or0 it k).
Proof. intros. unfold setting, option_or0. destruct (map_find (i_opt it) k); auto. apply u32_ok. Qed.
Lemma setting_fun : forall it k z z', setting it k z -> setting it k z' -> z = z'.
Proof.
  intros it k z z'. unfold setting. destruct (map_find _ _) as [x|]; [|congruence].
  intros (B & q & E) (B' & q' & E'). assert (q = q') by nia. subst q'. lia.
Qed.
Lemma flags_map : forall it, i_type it <> BCUnknown -> flags_of it = map (fun p => (fst p, option_or0 it (snd p))) (flag_fields (i_type it)).
Proof. intros it H. unfold flags_of, item_flags. destruct (i_type it); cbn; congruence. Qed.
Lemma fields_nodup : forall t, NoDup (map fst (flag_fields t)).
Proof.
  intros t. destruct t; cbn; repeat (constructor; [cbn; intros H; repeat destruct H as [H|H]; try discriminate; try contradiction|]); constructor.
Qed.
Lemma flags_find : forall it key jk, i_type it <> BCUnknown -> In (key, jk) (flag_fields (i_type it)) ->
  map_find (flags_of it) key = Some (option_or0 it jk).
Proof.
  intros it key jk T H. rewrite flags_map by auto. apply map_find_in.
  - rewrite map_map. cbn. apply fields_nodup.
  - apply in_map_iff. exists (key, jk). auto.
Qed.
Lemma flags_absent : forall it key, i_type it <> BCUnknown -> ~ In key (map fst (flag_fields (i_type it))) -> map_find (flags_of it) key = None.
Proof. intros it key T H. apply map_find_none. rewrite flags_map by auto. rewrite map_map. exact H. Qed.

(** *** what the queries return after reading *)
Lemma reads : forall nV o it0 j h, (forall l, Permutation (o l) l) -> from_json o nV (new_handler it0) j = Ok h ->
  forall k it, nth_error j k = Some it ->
    GetIDFromName h (i_name it) = (20 + Z.of_nat k)%Z /\ GetNameFormID h (20 + Z.of_nat k) = i_name it /\
    GetTypeFromID h (20 + Z.of_nat k) = Ok (i_type it) /\
    (exists v, GetValueFromID h (20 + Z.of_nat k) = Ok (Some v) /\ holds_value nV it v) /\
    GetValueExtraFromID h (20 + Z.of_nat k) = Ok (match i_extra it with Some x => x | None => [] end).
Proof.
  intros nV o it0 j h P H k it E. apply from_json_val in H. destruct H as (S & ->). change (20 + Z.of_nat k)%Z with (idk k).
  assert (OK : item_ok nV it) by (destruct S as (F & _); rewrite Forall_forall in F; apply F; eapply nth_error_In; eauto).
  split; [eapply id_of_name; eauto|]. split; [unfold GetNameFormID; erewrite name_of_id by eauto; reflexivity|].
  unfold GetTypeFromID, GetValueFromID, GetValueExtraFromID. rewrite idk_ext.
  split; [|split].
  - apply vat_idk; [apply types20|]. apply nth_map_. auto.
  - exists (val_of nV it). split; [apply vat_idk; [reflexivity|]; apply (nth_map_ _ _ (fun it => Some (val_of nV it))); auto|].
    destruct OK as (_ & V). unfold holds_value, val_of. split; intros C.
    + pose proof C as C'. apply carries_has in C'. rewrite C'. destruct (V C) as (v & -> & _). reflexivity.
    + destruct (has_value (i_type it)) eqn:E'; auto. apply carries_has in E'. contradiction.
  - apply vat_idk; [reflexivity|]. apply (nth_map_ _ _ extra_or_none). auto.
Qed.
Lemma reads_flags : forall nV o it0 j h, from_json o nV (new_handler it0) j = Ok h ->
  forall k it key, nth_error j k = Some it ->
    (forall jk, In (key, jk) (flag_fields (i_type it)) -> exists z, setting it jk z /\
       GetFlagFromID h (20 + Z.of_nat k) key = Ok z /\ GetFlagFromIDSoft h (20 + Z.of_nat k) key = Ok z) /\
    (~ In key (map fst (flag_fields (i_type it))) ->
       GetFlagFromID h (20 + Z.of_nat k) key = Abort /\ GetFlagFromIDSoft h (20 + Z.of_nat k) key = Ok 0%Z).
Proof.
  intros nV o it0 j h H k it key E. apply from_json_val in H. destruct H as (S & ->). change (20 + Z.of_nat k)%Z with (idk k).
  assert (OK : item_ok nV it) by (destruct S as (F & _); rewrite Forall_forall in F; apply F; eapply nth_error_In; eauto).
  unfold GetFlagFromID, GetFlagFromIDSoft. rewrite idk_ext. destruct OK as (T & _).
  assert (F : vat (h_flags (table nV o it0 j)) (idk k) = Ok (flags_of it)) by (apply vat_idk; [reflexivity|]; apply nth_map_; auto).
  rewrite F. cbn [bind]. unfold flag_at. split.
  - intros jk I. rewrite (flags_find it key jk) by auto. exists (option_or0 it jk). split; [apply option_setting|auto].
  - intros N. rewrite flags_absent by auto. auto.
Qed.
(** default ids are untouched, other ids do not exist *)
Lemma reads_other : forall nV o it0 j h, from_json o nV (new_handler it0) j = Ok h ->
  (forall s, ~ In s (map i_name j) -> GetIDFromName h s = FBC_Name_2_ID_Default s) /\
  (forall id, (id < 20)%Z -> GetTypeFromID h id = GetTypeFromID (new_handler it0) id /\ GetValueFromID h id = GetValueFromID (new_handler it0) id) /\
  (forall id, (20 + Z.of_nat (List.length j) <= id)%Z -> GetTypeFromID h id = Abort /\ GetValueFromID h id = Abort).
Proof.
  intros nV o it0 j h H. apply from_json_val in H. destruct H as (S & ->). split; [|split].
  - intros s N. unfold GetIDFromName. cbn [table with_names appended h_name2id new_handler].
    rewrite map_find_app. assert (Z : map_find (numbered (List.length (h_types (new_handler it0))) j) s = None) by (apply map_find_none; rewrite numbered_names; auto).
    rewrite Z. rewrite tables_agree. destruct (map_find GetFaceName2IDDefault s); reflexivity.
  - intros id L. unfold GetTypeFromID, GetValueFromID.
    assert (K : forall A (l l' : list A), List.length l = 20%nat -> vat (l ++ l') id = vat l id).
    { intros A l l' L'. unfold vat. destruct (Z.ltb_spec id 0); auto. rewrite nth_error_app1 by lia. reflexivity. }
    assert (K0 : forall A (l l' : list A), List.length l = 20%nat -> vat (l ++ l') 0 = vat l 0).
    { intros A l l' L'. unfold vat. cbn [Z.ltb Z.compare Z.to_nat]. rewrite nth_error_app1 by lia. reflexivity. }
    cbn [table with_names appended h_types h_values].
    rewrite !K, K0 by reflexivity. auto.
  - intros id L. unfold GetTypeFromID, GetValueFromID, FaceIDIsExternalBC. destruct (Z.ltb_spec 0 id); [|lia].
    assert (K : forall A (l : list A), List.length l = (20 + List.length j)%nat -> vat l id = Abort).
    { intros A l L'. unfold vat. destruct (Z.ltb_spec id 0); auto. destruct (nth_error l (Z.to_nat id)) eqn:E; auto.
      apply nth_error_Some_lt in E. lia. }
    split; apply K; cbn [table with_names appended h_types h_values]; rewrite app_length, map_length; reflexivity.
Qed.

(** *** writing *)
Definition written (nV : nat) (it : item) : item :=
  match i_type it with
  | BCFar | BCOut | BCOutP | BCIn | BCInPsTs =>
      {| i_type := i_type it; i_name := i_name it; i_value := Some (val_of nV it); i_extra := Some (extra_or_none it);
         i_opt := [("frameOption"%string, option_or0 it "frameOption"); ("anchorOption"%string, option_or0 it "anchorOption")] |}
  | BCSym => {| i_type := i_type it; i_name := i_name it; i_value := None; i_extra := Some (extra_or_none it); i_opt := [("rectifyOption"%string, option_or0 it "rectifyOption")] |}
  | _ => {| i_type := i_type it; i_name := i_name it; i_value := None; i_extra := Some (extra_or_none it);
            i_opt := [("frameOption"%string, option_or0 it "frameOption"); ("integrationOption"%string, option_or0 it "integrationOption");
                      ("specialOption"%string, option_or0 it "specialOption")] |}
  end.
Lemma write_one : forall nV o it0 j k it, (forall l, Permutation (o l) l) -> settings_ok nV j -> nth_error j k = Some it ->
  write_item (table nV o it0 j) (idk k) = Ok (written nV it).
Proof.
  intros nV o it0 j k it P S E. unfold write_item.
  assert (OK : item_ok nV it) by (destruct S as (F & _); rewrite Forall_forall in F; apply F; eapply nth_error_In; eauto).
  destruct OK as (T & V).
  assert (G : vget (h_types (table nV o it0 j)) (idk k) = Ok (i_type it)).
  { unfold vget. destruct (Z.ltb_spec (idk k) 0) as [C|_]; [unfold idk, BC_ID_DEFAULT_MAX in C; lia|].
    rewrite idk_nat. cbn [table with_names appended h_types new_handler]. rewrite <- types20, nth_app_at, (nth_map_ _ _ i_type _ _ it E). reflexivity. }
  rewrite G. cbn [bind]. erewrite name_of_id by eauto. cbn [bind].
  assert (F1 : vat (h_values (table nV o it0 j)) (idk k) = Ok (Some (val_of nV it))) by (apply vat_idk; [reflexivity|]; apply (nth_map_ _ _ (fun it => Some (val_of nV it))); auto).
  assert (F2 : vat (h_flags (table nV o it0 j)) (idk k) = Ok (flags_of it)) by (apply vat_idk; [reflexivity|]; apply nth_map_; auto).
  assert (F3 : vat (h_extra (table nV o it0 j)) (idk k) = Ok (extra_or_none it)) by (apply vat_idk; [reflexivity|]; apply nth_map_; auto).
  rewrite F1, F2, F3. cbn [bind]. unfold flags_of, item_flags, written. destruct (i_type it) eqn:Et; try (cbn; reflexivity). congruence.
Qed.
Lemma mapM_seq : forall A (f : nat -> res A) (g : list A) n, List.length g = n -> (forall k x, nth_error g k = Some x -> f k = Ok x) ->
  mapM f (seq 0 n) = Ok g.
Proof.
  intros A f g n L H. subst n. assert (K : forall g s, (forall k x, nth_error g k = Some x -> f (s + k)%nat = Ok x) -> mapM f (seq s (List.length g)) = Ok g).
  { clear g H. induction g as [|x g IH]; intros s H; cbn; auto.
    rewrite <- (Nat.add_0_r s) at 1. rewrite (H 0%nat x) by reflexivity. cbn [bind]. rewrite IH; auto.
    intros k y Hk. replace (S s + k)%nat with (s + S k)%nat by lia. apply H. auto. }
  apply K. auto.
Qed.
Lemma write_all : forall nV o it0 j, (forall l, Permutation (o l) l) -> settings_ok nV j -> to_json (table nV o it0 j) = Ok (map (written nV) j).
Proof.
  intros nV o it0 j P S. unfold to_json. cbn [table with_names appended h_types new_handler]. rewrite app_length, map_length.
  change (List.length default_types) with 20%nat. replace (20 + List.length j - Z.to_nat BC_ID_DEFAULT_MAX)%nat with (List.length j) by (unfold BC_ID_DEFAULT_MAX; lia).
  apply mapM_seq; [apply map_length|]. intros k x H. rewrite nth_error_map_ in H. destruct (nth_error j k) as [it|] eqn:E; [|discriminate].
  cbn in H. assert (X : x = written nV it) by congruence. subst x. apply (write_one nV o it0 j); auto.
Qed.
Lemma u32_idem : forall z, u32 (u32 z) = u32 z.
Proof. intros. unfold u32. apply Z.mod_mod. discriminate. Qed.
Lemma option_idem : forall it k, u32 (option_or0 it k) = option_or0 it k.
Proof. intros. unfold option_or0. destruct (map_find _ _); [apply u32_idem|reflexivity]. Qed.
Lemma written_type : forall nV it, i_type (written nV it) = i_type it.
Proof. intros. unfold written. destruct (i_type it); reflexivity. Qed.
Lemma written_name : forall nV it, i_name (written nV it) = i_name it.
Proof. intros. unfold written. destruct (i_type it); reflexivity. Qed.
Lemma written_ok : forall nV j, settings_ok nV j -> settings_ok nV (map (written nV) j).
Proof.
  intros nV j (F & ND & N). split; [|split].
  - rewrite Forall_forall in *. intros x Hx. apply in_map_iff in Hx. destruct Hx as (it & <- & Hi). destruct (F it Hi) as (T & V).
    split; rewrite written_type; auto. intros C. destruct (V C) as (v & Ev & L). exists v. split; auto.
    apply carries_has in C. unfold written, val_of. rewrite C, Ev. destruct (i_type it); try discriminate; reflexivity.
  - rewrite map_map. erewrite map_ext; [exact ND|]. intros. apply written_name.
  - intros x Hx. apply in_map_iff in Hx. destruct Hx as (it & <- & Hi). rewrite written_name. auto.
Qed.
Lemma written_val : forall nV it, item_ok nV it -> val_of nV (written nV it) = val_of nV it.
Proof.
  intros nV it (T & V). unfold val_of at 1. rewrite written_type. destruct (has_value (i_type it)) eqn:C.
  - unfold written. destruct (i_type it); try discriminate; reflexivity.
  - unfold val_of. rewrite C. reflexivity.
Qed.
Lemma written_extra : forall nV it, extra_or_none (written nV it) = extra_or_none it.
Proof. intros. unfold written. destruct (i_type it); reflexivity. Qed.
Lemma opt_mk : forall t n v x l k, option_or0 {| i_type := t; i_name := n; i_value := v; i_extra := x; i_opt := l |} k =
  match map_find l k with Some z => u32 z | None => 0%Z end.
Proof. reflexivity. Qed.
Ltac opts := rewrite !opt_mk; cbn [map_find String.eqb Ascii.eqb Bool.eqb]; rewrite ?option_idem.
Lemma written_flags : forall nV it, (not_written (i_type it) -> option_or0 it "integrationOption" = 0%Z) ->
  flags_of (written nV it) = flags_of it.
Proof.
  intros nV it H. unfold flags_of, item_flags. rewrite written_type. unfold not_written, carries_state in H.
  unfold written. destruct (i_type it) eqn:E; auto; opts; try reflexivity; rewrite H by (auto 10); reflexivity.
Qed.
Lemma numbered_written : forall nV j n, numbered n (map (written nV) j) = numbered n j.
Proof. induction j; intros; cbn; auto. rewrite written_name, IHj. reflexivity. Qed.
Lemma written_twice : forall nV it, item_ok nV it -> written nV (written nV it) = written nV it.
Proof.
  intros nV it OK. pose proof (written_val nV it OK) as W. unfold written at 1. rewrite written_type, written_name, W, written_extra.
  unfold written. destruct (i_type it); opts; reflexivity.
Qed.

Lemma round_trip : forall nV o it0 o' it0' j h, (forall l, Permutation (o l) l) ->
  from_json o nV (new_handler it0) j = Ok h ->
  (forall it, In it j -> not_written (i_type it) -> setting it "integrationOption" 0) ->
  exists j' h', to_json h = Ok j' /\ from_json o' nV (new_handler it0') j' = Ok h' /\ same_table h h'.
Proof.
  intros nV o it0 o' it0' j h P H I. apply from_json_val in H. destruct H as (S & ->).
  exists (map (written nV) j), (table nV o' it0' (map (written nV) j)). split; [apply write_all; auto|].
  split; [apply from_json_ok, written_ok; auto|]. destruct S as (F & _). rewrite Forall_forall in F.
  repeat split; cbn [table with_names appended h_types h_values h_flags h_extra h_name2id new_handler].
  - rewrite map_map. f_equal. apply map_ext. intros. symmetry. apply written_type.
  - rewrite map_map. f_equal. apply map_ext_in. intros. f_equal. symmetry. apply written_val. auto.
  - rewrite map_map. f_equal. apply map_ext_in. intros it Hi. symmetry. apply written_flags.
    intros NW. apply (setting_fun it "integrationOption"); [apply option_setting|auto].
  - rewrite map_map. f_equal. apply map_ext. intros. symmetry. apply written_extra.
  - rewrite numbered_written. reflexivity.
Qed.
Lemma write_stable : forall nV o it0 o' it0' j h, (forall l, Permutation (o l) l) -> (forall l, Permutation (o' l) l) ->
  from_json o nV (new_handler it0) j = Ok h ->
  exists j' h', to_json h = Ok j' /\ from_json o' nV (new_handler it0') j' = Ok h' /\ to_json h' = Ok j'.
Proof.
  intros nV o it0 o' it0' j h P P' H. apply from_json_val in H. destruct H as (S & ->).
  exists (map (written nV) j), (table nV o' it0' (map (written nV) j)). split; [apply write_all; auto|].
  split; [apply from_json_ok, written_ok; auto|]. rewrite write_all by (auto; apply written_ok; auto). f_equal.
  destruct S as (F & _). rewrite Forall_forall in F. rewrite map_map. apply map_ext_in. intros. apply written_twice. auto.
Qed.

(** *** reading in pieces *)
Lemma foldM_app : forall A S (f : S -> A -> res S) l l' s, foldM f s (l ++ l') = (do s' <- foldM f s l; foldM f s' l').
Proof. induction l as [|x l IH]; intros l' s; cbn; auto. destruct (f s x); cbn; auto. Qed.
Lemma read_names : forall nV m j h, foldM (read_item nV) (with_names h m) j = 
  match foldM (read_item nV) h j with Ok h' => Ok (with_names h' m) | Abort => Abort | UB => UB end.
Proof.
  induction j as [|it j IH]; intros h; cbn [foldM]; auto.
  assert (E : read_item nV (with_names h m) it = match read_item nV h it with Ok h' => Ok (with_names h' m) | Abort => Abort | UB => UB end).
  { unfold read_item. destruct (item_flags it); auto. destruct (item_value nV it); auto. cbn [bind].
    cbn [with_names h_name2id h_types h_values h_flags h_extra h_id2name]. destruct (map_find _ _); auto. }
  rewrite E. destruct (read_item nV h it); cbn [bind]; auto.
Qed.
Lemma pieces : forall nV o o' h j j' h1, from_json o nV h j = Ok h1 -> from_json o' nV h1 j' = from_json o' nV h (j ++ j').
Proof.
  intros nV o o' h j j' h1 H. unfold from_json in *. rewrite foldM_app. destruct (foldM (read_item nV) h j) as [h2| |]; try discriminate.
  cbn [bind] in *. assert (E : h1 = with_names h2 (renew (o (h_name2id h2)))) by congruence. subst h1. rewrite read_names.
  destruct (foldM (read_item nV) h2 j'); reflexivity.
Qed.

(** *** demanded flags *)
Lemma demanded_present : forall nV o it0 j h k it key, from_json o nV (new_handler it0) j = Ok h -> nth_error j k = Some it ->
  In key (demanded (i_type it)) -> exists z, GetFlagFromID h (20 + Z.of_nat k) key = Ok z.
Proof.
  intros nV o it0 j h k it key H E D.
  destruct (reads_flags _ _ _ _ _ H k it key E) as (A & _).
  assert (X : exists jk, In (key, jk) (flag_fields (i_type it))).
  { destruct (i_type it); cbn in D; try contradiction; destruct D as [<-|[]]; cbn; eauto 10. }
  destruct X as (jk & X). destruct (A jk X) as (z & _ & Z & _). eauto.
Qed.

(** *** cases *)
Definition far1 : item := {| i_type := BCFar; i_name := "inflow"; i_value := Some [1; 2; 0; 0; 5]%R; i_extra := None;
  i_opt := [("frameOption"%string, 1%Z); ("integrationOption"%string, 1%Z)] |}.
Definition wall1 : item := {| i_type := BCWall; i_name := "blade"; i_value := None; i_extra := Some [3%R];
  i_opt := [("integrationOption"%string, 1%Z)] |}.
Definition sym1 : item := {| i_type := BCSym; i_name := "mid"; i_value := None; i_extra := None; i_opt := [] |}.
Lemma case_ok : settings_ok 5 [far1; wall1; sym1].
Proof.
  split; [|split].
  - repeat constructor; cbn; try discriminate; intros [C|[C|[C|[C|C]]]]; try discriminate; eexists; split; reflexivity.
  - cbn. repeat (constructor; [cbn; intros H; repeat destruct H as [H|H]; try discriminate; try contradiction|]). constructor.
  - intros it H C. cbn in H. destruct H as [<-|[<-|[<-|[]]]]; cbn in C; repeat destruct C as [C|C]; try discriminate; contradiction.
Qed.
Lemma drops : exists nV j h j' h', from_json (fun l => l) nV (new_handler GetFaceName2IDDefault) j = Ok h /\ to_json h = Ok j' /\
  from_json (fun l => l) nV (new_handler GetFaceName2IDDefault) j' = Ok h' /\
  GetFlagFromID h 20 "integrationOpt" = Ok 1%Z /\ GetFlagFromID h' 20 "integrationOpt" = Ok 0%Z.
Proof.
  exists 5%nat, [far1; wall1; sym1], (table 5 (fun l => l) GetFaceName2IDDefault [far1; wall1; sym1]), (map (written 5) [far1; wall1; sym1]),
    (table 5 (fun l => l) GetFaceName2IDDefault (map (written 5) [far1; wall1; sym1])).
  split; [apply from_json_ok, case_ok|]. split; [apply write_all; [apply Permutation_refl|apply case_ok]|].
  split; [apply from_json_ok, written_ok, case_ok|]. split; reflexivity.
Qed.
Lemma default_missing : forall nV o it0 j h, from_json o nV (new_handler it0) j = Ok h ->
  (GetTypeFromID h BC_ID_DEFAULT_WALL = Ok BCWall /\ GetFlagFromID h BC_ID_DEFAULT_WALL "frameOpt" = Abort) /\
  (GetTypeFromID h BC_ID_DEFAULT_FAR = Ok BCFar /\ GetFlagFromID h BC_ID_DEFAULT_FAR "frameOpt" = Abort) /\
  (GetTypeFromID h BC_ID_DEFAULT_SPECIAL_DMR_FAR = Ok BCSpecial /\ GetFlagFromID h BC_ID_DEFAULT_SPECIAL_DMR_FAR "specialOpt" = Abort).
Proof. intros nV o it0 j h H. apply from_json_val in H. destruct H as (S & ->). repeat split. Qed.
Lemma default_aborts : forall nV o it0 j h v b id e n p pf t fixUL UL ULm, from_json o nV (new_handler it0) j = Ok h ->
  id = BC_ID_DEFAULT_WALL \/ id = BC_ID_DEFAULT_FAR -> row h id v = Ok b -> fr_on (e_frame e) = true ->
  boundary_value e b n p pf t fixUL UL ULm = Abort.
Proof.
  intros nV o it0 j h v b id e n p pf t fixUL UL ULm H I Rw T. apply from_json_val in H. destruct H as (S & ->).
  assert (F : b_flag b = map_find [] /\ (b_type b = BCWall \/ b_type b = BCFar)).
  { destruct I as [-> | ->]; cbn in Rw; injection Rw as <-; auto. }
  destruct F as (F & [Ty|Ty]); unfold boundary_value; rewrite Ty.
  - unfold gen_wall, get_flag. rewrite T, F. reflexivity.
  - unfold gen_far, far_state, get_flag. rewrite Ty, T, F. destruct (Rlt_dec _ _); reflexivity.
Qed.
(** *** the name of a default id depends on the iteration order *)
Lemma two_names : forall nV o it0 j h, (forall l, Permutation (o l) l) -> from_json o nV (new_handler it0) j = Ok h ->
  GetNameFormID h BC_ID_DEFAULT_WALL = "WALL"%string \/ GetNameFormID h BC_ID_DEFAULT_WALL = "bc-4"%string.
Proof.
  intros nV o it0 j h P H. apply from_json_val in H. destruct H as (S & ->). unfold GetNameFormID.
  cbn [table with_names h_id2name appended h_name2id new_handler h_types]. rewrite types20.
  set (L := GetFaceName2IDDefault ++ numbered 20 j).
  assert (Q : forall x, In x (o L) <-> In x L) by (intros x; split; apply Permutation_in; [apply P|apply Permutation_sym, P]).
  destruct (id_find_some (renew (o L)) BC_ID_DEFAULT_WALL "WALL") as (s & E).
  { apply renew_in, Q, in_app_iff. left. cbn. auto 20. }
  rewrite E. apply id_find_in, renew_in, Q, in_app_iff in E. destruct E as [E|E].
  - cbn in E. repeat destruct E as [E|E]; try (inversion E; auto; fail). 
  - apply numbered_in in E. destruct E as (k & it & _ & _ & D). unfold BC_ID_DEFAULT_WALL in D. lia.
Qed.
Lemma name_varies : exists o o' h h', (forall l, Permutation (o l) l) /\ (forall l, Permutation (o' l) l) /\
  from_json o 5 (new_handler GetFaceName2IDDefault) [far1; wall1; sym1] = Ok h /\
  from_json o' 5 (new_handler GetFaceName2IDDefault) [far1; wall1; sym1] = Ok h' /\
  GetNameFormID h BC_ID_DEFAULT_WALL <> GetNameFormID h' BC_ID_DEFAULT_WALL.
Proof.
  exists (fun l => l), (@rev _). eexists. eexists. split; [intros; apply Permutation_refl|]. split; [intros; apply Permutation_sym, Permutation_rev|].
  split; [apply from_json_ok, case_ok|]. split; [apply from_json_ok, case_ok|]. cbn. discriminate.
Qed.
Lemma case_flags : forall h, from_json (fun l => l) 5 (new_handler GetFaceName2IDDefault) [far1; wall1; sym1] = Ok h ->
  GetFlagFromID h 20 "frameOpt" = Ok 1%Z /\ GetFlagFromID h 21 "frameOpt" = Ok 0%Z /\ GetFlagFromID h 22 "frameOpt" = Abort.
Proof. intros h H. apply from_json_val in H. destruct H as (_ & ->). repeat split. Qed.
