From Coq Require Import ZArith List Bool String Ascii Arith Lia.
From Coq Require Import DecimalString DecimalZ DecimalPos.
From Verif Require Import Base.Prelude Base.PreludeFacts Base.MPIModel Base.MPIFacts DNDS.ArrayModel DNDS.ArraySpec DNDS.ArrayProofs
  DNDS.JsonModel DNDS.JsonSpec DNDS.JsonRun DNDS.JsonProofs DNDS.SharedModel DNDS.SharedSpec DNDS.SharedProofs
  DNDS.SerialModel DNDS.SerialSpec.
Import ListNotations.
Open Scope list_scope.
Open Scope Z_scope.

Notation good := JsonProofs.good.
Notation place := JsonSpec.place.

(** ** The signature *)
Definition us : ascii := "_"%char.
Lemma free_uint : forall d, free_of us (NilEmpty.string_of_uint d) = true.
Proof. induction d; cbn; auto. Qed.
Lemma free_to_string : forall z, free_of us (to_string z) = true.
Proof.
  intros z. unfold to_string. destruct (Z.to_int z); cbn [NilEmpty.string_of_int]; [apply free_uint|cbn; apply free_uint].
Qed.
Lemma nonempty_uint : forall d, d <> Decimal.Nil -> nonempty (NilEmpty.string_of_uint d) = true.
Proof. destruct d; cbn; auto. Qed.
Lemma nonempty_to_string : forall z, nonempty (to_string z) = true.
Proof.
  intros [|p|p]; [reflexivity| |reflexivity]. unfold to_string. cbn [Z.to_int NilEmpty.string_of_int].
  apply nonempty_uint. apply DecimalPos.Unsigned.to_uint_nonnil.
Qed.
Lemma stoi_to_string : forall z, stoi (to_string z) = Ok z.
Proof.
  intros z. unfold stoi, to_string.
  assert (H : NilEmpty.int_of_string (NilEmpty.string_of_int (Z.to_int z)) = Some (Z.to_int z)) by apply NilEmpty.isi.
  rewrite H, DecimalZ.of_to. reflexivity.
Qed.
Lemma filter_split : forall n r, free_of us n = true -> nonempty n = true ->
  filter nonempty (split us (n ++ String us r)%string) = n :: filter nonempty (split us r).
Proof. intros n r F N. rewrite split_app by exact F. cbn [filter]. rewrite N. reflexivity. Qed.
Lemma split_tail : forall a b c d,
  filter nonempty (split us (to_string a ++ String us (to_string b ++ String us (to_string c ++ String us (to_string d))))%string)
  = [to_string a; to_string b; to_string c; to_string d].
Proof.
  intros. rewrite !filter_split by (apply free_to_string || apply nonempty_to_string).
  rewrite split_free by apply free_to_string. cbn [filter]. rewrite nonempty_to_string. reflexivity.
Qed.
Lemma signature_words : forall sizeofT align l,
  exists w, (List.length w = 1 \/ List.length w = 2)%nat /\
    filter nonempty (split us (GetArraySignature sizeofT align l)) =
    w ++ [to_string sizeofT; to_string (row_size_of l); to_string (row_max_of l); to_string align].
Proof.
  intros.
  set (tl := (to_string sizeofT ++ "_" ++ to_string (row_size_of l) ++ "_" ++ to_string (row_max_of l) ++ "_" ++ to_string align)%string).
  assert (HT : filter nonempty (split us tl) =
    [to_string sizeofT; to_string (row_size_of l); to_string (row_max_of l); to_string align]) by apply split_tail.
  assert (P : forall n, free_of us n = true -> nonempty n = true ->
     filter nonempty (split us (n ++ "__" ++ tl)%string) = n :: filter nonempty (split us tl)).
  { intros n F N. change ("__" ++ tl)%string with (String us (String us tl)). rewrite filter_split by assumption. reflexivity. }
  assert (P2 : forall n, free_of us n = true -> nonempty n = true ->
     filter nonempty (split us ("TABLE" ++ String us (n ++ "__" ++ tl))%string) = "TABLE"%string :: n :: filter nonempty (split us tl)).
  { intros n F N. rewrite (filter_split "TABLE") by reflexivity. rewrite P by assumption. reflexivity. }
  rewrite <- HT. unfold GetArraySignature. fold tl.
  destruct l.
    - exists ["TABLE"%string; "StaticFixed"%string]. split; [auto|]. exact (P2 "StaticFixed"%string eq_refl eq_refl).
    - exists ["TABLE"%string; "Fixed"%string]. split; [auto|]. exact (P2 "Fixed"%string eq_refl eq_refl).
    - exists ["TABLE"%string; "Max"%string]. split; [auto|]. exact (P2 "Max"%string eq_refl eq_refl).
    - exists ["TABLE"%string; "StaticMax"%string]. split; [auto|]. exact (P2 "StaticMax"%string eq_refl eq_refl).
    - exists ["CSR"%string]. split; [auto|]. exact (P "CSR"%string eq_refl eq_refl).
Qed.
Lemma parse_signature : forall sizeofT align l,
  ParseArraySignatureTuple (GetArraySignature sizeofT align l) = Ok (sizeofT, row_size_of l, row_max_of l, align).
Proof.
  intros. unfold ParseArraySignatureTuple, splitClean. fold us.
  destruct (signature_words sizeofT align l) as (w & LW & E). rewrite E.
  destruct w as [|w1 [|w2 [|w3 w]]]; cbn [List.length] in LW; try lia;
    cbn [app List.length Nat.eqb orb assert_ bind Nat.sub nth]; rewrite !stoi_to_string; reflexivity.
Qed.

Section Serial.
Variable T : Type.
Variable dflt : T.
Variables sizeofT align : Z.
Variable type_name : layout -> string.
Notation WriteSerializer := (WriteSerializer T dflt sizeofT align type_name).
Notation ReadSerializer := (ReadSerializer T sizeofT align).
Notation rel := (rel T).
Notation kept := (kept T).

(** ** Trees *)
Definition ok_dir (t : tree T) (d : list string) : Prop := forall k, t (firstn k d) = Some Dir.

Lemma prefix_firstn : forall k q x, prefix (firstn k q) (q ++ x) = true.
Proof. induction k; intros [|a q] x; cbn; auto. rewrite String.eqb_refl. cbn. auto. Qed.
Lemma prefix_longer : forall q n x k, prefix (q ++ n :: x) (firstn k q) = false.
Proof.
  induction q as [|a q IH]; intros n x k; [destruct k; reflexivity|].
  destruct k; cbn; auto. rewrite String.eqb_refl. cbn. apply IH.
Qed.
Lemma ok_dir_place : forall t d n x e, ok_dir t d -> ok_dir (place t (d ++ n :: x) e) d.
Proof.
  intros t d n x e H k. unfold place. rewrite prefix_longer, prefix_firstn. reflexivity.
Qed.
Lemma ok_dir_created : forall (t : tree T) d, ok_dir (place t d Dir) d.
Proof.
  intros t d k. unfold place. pose proof (prefix_firstn k d []) as P. rewrite app_nil_r in P. rewrite P.
  destruct (prefix d (firstn k d)); reflexivity.
Qed.
Lemma ok_dir_up : forall t d x, ok_dir t (d ++ x) -> ok_dir t d.
Proof.
  intros t d x H k. destruct (Nat.le_gt_cases k (List.length d)) as [L|L].
  - specialize (H k). rewrite firstn_app in H. replace (k - List.length d)%nat with 0%nat in H by lia.
    cbn in H. rewrite app_nil_r in H. exact H.
  - rewrite firstn_all2 by lia. specialize (H (List.length d)). rewrite firstn_app, Nat.sub_diag, firstn_all in H.
    cbn in H. rewrite app_nil_r in H. exact H.
Qed.
Lemma ok_dir_here : forall t d, ok_dir t d -> t d = Some Dir.
Proof. intros t d H. specialize (H (List.length d)). rewrite firstn_all in H. exact H. Qed.
Lemma ok_dir_below : forall t d n, ok_dir t d -> t (d ++ [n]) = Some Dir -> ok_dir t (d ++ [n]).
Proof.
  intros t d n H E k. destruct (Nat.le_gt_cases k (List.length d)) as [L|L].
  - rewrite firstn_app. replace (k - List.length d)%nat with 0%nat by lia. cbn. rewrite app_nil_r. apply H.
  - rewrite firstn_all2; [exact E|]. rewrite app_length. cbn. lia.
Qed.
Lemma unblocked : forall t d n, ok_dir t d -> blocked t (d ++ [n]) = false.
Proof.
  intros t d n H. unfold blocked. apply not_true_iff_false. intro E. apply existsb_exists in E.
  destruct E as (k & I & E). apply in_seq in I. rewrite app_length in I. cbn in I.
  rewrite firstn_app in E. replace (k - List.length d)%nat with 0%nat in E by lia. cbn in E.
  rewrite app_nil_r, H in E. discriminate.
Qed.
Lemma unblocked2 : forall t d n m, ok_dir t d -> is_val (t (d ++ [n])) = false -> blocked t ((d ++ [n]) ++ [m]) = false.
Proof.
  intros t d n m H V. unfold blocked. apply not_true_iff_false. intro E. apply existsb_exists in E.
  destruct E as (k & I & E). apply in_seq in I. rewrite !app_length in I. cbn in I.
  rewrite <- app_assoc in E. cbn [app] in E.
  destruct (Nat.le_gt_cases k (List.length d)) as [L|L].
  - rewrite firstn_app in E. replace (k - List.length d)%nat with 0%nat in E by lia. cbn in E.
    rewrite app_nil_r, H in E. discriminate.
  - replace k with (List.length d + 1)%nat in E by lia. rewrite firstn_app_2 in E. cbn in E. congruence.
Qed.
Lemma comparable_names : forall d n m x y, n <> m -> comparable (d ++ n :: x) (d ++ m :: y) = false.
Proof.
  intros d n m x y N. unfold comparable. apply orb_false_iff.
  split; induction d as [|a d IH]; cbn.
  - destruct (String.eqb_spec n m); [congruence|reflexivity].
  - rewrite String.eqb_refl. exact IH.
  - destruct (String.eqb_spec m n); [congruence|reflexivity].
  - rewrite String.eqb_refl. exact IH.
Qed.
Lemma comparable_above : forall q n x, comparable q x = false -> comparable (q ++ n) x = false.
Proof. intros q n x H. rewrite comparable_sym. apply comparable_below. rewrite comparable_sym. exact H. Qed.

(** ** One step each *)
Lemma create_ok : forall s cur t n, rel s (cur, t) -> ok_dir t cur -> good_name n = true ->
  exists s', CreatePath s n = Ok s' /\ rel s' (cur, place t (cur ++ [n]) Dir) /\ ptr2pth s' = ptr2pth s /\ pth2ssp s' = pth2ssp s.
Proof.
  intros s cur t n R D N.
  assert (G : good_op (T:=T) (Create (Rel n []))) by (intros m [<-|[]]; exact N).
  pose proof (step_ok T s _ _ R G) as H. cbn [sstep resolve] in H. rewrite (unblocked _ _ _ D) in H.
  destruct H as (s' & E & R' & P). cbn [step text slashes] in E. change (n ++ "")%string with (n ++ "")%string in E.
  rewrite app_empty in E. destruct (CreatePath s n); cbn in E; try discriminate. injection E as ->. eauto.
Qed.
Lemma goto_ok : forall s cur t n, rel s (cur, t) -> t (cur ++ [n]) = Some Dir -> good_name n = true ->
  exists s', GoToPath s n = Ok s' /\ rel s' (cur ++ [n], t) /\ ptr2pth s' = ptr2pth s /\ pth2ssp s' = pth2ssp s.
Proof.
  intros s cur t n R D N.
  assert (G : good_op (T:=T) (GoTo (Rel n []))) by (intros m [<-|[]]; exact N).
  pose proof (step_ok T s _ _ R G) as H. cbn [sstep resolve] in H. rewrite D in H.
  destruct H as (s' & E & R' & P). cbn [step text slashes] in E.
  rewrite app_empty in E. destruct (GoToPath s n); cbn in E; try discriminate. injection E as ->. eauto.
Qed.
Lemma return_ok : forall s cur t d, rel s (cur, t) -> t d = Some Dir -> good d ->
  exists s', GoToPath s (slashes d) = Ok s' /\ rel s' (d, t) /\ ptr2pth s' = ptr2pth s /\ pth2ssp s' = pth2ssp s.
Proof.
  intros s cur t d R D N.
  pose proof (step_ok T s _ (GoTo (Abs d)) R N) as H. cbn [sstep resolve] in H. rewrite D in H.
  destruct H as (s' & E & R' & P). cbn [step text] in E.
  destruct (GoToPath s (slashes d)); cbn in E; try discriminate. injection E as ->. eauto.
Qed.
Lemma write_ok : forall s cur t n v, rel s (cur, t) -> ok_dir t cur -> good_name n = true ->
  exists s', write s n (json_of v) = Ok s' /\ rel s' (cur, place t (cur ++ [n]) (Val v)) /\ ptr2pth s' = ptr2pth s.
Proof.
  intros s cur t n v R D N.
  assert (G : good_op (Put n v)) by (intros m [<-|[]]; exact N).
  pose proof (step_ok T s _ _ R G) as H. cbn [sstep] in H. rewrite (unblocked _ _ _ D) in H.
  destruct H as (s' & E & R' & P & _). cbn [step] in E.
  destruct (write s n (json_of v)); cbn in E; try discriminate. injection E as ->. eauto.
Qed.
Lemma read_num : forall s cur t n z, rel s (cur, t) -> good_name n = true -> t (cur ++ [n]) = Some (Val (VNum z)) ->
  ReadNum s n = Ok z.
Proof.
  intros s cur t n z R N D.
  assert (G : good_op (T:=T) (Get KNum n)) by (intros m [<-|[]]; exact N).
  pose proof (step_ok T s _ _ R G) as H. cbn [sstep] in H. rewrite D in H. cbn in H.
  destruct H as (s' & E & _). destruct (ReadNum s n); cbn in E; try discriminate. injection E as _ ->. reflexivity.
Qed.
Lemma read_str : forall s cur t n z, rel s (cur, t) -> good_name n = true -> t (cur ++ [n]) = Some (Val (VStr z)) ->
  ReadStr s n = Ok z.
Proof.
  intros s cur t n z R N D.
  assert (G : good_op (T:=T) (Get KStr n)) by (intros m [<-|[]]; exact N).
  pose proof (step_ok T s _ _ R G) as H. cbn [sstep] in H. rewrite D in H. cbn in H.
  destruct H as (s' & E & _). destruct (ReadStr s n); cbn in E; try discriminate. injection E as _ ->. reflexivity.
Qed.
Lemma read_data : forall s cur t n z, rel s (cur, t) -> good_name n = true -> t (cur ++ [n]) = Some (Val (VData z)) ->
  ReadData s n = Ok z.
Proof.
  intros s cur t n z R N D.
  assert (G : good_op (T:=T) (Get KData n)) by (intros m [<-|[]]; exact N).
  pose proof (step_ok T s _ _ R G) as H. cbn [sstep] in H. rewrite D in H. cbn in H.
  destruct H as (s' & E & _). destruct (ReadData s n); cbn in E; try discriminate. injection E as _ ->. reflexivity.
Qed.

(** what the vectors of the log hold *)
Definition held (h : heap) (log : list shared) : Prop :=
  forall x, In x log -> nth_error h (saddr x) = Some (scont x).

Lemma WriteShared_ok : forall (s : ser T) cur t n a l,
  rel s (cur, t) -> good_name n = true -> ok_dir t cur -> t (cur ++ [n]) = None ->
  exists s', WriteShared s n a l = Ok s'.
Proof.
  intros s cur t n a l (C & P & G & V) N D E0. cbn [fst snd] in *.
  destruct (good_parts n N) as (_ & _ & _ & NT).
  assert (GR : good (cur ++ [n])) by (apply good_app; [exact G|intros m [<-|[]]; exact N]).
  unfold WriteShared. rewrite P, (pointer_good _ G). cbn [bind].
  destruct (assoc Nat.eqb a (ptr2pth s)) as [p|].
  - assert (E : forall j, at_pointer cur (at_key n (at_key "ref" (fun _ => Ok (@JStr T p)))) j =
                 at_pointer ((cur ++ [n]) ++ ["ref"%string]) (fun _ => Ok (JStr p)) j).
    { intros j. rewrite at_pointer_key by exact NT. rewrite at_pointer_key by reflexivity. reflexivity. }
    rewrite E.
    assert (GR2 : good ((cur ++ [n]) ++ ["ref"%string])) by (apply good_app; [exact GR|intros m [<-|[]]; reflexivity]).
    pose proof (put_at T _ (JStr p) (Val (VStr p)) (root s) t GR2 (stored_leaf T (VStr p)) V) as H.
    rewrite unblocked2 in H by (auto; rewrite E0; reflexivity). destruct H as (j' & -> & _). cbn [bind]. eauto.
  - rewrite at_pointer_key by exact NT.
    pose proof (put_at T _ (JVec l) (Val (VVec l)) (root s) t GR (stored_leaf T (VVec l)) V) as H.
    rewrite unblocked in H by exact D. destruct H as (j' & -> & _). cbn [bind]. eauto.
Qed.

Lemma share_ok : forall s cur t log home h n k l,
  rel s (cur, t) -> kept s t log home -> ok_dir t cur -> held h log ->
  good_name n = true -> t (cur ++ [n]) = None ->
  (forall x, In x log -> comparable (cur ++ [n]) (splace x) = false) ->
  nth_error h k = Some l ->
  exists s' t' home', WriteShared s n k l = Ok s' /\ rel s' (cur, t') /\ ok_dir t' cur /\
    kept s' t' (log ++ [{| sdir := cur; sname := n; saddr := k; scont := l |}]) home' /\
    held h (log ++ [{| sdir := cur; sname := n; saddr := k; scont := l |}]) /\
    (forall x, comparable (cur ++ [n]) x = false -> t' x = t x).
Proof.
  intros s cur t log home h n k l R K D HL N E0 C HK.
  destruct (WriteShared_ok s cur t n k l R N D E0) as (s' & W).
  assert (SF : safe T cur (nth_error h) log home [Share n k]).
  { split.
    - intros x I. cbn. rewrite (C x I). auto.
    - intros x I. apply HL. apply (k_home _ _ _ _ _ K). exact I. }
  assert (WR : wrun (s, nth_error h) [Share n k] = Ok (s', nth_error h)).
  { unfold wrun. cbn [foldM wstep]. rewrite HK. cbn [bind]. rewrite W. reflexivity. }
  destruct (kept_run T [Share n k] s (nth_error h) s' (nth_error h) cur t log home R K SF) as (cur' & t' & home' & R' & K'); auto.
  { intros e [<-|[]]. exact N. }
  cbn [written goes] in K'. rewrite HK in K'. cbn [app] in K'.
  assert (HT : exists t'', rel s' (cur, t'') /\ ok_dir t'' cur /\ (forall x, comparable (cur ++ [n]) x = false -> t'' x = t x)).
  { destruct (assoc Nat.eqb k (ptr2pth s)) as [p|] eqn:A.
    - pose proof (WriteShared_old T s cur t n k l p R N A) as H. rewrite W in H. destruct H as [H _].
      eexists. split; [exact H|]. split.
      + rewrite <- app_assoc. apply ok_dir_place. exact D.
      + intros x Q. apply place_elsewhere. apply comparable_above. exact Q.
    - pose proof (WriteShared_new T s cur t n k l R N A) as H. rewrite W in H. destruct H as [H _].
      eexists. split; [exact H|]. split.
      + apply ok_dir_place. exact D.
      + intros x Q. apply place_elsewhere. exact Q. }
  destruct HT as (t'' & R'' & D'' & F'').
  assert (EQ : forall x, t'' x = t' x).
  { intros x. destruct R' as (_ & _ & _ & V'), R'' as (_ & _ & _ & V''). cbn [snd] in *. rewrite <- V', <- V''. reflexivity. }
  exists s', t'', home'. split; [exact W|]. split; [exact R''|]. split; [exact D''|]. split.
  - apply (kept_elsewhere T s' s' t' t''); auto.
  - split; [|exact F'']. intros x I. apply in_app_or in I. destruct I as [I|[<-|[]]]; [apply HL; exact I|exact HK].
Qed.

(** ** Writing one array *)
Definition written_spec (sp : sarr T) : sarr T := if is_csr (slay sp) then with_comp sp true else sp.

(** What the file holds of an array. *)
Record saved (t : tree T) (D : list string) (sp : sarr T) (l : layout) (rd : Z) (log : list shared) : Prop := {
  s_dir : t D = Some Dir;
  s_sig : t (D ++ ["array_sig"%string]) = Some (Val (VStr (GetArraySignature sizeofT align l)));
  s_size : t (D ++ ["size"%string]) = Some (Val (VNum (zlen (cells sp))));
  s_rd : t (D ++ ["row_size_dynamic"%string]) = Some (Val (VNum rd));
  s_data : t (D ++ ["data"%string]) = Some (Val (VData (List.concat (cells sp))));
  s_vec : match l with
          | CSR => exists x, In x log /\ sdir x = D /\ sname x = "pRowStart"%string /\ scont x = psums 0 (zlensl (cells sp))
          | Max | StaticMax _ => exists x, In x log /\ sdir x = D /\ sname x = "pRowSizes"%string /\ scont x = map Z.of_nat (used sp)
          | _ => True
          end
}.
Lemma saved_elsewhere : forall t t' D sp l rd log log', saved t D sp l rd log ->
  (forall b, t' (D ++ b) = t (D ++ b)) -> saved t' D sp l rd (log ++ log').
Proof.
  intros t t' D sp l rd log log' [A B C E F G] H.
  constructor; rewrite ?H; auto.
  - specialize (H []). rewrite app_nil_r in H. rewrite H. exact A.
  - destruct l; auto; destruct G as (x & I & G); exists x; (split; [apply in_or_app; left; exact I|exact G]).
Qed.

Lemma held_app : forall h e log, held h log -> held (h ++ e) log.
Proof.
  intros h e log H x I. rewrite nth_error_app1; [apply H; exact I|].
  eapply nth_error_Some_lt. apply H. exact I.
Qed.

(** the compression done before the row starts are written *)
Lemma compress_step : forall h a cl c, rep T h a {| slay := CSR; comp := c; width := 0; cells := cl; used := [] |} ->
  exists a' e k, (do c <- IfCompressed a; if c then Ok (h, a) else Compress dflt h a) = Ok (h ++ e, a') /\
    rep T (h ++ e) a' {| slay := CSR; comp := true; width := 0; cells := cl; used := [] |} /\
    pStart a' = Some k /\ nth_error (h ++ e) k = Some (psums 0 (zlensl cl)) /\ rsd a' = rsd a /\
    frame T h 0 a (h ++ e) a'.
Proof.
  intros h a cl c R.
  pose proof (rep_csr_mode _ _ _ _ _ R) as [E [Hl Hn]]. cbn zeta in *. rewrite E. cbn [bind].
  destruct (locked _) eqn:LK.
  - destruct (Hl eq_refl) as [-> (_ & _ & _ & k & Hk & Hv)]. exists a, [], k. rewrite app_nil_r.
    split; [reflexivity|]. split; [exact R|]. split; [exact Hk|]. split; [exact Hv|]. split; [reflexivity|].
    apply frame_same; auto.
  - pose proof (good_compress T dflt h 0 a _ R) as G. unfold Compress in *.
    pose proof (r_lay _ _ _ _ R) as HLa. cbn [slay] in HLa. rewrite HLa, E in G |- *. cbn [bind] in G |- *.
    destruct (mapM _ _) as [lens| |]; cbn [bind] in *; try (cbn in G; (discriminate || contradiction)).
    destruct (vresize _ _ _) as [d0| |]; cbn [bind] in *; try (cbn in G; (discriminate || contradiction)).
    destruct (foldM _ _ _) as [d| |]; cbn [bind alloc] in *; try (cbn in G; (discriminate || contradiction)).
    destruct G as (s' & I & R' & F). cbn [allowed1 is_csr slay] in I. destruct I as [<-|[]].
    cbn [with_comp slay comp width cells used] in R'. pose proof R' as R2. apply rep_csr in R2.
    destruct R2 as (_ & _ & _ & _ & _ & _ & k & Hk & Hv).
    eexists _, _, k. split; [reflexivity|]. split; [exact R'|]. split; [exact Hk|]. split; [exact Hv|].
    split; [reflexivity|exact F].
Qed.

Ltac gn := (reflexivity || assumption).

Lemma write_array_ok : forall s cur t log home h a sp name,
  rel s (cur, t) -> ok_dir t cur -> kept s t log home -> held h log -> good_name name = true ->
  (forall x, In x log -> comparable (cur ++ [name]) (splace x) = false) ->
  rep T h a sp -> writable a ->
  exists s' t' h' a' log' home',
    WriteSerializer s h a name = Ok (s', h', a') /\ rel s' (cur, t') /\ ok_dir t' cur /\
    kept s' t' (log ++ log') home' /\ held h' (log ++ log') /\
    (forall x, In x log' -> sdir x = cur ++ [name]) /\
    (exists e, h' = h ++ e) /\ rep T h' a' (written_spec sp) /\ frame T h 0 a h' a' /\
    (is_csr (lay a) = false -> a' = a) /\ rsd a' = rsd a /\
    saved t' (cur ++ [name]) sp (lay a) (rsd a) (log ++ log') /\
    (forall x, comparable (cur ++ [name]) x = false -> t' x = t x).
Proof.
  intros s cur t log home h a sp name R D K HL N C RP W.
  set (q := cur ++ [name]) in *.
  unfold WriteSerializer, SerialModel.WriteSerializer.
  assert (CP : GetCurrentPath s = slashes cur) by (destruct R as (_ & P & _); exact P). rewrite CP.
  assert (GC : good cur) by (destruct R as (_ & _ & G & _); exact G).
  destruct (create_ok s cur t name R D N) as (s1 & -> & R1 & P1 & _). cbn [bind]. fold q in R1.
  set (t1 := place t q Dir) in *.
  assert (F1 : forall x, comparable q x = false -> t1 x = t x) by (intros; apply place_elsewhere; assumption).
  assert (D1 : ok_dir t1 q) by apply ok_dir_created.
  assert (B1 : forall n, t1 (q ++ [n]) = None).
  { intros n. unfold t1, place. rewrite (prefix_trans_app q [n] q (prefix_refl q)).
    rewrite <- (firstn_all q) at 2. rewrite prefix_longer. reflexivity. }
  destruct (goto_ok s1 cur t1 name R1 (ok_dir_here _ _ D1) N) as (s2 & -> & R2 & P2 & _). cbn [bind]. fold q in R2.
  (* a write under q *)
  assert (step1 : forall s0 t0 n v, rel s0 (q, t0) -> ok_dir t0 q -> good_name n = true ->
     exists s' t', write s0 n (json_of v) = Ok s' /\ rel s' (q, t') /\ ok_dir t' q /\ ptr2pth s' = ptr2pth s0 /\
       t' (q ++ [n]) = Some (Val v) /\ (forall m y, m <> n -> t' (q ++ m :: y) = t0 (q ++ m :: y)) /\
       (forall x, comparable q x = false -> t' x = t0 x)).
  { intros s0 t0 n v R0 D0 G0. destruct (write_ok s0 q t0 n v R0 D0 G0) as (s' & E & R' & P').
    exists s', (place t0 (q ++ [n]) (Val v)). split; [exact E|]. split; [exact R'|].
    split; [apply ok_dir_place; exact D0|]. split; [exact P'|]. split; [apply place_self|].
    split; intros.
    - apply place_elsewhere. apply comparable_names. congruence.
    - apply place_elsewhere. apply comparable_above. assumption. }
  destruct (step1 s2 t1 "array_sig"%string (VStr (GetArraySignature sizeofT align (lay a))) R2 D1 eq_refl)
    as (s3 & t3 & E3 & R3 & D3 & P3 & V3 & O3 & F3).
  cbn [json_of] in E3. rewrite E3. cbn [bind].
  destruct (step1 s3 t3 "array_type"%string (VStr (type_name (lay a))) R3 D3 eq_refl)
    as (s4 & t4 & E4 & R4 & D4 & P4 & V4 & O4 & F4).
  cbn [json_of] in E4. rewrite E4. cbn [bind].
  destruct (step1 s4 t4 "size"%string (VNum (size a)) R4 D4 eq_refl)
    as (s5 & t5 & E5 & R5 & D5 & P5 & V5 & O5 & F5).
  cbn [json_of] in E5. rewrite E5. cbn [bind].
  destruct (step1 s5 t5 "row_size_dynamic"%string (VNum (rsd a)) R5 D5 eq_refl)
    as (s6 & t6 & E6 & R6 & D6 & P6 & V6 & O6 & F6).
  cbn [json_of] in E6. rewrite E6. cbn [bind].
  assert (F : forall x, comparable q x = false -> t6 x = t x) by (intros x Q; rewrite F6, F5, F4, F3, F1; auto).
  assert (K6 : kept s6 t6 log home).
  { apply (kept_elsewhere T s s6 t t6); auto; [congruence|].
    intros x I b. apply F. apply comparable_below. apply C. exact I. }
  assert (V6s : t6 (q ++ ["array_sig"%string]) = Some (Val (VStr (GetArraySignature sizeofT align (lay a))))).
  { rewrite O6, O5, O4 by discriminate. exact V3. }
  assert (V6n : t6 (q ++ ["size"%string]) = Some (Val (VNum (size a)))).
  { rewrite O6 by discriminate. exact V5. }
  assert (V6e : forall n, n <> "array_sig"%string -> n <> "array_type"%string -> n <> "size"%string -> n <> "row_size_dynamic"%string ->
     t6 (q ++ [n]) = None).
  { intros n N1 N2 N3 N4. rewrite O6, O5, O4, O3 by assumption. apply B1. }
  clear E3 E4 E5 E6 R3 R4 R5 D3 D4 D5 P3 P4 P5 P6 V3 V4 V5 O3 O4 O5 O6 F3 F4 F5 F6 R1 R2 P1 P2 B1 D1 F1 s1 s2 s3 s4 s5 t1 t3 t4 t5.
  (* the shared vector *)
  set (vec := match lay a with
    | CSR => do c <- IfCompressed a;
        do ha <- (if c then Ok (h, a) else Compress dflt h a);
        let (h, a) := ha in
        do v <- deref h (pStart a);
        match pStart a with
        | Some k => do s <- WriteShared s6 "pRowStart" k v; Ok (s, h, a)
        | None => UB
        end
    | Max | StaticMax _ =>
        do v <- deref h (pSizes a);
        match pSizes a with
        | Some k => do s <- WriteShared s6 "pRowSizes" k v; Ok (s, h, a)
        | None => UB
        end
    | Fixed | StaticFixed _ => Ok (s6, h, a)
    end).
  assert (SH : exists s7 t7 h' a' log' home', vec = Ok (s7, h', a') /\ rel s7 (q, t7) /\ ok_dir t7 q /\
     kept s7 t7 (log ++ log') home' /\ held h' (log ++ log') /\ (forall x, In x log' -> sdir x = q /\ sname x <> "data"%string) /\
     (exists e, h' = h ++ e) /\ rep T h' a' (written_spec sp) /\ frame T h 0 a h' a' /\
     (is_csr (lay a) = false -> a' = a) /\ rsd a' = rsd a /\
     (forall n y, n <> "pRowStart"%string -> n <> "pRowSizes"%string -> t7 (q ++ n :: y) = t6 (q ++ n :: y)) /\
     (forall x, comparable q x = false -> t7 x = t6 x) /\
     match lay a with
          | CSR => exists x, In x (log ++ log') /\ sdir x = q /\ sname x = "pRowStart"%string /\ scont x = psums 0 (zlensl (cells sp))
          | Max | StaticMax _ => exists x, In x (log ++ log') /\ sdir x = q /\ sname x = "pRowSizes"%string /\ scont x = map Z.of_nat (used sp)
          | _ => True
     end).
  { assert (FX : is_csr (slay sp) = false -> is_max (slay sp) = false -> vec = Ok (s6, h, a) ->
       exists s7 t7 h' a' log' home', vec = Ok (s7, h', a') /\ rel s7 (q, t7) /\ ok_dir t7 q /\
     kept s7 t7 (log ++ log') home' /\ held h' (log ++ log') /\ (forall x, In x log' -> sdir x = q /\ sname x <> "data"%string) /\
     (exists e, h' = h ++ e) /\ rep T h' a' (written_spec sp) /\ frame T h 0 a h' a' /\
     (is_csr (lay a) = false -> a' = a) /\ rsd a' = rsd a /\
     (forall n y, n <> "pRowStart"%string -> n <> "pRowSizes"%string -> t7 (q ++ n :: y) = t6 (q ++ n :: y)) /\
     (forall x, comparable q x = false -> t7 x = t6 x) /\ True).
    { intros X1 X2 E. exists s6, t6, h, a, [], home. rewrite app_nil_r. split; [exact E|]. split; [exact R6|]. split; [exact D6|].
      split; [exact K6|]. split; [exact HL|]. split; [intros x []|]. split; [exists []; rewrite app_nil_r; reflexivity|].
      unfold written_spec. rewrite X1. split; [exact RP|]. split; [apply frame_same; auto|]. auto 10. }
    assert (MX : is_max (slay sp) = true -> 
       (vec = do v <- deref h (pSizes a);
        match pSizes a with
        | Some k => do s <- WriteShared s6 "pRowSizes" k v; Ok (s, h, a)
        | None => UB
        end) -> pSizes a <> None ->
       exists s7 t7 h' a' log' home', vec = Ok (s7, h', a') /\ rel s7 (q, t7) /\ ok_dir t7 q /\
     kept s7 t7 (log ++ log') home' /\ held h' (log ++ log') /\ (forall x, In x log' -> sdir x = q /\ sname x <> "data"%string) /\
     (exists e, h' = h ++ e) /\ rep T h' a' (written_spec sp) /\ frame T h 0 a h' a' /\
     (is_csr (lay a) = false -> a' = a) /\ rsd a' = rsd a /\
     (forall n y, n <> "pRowStart"%string -> n <> "pRowSizes"%string -> t7 (q ++ n :: y) = t6 (q ++ n :: y)) /\
     (forall x, comparable q x = false -> t7 x = t6 x) /\
     exists x, In x (log ++ log') /\ sdir x = q /\ sname x = "pRowSizes"%string /\ scont x = map Z.of_nat (used sp)).
    { intros X1 -> X3. pose proof (r_sizes _ _ _ _ RP) as SZ. rewrite X1 in SZ. destruct SZ as (_ & _ & SZ).
      destruct (pSizes a) as [k|] eqn:PA; [|congruence]. unfold deref. rewrite SZ. cbn [bind].
      destruct (share_ok s6 q t6 log home h "pRowSizes" k (map Z.of_nat (used sp)) R6 K6 D6 HL eq_refl) as (s7 & t7 & home' & E7 & R7 & D7 & K7 & H7 & F7); auto.
      { apply V6e; discriminate. }
      { intros x I. apply comparable_above. apply C. exact I. }
      rewrite E7. cbn [bind]. eexists _, t7, h, a, _, home'. split; [reflexivity|]. split; [exact R7|]. split; [exact D7|].
      split; [exact K7|]. split; [exact H7|]. split; [intros x [<-|[]]; cbn; split; [reflexivity|discriminate]|].
      split; [exists []; rewrite app_nil_r; reflexivity|].
      unfold written_spec. replace (is_csr (slay sp)) with false by (destruct (slay sp); (discriminate || reflexivity)).
      split; [exact RP|]. split; [apply frame_same; auto|]. split; [auto|]. split; [reflexivity|].
      split; [intros n y N1 N2; apply F7; apply comparable_names; congruence|].
      split; [intros x Q; apply F7; apply comparable_above; exact Q|].
      eexists. split; [apply in_or_app; right; left; reflexivity|]. repeat split. }
    unfold writable in W. unfold vec in *. rewrite (r_lay _ _ _ _ RP) in *. destruct (slay sp) eqn:SL; cbn [is_csr is_max] in *.
    - apply FX; reflexivity.
    - apply FX; reflexivity.
    - apply MX; auto.
    - apply MX; auto.
    - clear FX MX. pose proof (rep_csr_shape _ _ _ _ RP SL) as SHP.
      assert (RP' := RP). rewrite SHP in RP'.
      destruct (compress_step h a (cells sp) (comp sp) RP') as (a' & e & k & E & RC & PS & HV & RS & FR).
      destruct (IfCompressed a) as [c| |]; cbn [bind] in E |- *; try discriminate.
      rewrite E. cbn [bind]. rewrite PS. unfold deref. rewrite HV. cbn [bind].
      destruct (share_ok s6 q t6 log home (h ++ e) "pRowStart" k (psums 0 (zlensl (cells sp))) R6 K6 D6 (held_app _ _ _ HL) eq_refl) as (s7 & t7 & home' & E7 & R7 & D7 & K7 & H7 & F7); auto.
      { apply V6e; discriminate. }
      { intros x I. apply comparable_above. apply C. exact I. }
      rewrite E7. cbn [bind]. eexists _, t7, _, a', _, home'. split; [reflexivity|]. split; [exact R7|]. split; [exact D7|].
      split; [exact K7|]. split; [exact H7|]. split; [intros x [<-|[]]; cbn; split; [reflexivity|discriminate]|].
      split; [exists e; reflexivity|].
      unfold written_spec. rewrite SL. cbn [is_csr]. split; [rewrite SHP; exact RC|]. split; [exact FR|].
      split; [discriminate|]. split; [exact RS|].
      split; [intros n y N1 N2; apply F7; apply comparable_names; congruence|].
      split; [intros x Q; apply F7; apply comparable_above; exact Q|].
      eexists. split; [apply in_or_app; right; left; reflexivity|]. repeat split. }
  destruct SH as (s7 & t7 & h' & a' & log' & home' & E7 & R7 & D7 & K7 & H7 & L7 & X7 & RP7 & FR7 & A7 & RS7 & O7 & F7 & S7).
  rewrite E7. cbn [bind].
  destruct (step1 s7 t7 "data"%string (VData (dat a')) R7 D7 eq_refl)
    as (s8 & t8 & E8 & R8 & D8 & P8 & V8 & O8 & F8).
  cbn [json_of] in E8. rewrite E8. cbn [bind].
  destruct (return_ok s8 q t8 cur R8 (ok_dir_here _ _ (ok_dir_up _ _ _ D8)) GC) as (s9 & E9 & R9 & P9 & _).
  rewrite E9. cbn [bind].
  exists s9, t8, h', a', log', home'. split; [reflexivity|]. split; [exact R9|].
  split; [apply (ok_dir_up _ _ [name]); exact D8|].
  assert (F' : forall x, comparable q x = false -> t8 x = t x) by (intros x Q; rewrite F8, F7, F; auto).
  split.
  { apply (kept_elsewhere T s7 s9 t7 t8); auto; [congruence|].
    intros x I b. apply in_app_or in I. destruct I as [I|I].
    - apply F8. apply comparable_below. apply C. exact I.
    - destruct (L7 x I) as [L1 L2]. unfold splace. rewrite L1, <- app_assoc. cbn [app]. apply O8. exact L2. }
  split; [exact H7|]. split; [intros x I; apply L7; exact I|]. split; [exact X7|]. split; [exact RP7|]. split; [exact FR7|].
  split; [exact A7|]. split; [exact RS7|].
  split; [|exact F'].
  constructor.
  - apply ok_dir_here. exact D8.
  - rewrite O8, O7 by discriminate. exact V6s.
  - rewrite O8, O7, V6n by discriminate. rewrite (r_size _ _ _ _ RP). reflexivity.
  - rewrite O8, O7 by discriminate. exact V6.
  - rewrite V8, (r_dat _ _ _ _ RP7). unfold flat_mode, written_spec.
    destruct (is_csr (slay sp)) eqn:IC; cbn [with_comp slay comp cells]; rewrite ?IC; reflexivity.
  - exact S7.
Qed.

(** ** Writing several arrays *)
Lemma saved_spec : forall t D sp l rd log, saved t D (written_spec sp) l rd log -> saved t D sp l rd log.
Proof.
  intros t D sp l rd log [A B C E F G].
  assert (Q1 : cells (written_spec sp) = cells sp) by (unfold written_spec; destruct (is_csr (slay sp)); reflexivity).
  assert (Q2 : used (written_spec sp) = used sp) by (unfold written_spec; destruct (is_csr (slay sp)); reflexivity).
  rewrite Q1 in *. rewrite Q2 in *. constructor; assumption.
Qed.
Lemma frame_any : forall h u a h' a', frame T h 0 a h' a' -> frame T h u a h' a'.
Proof. intros h u a h' a' [F|[F _]]; [left; exact F|discriminate]. Qed.
Lemma slay_written : forall sp, slay (written_spec sp) = slay sp.
Proof. intros. unfold written_spec. destruct (is_csr (slay sp)); reflexivity. Qed.

Lemma write_all_ok : forall items s w ss cur t log home,
  rel s (cur, t) -> ok_dir t cur -> kept s t log home -> held (hp w) log -> wrep T w ss ->
  (forall k n, In (k, n) items -> good_name n = true /\ exists a, nth_error (arrs w) k = Some a /\ writable a) ->
  NoDup (names items) ->
  (forall x n, In x log -> In n (names items) -> comparable (cur ++ [n]) (splace x) = false) ->
  exists s' w' t' log' home' ss',
    write_all T dflt sizeofT align type_name (s, w) items = Ok (s', w') /\
    rel s' (cur, t') /\ ok_dir t' cur /\ kept s' t' (log ++ log') home' /\ wrep T w' ss' /\
    (forall k sp, nth_error ss k = Some sp -> exists sp', nth_error ss' k = Some sp' /\
       cells sp' = cells sp /\ used sp' = used sp /\ slay sp' = slay sp) /\
    (forall k n a sp, In (k, n) items -> nth_error (arrs w) k = Some a -> nth_error ss k = Some sp ->
       saved t' (cur ++ [n]) sp (lay a) (rsd a) (log ++ log')) /\
    (forall x, (forall n, In n (names items) -> comparable (cur ++ [n]) x = false) -> t' x = t x).
Proof.
  induction items as [|[k n] items IH]; intros s w ss cur t log home R D K HL W G ND C.
  - exists s, w, t, [], home, ss. rewrite app_nil_r. split; [reflexivity|]. split; [exact R|]. split; [exact D|].
    split; [exact K|]. split; [exact W|]. split; [intros; eauto 10|]. split; [intros ? ? ? ? []|]. auto.
  - destruct (G k n) as (GN & a & EA & WA); [left; reflexivity|].
    destruct W as (WL & WR & WD).
    destruct (nth_error_lt_Some _ ss k) as [sp ES]; [rewrite <- WL; eapply nth_error_Some_lt; eauto|].
    assert (RP : rep T (hp w) a sp) by (eapply WR; eauto).
    cbn [names map snd] in ND. inversion ND as [|? ? NI ND']; subst.
    destruct (write_array_ok s cur t log home (hp w) a sp n R D K HL GN) as
      (s1 & t1 & h1 & a1 & log1 & home1 & E1 & R1 & D1 & K1 & H1 & L1 & X1 & RP1 & F1 & A1 & RS1 & S1 & O1); auto.
    { intros x I. apply C; [exact I|left; reflexivity]. }
    assert (W1 : wrep T {| hp := h1; arrs := upd k a1 (arrs w) |} (upd k (written_spec sp) ss)).
    { eapply wrep_step; eauto; [split; auto|]. apply frame_any. exact F1. }
    pose proof (nth_error_Some_lt _ _ _ _ EA) as LA. pose proof (nth_error_Some_lt _ _ _ _ ES) as LS.
    assert (LA1 : lay a1 = lay a).
    { rewrite (r_lay _ _ _ _ RP1), (r_lay _ _ _ _ RP). apply slay_written. }
    destruct (IH s1 {| hp := h1; arrs := upd k a1 (arrs w) |} (upd k (written_spec sp) ss) cur t1 (log ++ log1) home1) as
      (s' & w' & t' & log' & home' & ss' & E' & R' & D' & K' & W' & P' & S' & O'); auto.
    { intros k' n' I. destruct (G k' n') as (GN' & a' & EA' & WA'); [right; exact I|]. split; [exact GN'|].
      cbn [arrs]. rewrite nth_error_upd. destruct (Nat.eqb_spec k k') as [<-|NE]; [|eauto].
      apply Nat.ltb_lt in LA. rewrite LA. exists a1. split; [reflexivity|].
      unfold writable in *. rewrite LA1. destruct (lay a) eqn:LY; auto; rewrite A1; auto. }
    { intros x n' I IN. apply in_app_or in I. destruct I as [I|I]; [apply C; [exact I|right; exact IN]|].
      unfold splace. rewrite (L1 x I), <- app_assoc. cbn [app]. apply comparable_names.
      intros ->. apply NI. exact IN. }
    rewrite <- app_assoc in *.
    exists s', w', t', (log1 ++ log'), home', ss'. split.
    { unfold write_all in *. cbn [foldM write_one]. rewrite EA, E1. cbn [bind]. exact E'. }
    split; [exact R'|]. split; [exact D'|]. split; [exact K'|]. split; [exact W'|]. split.
    { intros k' sp' E. destruct (Nat.eqb_spec k k') as [<-|NE].
      - replace sp' with sp by congruence. destruct (P' k (written_spec sp)) as (sq & Q1 & Q2 & Q3 & Q4).
        { apply nth_error_upd_same. exact LS. }
        exists sq. split; [exact Q1|]. rewrite Q2, Q3, Q4. unfold written_spec.
        destruct (is_csr (slay sp)); auto.
      - apply P'. rewrite nth_error_upd_other; auto. }
    split.
    { intros k' n' a' sp' [I|I] EA' ES'.
      - injection I as <- <-. replace a' with a in * by congruence. replace sp' with sp in * by congruence.
        assert (Q : saved t' (cur ++ [n]) sp (lay a) (rsd a) ((log ++ log1) ++ log')).
        { apply (saved_elsewhere t1); [exact S1|].
          intros b. apply O'. intros n' I. rewrite <- app_assoc. apply comparable_names.
          intros ->. apply NI. exact I. }
        rewrite <- app_assoc in Q. exact Q.
      - destruct (Nat.eqb_spec k k') as [<-|NE].
        + replace a' with a in * by congruence. replace sp' with sp in * by congruence.
          apply saved_spec. rewrite <- LA1, <- RS1. apply (S' k n'); auto; cbn [arrs]; apply nth_error_upd_same; assumption.
        + apply (S' k' n'); auto; cbn [arrs]; rewrite nth_error_upd_other; auto. }
    { intros x Q. rewrite O', O1; auto; [apply Q; left; reflexivity|]. intros n' I. apply Q. right. exact I. }
Qed.

(** ** Reading *)
Definition avars (as_ : list (arr T)) : variables := fun y =>
  match nth_error as_ (Nat.div2 y) with
  | Some a => Some (if Nat.even y then pStart a else pSizes a)
  | None => None
  end.
Lemma star_avars : forall as_ y, star (avars as_) y = member T as_ y.
Proof. intros. unfold star, avars, member. destruct (nth_error as_ (Nat.div2 y)); reflexivity. Qed.
Lemma ReadShared_ext : forall P H (s : ser T) n x (fresh : list Z -> H * P) f g h, (forall y, f y = g y) ->
  ReadShared s n x fresh f h = ReadShared s n x fresh g h.
Proof.
  intros P H s n x fresh f g h E. unfold ReadShared. destruct (peek s n); cbn [bind]; auto.
  match goal with |- context [bind ?m _] => destruct m; cbn [bind]; auto end.
  destruct (assoc _ _ _); auto. rewrite E. reflexivity.
Qed.
Lemma reading_ext : forall t home s h v v' done K, (forall y, v' y = v y) ->
  reading T t home {| rser := s; vecs := h; vars := v |} done K ->
  reading T t home {| rser := s; vecs := h; vars := v' |} done K.
Proof.
  intros t home s h v v' done K E [A B C D F G]. constructor; cbn [rser vecs vars] in *; auto.
  - intros x I. specialize (B x I). destruct (assoc _ _ _); auto.
    destruct B as (B1 & k & B2 & B3). split; [exact B1|]. exists k. rewrite E. auto.
  - intros x y I. destruct (G x y I) as (k & G1 & G2). exists k. rewrite E. auto.
Qed.

Definition read_spec (sp : sarr T) (lt : layout) : sarr T :=
  {| slay := lt; comp := is_csr lt; width := width sp; cells := cells sp; used := used sp |}.

Lemma compatible_sig : forall l rd lt, compatible l rd lt ->
  ArraySignatureIsCompatible sizeofT lt (GetArraySignature sizeofT align l) = Ok true.
Proof.
  intros l rd lt C. unfold ArraySignatureIsCompatible. rewrite parse_signature. cbn [bind].
  rewrite Z.eqb_refl. cbn [negb].
  destruct l, lt; cbn [compatible] in C; try contradiction; subst; cbn [row_size_of row_max_of];
    rewrite ?Z.eqb_refl, ?andb_false_r; try reflexivity; cbn [negb];
    rewrite ?andb_false_r; try reflexivity.
Qed.

Lemma div2_even : forall x, Nat.div2 (2 * x) = x. Proof. intros. apply Nat.div2_double. Qed.
Lemma div2_odd : forall x, Nat.div2 (2 * x + 1) = x.
Proof. intros. replace (2 * x + 1)%nat with (S (2 * x)) by lia. apply Nat.div2_succ_double. Qed.
Lemma avars_set_start : forall as_ x a (a' : arr T) p, nth_error as_ x = Some a -> pStart a' = p -> pSizes a' = pSizes a ->
  forall y, avars (upd x a' as_) y = set_var (avars as_) (2 * x) (Some p) y.
Proof.
  intros as_ x a a' p E <- Q y. pose proof (nth_error_Some_lt _ _ _ _ E) as L. unfold avars, set_var.
  rewrite nth_error_upd. destruct (Nat.eqb_spec y (2 * x)) as [->|N].
  - rewrite div2_even, Nat.eqb_refl. apply Nat.ltb_lt in L. rewrite L.
    assert (EV : Nat.even (2 * x) = true) by (apply Nat.even_spec; exists x; reflexivity). rewrite EV. reflexivity.
  - destruct (Nat.eqb_spec x (Nat.div2 y)) as [->|]; [|reflexivity].
    apply Nat.ltb_lt in L. rewrite L, E. f_equal.
    destruct (Nat.even y) eqn:EV; [|congruence]. exfalso. apply N. apply Nat.even_spec in EV. destruct EV as (m & ->).
    rewrite Nat.div2_double. reflexivity.
Qed.
Lemma avars_set_sizes : forall as_ x a (a' : arr T) p, nth_error as_ x = Some a -> pSizes a' = p -> pStart a' = pStart a ->
  forall y, avars (upd x a' as_) y = set_var (avars as_) (2 * x + 1) (Some p) y.
Proof.
  intros as_ x a a' p E <- Q y. pose proof (nth_error_Some_lt _ _ _ _ E) as L. unfold avars, set_var.
  rewrite nth_error_upd. destruct (Nat.eqb_spec y (2 * x + 1)) as [->|N].
  - rewrite div2_odd, Nat.eqb_refl. apply Nat.ltb_lt in L. rewrite L.
    assert (EV : Nat.even (2 * x + 1) = false).
    { rewrite <- Nat.negb_odd. apply negb_false_iff. apply Nat.odd_spec. exists x. reflexivity. }
    rewrite EV. reflexivity.
  - destruct (Nat.eqb_spec x (Nat.div2 y)) as [->|]; [|reflexivity].
    apply Nat.ltb_lt in L. rewrite L, E. f_equal.
    destruct (Nat.even y) eqn:EV; [congruence|]. exfalso. apply N.
    assert (O : Nat.odd y = true) by (rewrite <- Nat.negb_even, EV; reflexivity).
    apply Nat.odd_spec in O. destruct O as (m & ->). rewrite div2_odd. reflexivity.
Qed.
Lemma avars_same : forall as_ x a (a' : arr T), nth_error as_ x = Some a -> pStart a' = pStart a -> pSizes a' = pSizes a ->
  forall y, avars (upd x a' as_) y = avars as_ y.
Proof.
  intros as_ x a a' E P Q y. pose proof (nth_error_Some_lt _ _ _ _ E) as L. unfold avars.
  rewrite nth_error_upd. destruct (Nat.eqb_spec x (Nat.div2 y)) as [->|]; [|reflexivity].
  apply Nat.ltb_lt in L. rewrite L, E, P, Q. reflexivity.
Qed.

Definition spec_rd (l : layout) (rd : Z) (lt : layout) : Z :=
  match l, lt with
  | StaticFixed _, StaticFixed _ | Fixed, StaticFixed _ => 0
  | StaticFixed m, Fixed | StaticMax m, Max => Z.of_nat m
  | _, _ => rd
  end.

(** the array that reading must give *)
Lemma read_rep : forall hs a sp h lt a', rep T hs a sp -> compatible (lay a) (rsd a) lt ->
  lay a' = lt -> size a' = zlen (cells sp) -> rsd a' = spec_rd (lay a) (rsd a) lt ->
  dat a' = List.concat (cells sp) -> unc a' = [] ->
  (if is_csr lt then exists k, pStart a' = Some k /\ nth_error h k = Some (psums 0 (zlensl (cells sp)))
   else pStart a' = None) ->
  (if is_max lt then exists k, pSizes a' = Some k /\ nth_error h k = Some (map Z.of_nat (used sp))
   else pSizes a' = None) ->
  rep T h a' (read_spec sp lt).
Proof.
  intros hs a sp h lt a' R C EL ES ER ED EU E1 E2.
  pose proof (r_lay _ _ _ _ R) as RL. pose proof (r_small _ _ _ _ R) as RS. pose proof (r_width _ _ _ _ R) as RW.
  pose proof (r_static _ _ _ _ R) as RT. pose proof (r_sizes _ _ _ _ R) as RZ.
  unfold stride in RW. rewrite RL in *.
  constructor; cbn [read_spec slay comp width cells used]; auto.
  - rewrite ED. unfold flat_mode. cbn [slay comp read_spec]. destruct (is_csr lt); reflexivity.
  - rewrite EU. unfold flat_mode. cbn [slay comp read_spec]. destruct (is_csr lt); reflexivity.
  - destruct (is_csr lt); exact E1.
  - intros Q. apply RS. destruct (slay sp), lt; cbn in C, Q |- *; (contradiction || discriminate || reflexivity).
  - intros Q. unfold stride. rewrite EL, ER.
    destruct (slay sp), lt; cbn [compatible is_csr spec_rd] in *; try contradiction; try discriminate; subst;
      destruct (RW eq_refl) as (W1 & W2 & W3); repeat split; auto; lia.
  - destruct (slay sp), lt; cbn [compatible is_csr spec_rd] in *; try contradiction; auto; subst; auto;
      destruct (RW eq_refl) as (W1 & W2 & W3); lia.
  - destruct (slay sp), lt; cbn [compatible is_csr is_max spec_rd] in *; try contradiction; auto;
      try (destruct RZ as (_ & RZ); auto; fail);
      destruct E2 as (k & E2 & E3); rewrite E2; destruct RZ as (Z1 & Z2 & _); auto.
Qed.

Lemma read_array_ok : forall s0 s t log home w done K cur D name x lt hs a sp,
  kept s0 t log home -> D = cur ++ [name] ->
  reading T t home {| rser := s; vecs := hp w; vars := avars (arrs w) |} done K ->
  rel s (cur, t) -> t cur = Some Dir -> good_name name = true ->
  saved t D sp (lay a) (rsd a) log -> rep T hs a sp -> nonzero a -> compatible (lay a) (rsd a) lt ->
  nth_error (arrs w) x = Some (new_arr lt) ->
  (forall y, In y (map snd done) -> Nat.div2 y <> x) ->
  exists s' w' done' K' a' e, ReadSerializer s w x name = Ok (s', w') /\ rel s' (cur, t) /\
    arrs w' = upd x a' (arrs w) /\ hp w' = hp w ++ e /\
    reading T t home {| rser := s'; vecs := hp w'; vars := avars (arrs w') |} (done ++ done') K' /\
    (forall y, In y (map snd done') -> Nat.div2 y = x) /\
    rep T (hp w') a' (read_spec sp lt).
Proof.
  intros s0 s t log home w done K cur D name x lt hs a sp KE -> RD R TD N S RP NZ C EX HX.
  set (D := cur ++ [name]) in *.
  unfold ReadSerializer, SerialModel.ReadSerializer. rewrite EX. cbn [lay new_arr pStart pSizes unc].
  assert (CP : GetCurrentPath s = slashes cur) by (destruct R as (_ & P & _); exact P). rewrite CP.
  assert (GC : good cur) by (destruct R as (_ & _ & G & _); exact G).
  destruct (goto_ok s cur t name R (s_dir _ _ _ _ _ _ S) N) as (s1 & -> & R1 & _ & P1). cbn [bind]. fold D in R1.
  pose proof (reading_goto T t home _ done K s1 RD P1 (ex_intro _ D R1)) as RD1. cbn [vecs vars rser] in RD1.
  rewrite (read_str s1 D t "array_sig" _ R1 eq_refl (s_sig _ _ _ _ _ _ S)). cbn [bind].
  rewrite (compatible_sig _ _ _ C). cbn [bind assert_].
  assert (Q : forall b : bool, (if b then Ok tt else Ok tt) = Ok tt) by (intros []; reflexivity).
  rewrite Q. clear Q. cbn [bind]. rewrite parse_signature. cbn [bind].
  rewrite (read_num s1 D t "size" _ R1 eq_refl (s_size _ _ _ _ _ _ S)).
  rewrite (read_num s1 D t "row_size_dynamic" _ R1 eq_refl (s_rd _ _ _ _ _ _ S)). cbn [bind].
  set (rdz := if 0 <=? row_size_of lt then
              if row_size_of (lay a) =? DynamicSize then do _ <- assert_ (rsd a =? row_size_of lt); Ok 0
              else if 0 <=? row_size_of (lay a) then do _ <- assert_ (row_size_of (lay a) =? row_size_of lt); Ok 0
              else Ok (rsd a)
            else Ok (rsd a)).
  assert (RDZ : negb (negb (row_size_of lt =? row_size_of (lay a)) && ((row_size_of lt =? NonUniformSize) || (row_size_of (lay a) =? NonUniformSize))) = true /\
     exists z, rdz = Ok z /\
     (let rd := if (row_size_of lt =? DynamicSize) && (0 <=? row_size_of (lay a)) then row_size_of (lay a) else z in
      if (row_max_of lt =? DynamicSize) && (0 <=? row_max_of (lay a)) then row_max_of (lay a) else rd) = spec_rd (lay a) (rsd a) lt).
  { unfold rdz. clear - C. 
    assert (ZN : forall n, (0 <=? Z.of_nat n) = true) by (intros; apply Z.leb_le; lia).
    assert (ZD : forall n, (Z.of_nat n =? DynamicSize) = false) by (intros; apply Z.eqb_neq; unfold DynamicSize; lia).
    assert (ZU : forall n, (Z.of_nat n =? NonUniformSize) = false) by (intros; apply Z.eqb_neq; unfold NonUniformSize; lia).
    destruct (lay a), lt; cbn [compatible] in C; try contradiction; subst; cbn [row_size_of row_max_of spec_rd];
      rewrite ?ZN, ?ZD, ?ZU, ?C, ?Z.eqb_refl; cbn [bind assert_ negb andb orb];
      change (DynamicSize =? NonUniformSize) with false; rewrite ?orb_false_r, ?andb_false_r;
      (split; [reflexivity|]); (eexists; split; [reflexivity|]); cbn; rewrite ?ZN, ?ZD; reflexivity. }
  destruct RDZ as (-> & z & -> & HR). cbn [bind assert_]. cbn zeta in HR |- *. rewrite HR. clear HR.
  pose proof (r_lay _ _ _ _ RP) as RL.
  assert (GD : good D) by (destruct R1 as (_ & _ & G & _); exact G).
  (* the shared vector *)
  set (vec := match lt with
    | CSR =>
        do shp <- ReadShared s1 "pRowStart" (2 * x) (new_vec (hp w)) (member T (arrs w)) (hp w);
        let '(s, h, p) := shp in Ok (s, h, p, @None nat)
    | Max | StaticMax _ =>
        do shp <- ReadShared s1 "pRowSizes" (2 * x + 1) (new_vec (hp w)) (member T (arrs w)) (hp w);
        let '(s, h, p) := shp in Ok (s, h, @None nat, p)
    | Fixed | StaticFixed _ => Ok (s1, hp w, @None nat, @None nat)
    end).
  assert (V : exists s2 e ps pz done' K', vec = Ok (s2, hp w ++ e, ps, pz) /\ rel s2 (D, t) /\
     (forall a', pStart a' = ps -> pSizes a' = pz ->
        reading T t home {| rser := s2; vecs := hp w ++ e; vars := avars (upd x a' (arrs w)) |} (done ++ done') K') /\
     (forall y, In y (map snd done') -> Nat.div2 y = x) /\
     (if is_csr lt then exists k, ps = Some k /\ nth_error (hp w ++ e) k = Some (psums 0 (zlensl (cells sp)))
      else ps = None) /\
     (if is_max lt then exists k, pz = Some k /\ nth_error (hp w ++ e) k = Some (map Z.of_nat (used sp))
      else pz = None)).
  { pose proof (s_vec _ _ _ _ _ _ S) as SV.
    assert (FX : is_csr lt = false -> is_max lt = false -> vec = Ok (s1, hp w, None, None) ->
      exists s2 e ps pz done' K', vec = Ok (s2, hp w ++ e, ps, pz) /\ rel s2 (D, t) /\
     (forall a', pStart a' = ps -> pSizes a' = pz ->
        reading T t home {| rser := s2; vecs := hp w ++ e; vars := avars (upd x a' (arrs w)) |} (done ++ done') K') /\
     (forall y, In y (map snd done') -> Nat.div2 y = x) /\
     (if is_csr lt then exists k, ps = Some k /\ nth_error (hp w ++ e) k = Some (psums 0 (zlensl (cells sp)))
      else ps = None) /\
     (if is_max lt then exists k, pz = Some k /\ nth_error (hp w ++ e) k = Some (map Z.of_nat (used sp))
      else pz = None)).
    { intros X1 X2 E. exists s1, [], None, None, [], K. rewrite !app_nil_r, X1, X2. split; [exact E|]. split; [exact R1|].
      split; [|split; [intros y []|auto]]. intros a' P1' P2'.
      apply (reading_ext t home s1 (hp w) (avars (arrs w))); [|exact RD1].
      apply (avars_same _ _ _ _ EX); assumption. }
    assert (MX : is_csr lt = false -> is_max lt = true ->
      (vec = do shp <- ReadShared s1 "pRowSizes" (2 * x + 1) (new_vec (hp w)) (member T (arrs w)) (hp w);
        let '(s, h, p) := shp in Ok (s, h, @None nat, p)) ->
      (exists x, In x log /\ sdir x = D /\ sname x = "pRowSizes"%string /\ scont x = map Z.of_nat (used sp)) ->
      exists s2 e ps pz done' K', vec = Ok (s2, hp w ++ e, ps, pz) /\ rel s2 (D, t) /\
     (forall a', pStart a' = ps -> pSizes a' = pz ->
        reading T t home {| rser := s2; vecs := hp w ++ e; vars := avars (upd x a' (arrs w)) |} (done ++ done') K') /\
     (forall y, In y (map snd done') -> Nat.div2 y = x) /\
     (if is_csr lt then exists k, ps = Some k /\ nth_error (hp w ++ e) k = Some (psums 0 (zlensl (cells sp)))
      else ps = None) /\
     (if is_max lt then exists k, pz = Some k /\ nth_error (hp w ++ e) k = Some (map Z.of_nat (used sp))
      else pz = None)).
    { intros X1 X2 -> (v & I & Q1 & Q2 & Q3). rewrite X1, X2.
      rewrite (ReadShared_ext _ _ s1 _ _ _ _ (star (avars (arrs w)))) by (intros; symmetry; apply star_avars).
      destruct (read_shared_ok T s0 t log home _ done K v (2 * x + 1) KE RD1 I) as (s2 & h2 & k & K' & E2 & RR2 & R2 & (e & EH) & HK).
      { intros y I' ->. apply (HX _ I'). apply div2_odd. }
      { rewrite Q1. exact R1. }
      cbn [rser vecs vars] in *. rewrite Q2 in E2.
      assert (E2b : @ReadShared T (option nat) heap s1 "pRowSizes" (2 * x + 1) (new_vec (hp w)) (star (avars (arrs w))) (hp w) = Ok (s2, h2, Some k)) by exact E2.
      rewrite E2b. cbn [bind]. subst h2.
      exists s2, e, None, (Some k), [(v, (2 * x + 1)%nat)], K'. split; [reflexivity|]. split; [rewrite <- Q1; exact R2|].
      split; [|split; [intros y [<-|[]]; apply div2_odd|split; [reflexivity|exists k; rewrite <- Q3; auto]]].
      intros a' P1' P2'. eapply reading_ext; [|exact RR2]. apply (avars_set_sizes _ _ _ _ _ EX); assumption. }
    unfold vec in *. clear vec.
    destruct (lay a), lt; cbn [compatible] in C; try contradiction; cbn [is_csr is_max] in *;
      try (apply FX; reflexivity); try (apply MX; auto; fail).
    clear FX MX. destruct SV as (v & I & Q1 & Q2 & Q3).
    rewrite (ReadShared_ext _ _ s1 _ _ _ _ (star (avars (arrs w)))) by (intros; symmetry; apply star_avars).
    destruct (read_shared_ok T s0 t log home _ done K v (2 * x) KE RD1 I) as (s2 & h2 & k & K' & E2 & RR2 & R2 & (e & EH) & HK).
    { intros y I' ->. apply (HX _ I'). apply div2_even. }
    { rewrite Q1. exact R1. }
    cbn [rser vecs vars] in *. rewrite Q2 in E2.
    assert (E2b : @ReadShared T (option nat) heap s1 "pRowStart" (2 * x) (new_vec (hp w)) (star (avars (arrs w))) (hp w) = Ok (s2, h2, Some k)) by exact E2.
    rewrite E2b. cbn [bind]. subst h2.
    exists s2, e, (Some k), None, [(v, (2 * x)%nat)], K'. split; [reflexivity|]. split; [rewrite <- Q1; exact R2|].
    split; [|split; [intros y [<-|[]]; apply div2_even|split; [exists k; rewrite <- Q3; auto|reflexivity]]].
    intros a' P1' P2'. eapply reading_ext; [|exact RR2]. apply (avars_set_start _ _ _ _ _ EX); assumption. }
  destruct V as (s2 & e & ps & pz & done' & K' & EV & R2 & RR2 & DV & PS & PZ). rewrite EV. cbn [bind]. clear vec EV.
  rewrite (read_data s2 D t "data" _ R2 eq_refl (s_data _ _ _ _ _ _ S)). cbn [bind].
  set (a' := {| lay := lt; pStart := ps; pSizes := pz; dat := List.concat (cells sp); unc := []; size := zlen (cells sp);
       rsd := spec_rd (lay a) (rsd a) lt |}).
  assert (RA : rep T (hp w ++ e) a' (read_spec sp lt)).
  { eapply read_rep; eauto; reflexivity. }
  assert (DIV : match lt with Fixed | StaticFixed _ => do R0 <- RowSize0 a'; divide_unknown R0 | _ => Ok tt end = Ok tt).
  { clear - C NZ RL. unfold nonzero, stride, RowSize0, divide_unknown in *. unfold a'; cbn [lay rsd].
    destruct (lay a), lt; cbn [compatible spec_rd] in *; try contradiction; try reflexivity; subst; cbn [bind].
    - destruct (Z.eqb_spec (Z.of_nat rs0) 0); [lia|reflexivity].
    - destruct (Z.eqb_spec (Z.of_nat rs) 0); [lia|reflexivity].
    - destruct (Z.eqb_spec (Z.of_nat rs) 0); [lia|reflexivity].
    - destruct (Z.eqb_spec (rsd a) 0); [lia|reflexivity]. }
  rewrite DIV. cbn [bind].
  destruct (return_ok s2 D t cur R2 TD GC) as (s3 & E3 & R3 & _ & P3).
  rewrite E3. cbn [bind].
  exists s3, {| hp := hp w ++ e; arrs := upd x a' (arrs w) |}, done', K', a', e.
  split; [reflexivity|]. split; [exact R3|]. split; [reflexivity|]. split; [reflexivity|]. cbn [hp arrs].
  split; [|split; [exact DV|exact RA]].
  apply (reading_goto T t home {| rser := s2; vecs := hp w ++ e; vars := avars (upd x a' (arrs w)) |}); auto.
  exists cur. exact R3.
Qed.

Lemma rep_grow : forall h e a sp, rep T h a sp -> rep T (h ++ e) a sp.
Proof.
  intros h e a sp R. destruct (rep_ptr_lt _ _ _ _ R) as [P1 P2].
  apply (rep_heap _ _ _ _ _ R); intros k E; apply nth_error_app1; auto.
Qed.

Record source (t : tree T) (cur : list string) (log : list shared) (w : world T) (hs : heap)
    (x : nat) (n : string) (a : arr T) (sp : sarr T) (lt : layout) : Prop := {
  o_name : good_name n = true;
  o_saved : saved t (cur ++ [n]) sp (lay a) (rsd a) log;
  o_rep : rep T hs a sp;
  o_nz : nonzero a;
  o_comp : compatible (lay a) (rsd a) lt;
  o_new : nth_error (arrs w) x = Some (new_arr lt)
}.

Lemma read_all_ok : forall todo (f : nat -> arr T * sarr T * layout) s0 s t log home w done K cur hs,
  kept s0 t log home ->
  reading T t home {| rser := s; vecs := hp w; vars := avars (arrs w) |} done K ->
  rel s (cur, t) -> t cur = Some Dir ->
  (forall x n, In (x, n) todo -> source t cur log w hs x n (fst (fst (f x))) (snd (fst (f x))) (snd (f x))) ->
  NoDup (map fst todo) -> (forall y, In y (map snd done) -> ~ In (Nat.div2 y) (map fst todo)) ->
  exists s' w' e, read_all T sizeofT align (s, w) todo = Ok (s', w') /\ rel s' (cur, t) /\
    hp w' = hp w ++ e /\ List.length (arrs w') = List.length (arrs w) /\
    (forall x, ~ In x (map fst todo) -> nth_error (arrs w') x = nth_error (arrs w) x) /\
    (forall x, In x (map fst todo) -> exists a', nth_error (arrs w') x = Some a' /\
       rep T (hp w') a' (read_spec (snd (fst (f x))) (snd (f x)))).
Proof.
  induction todo as [|[x n] todo IH]; intros f s0 s t log home w done K cur hs KE RD R TD SR ND DN.
  - exists s, w, []. rewrite app_nil_r. split; [reflexivity|]. split; [exact R|]. split; [reflexivity|]. split; [reflexivity|]. split; [auto|]. intros x [].
  - cbn [map fst] in *. inversion ND as [|? ? NI ND']; subst.
    destruct (SR x n) as [O1 O2 O3 O4 O5 O6]; [left; reflexivity|].
    destruct (read_array_ok s0 s t log home w done K cur (cur ++ [n]) n x (snd (f x)) hs (fst (fst (f x))) (snd (fst (f x)))
      KE eq_refl RD R TD O1 O2 O3 O4 O5 O6) as (s1 & w1 & done1 & K1 & a1 & e1 & E1 & R1 & A1 & H1 & RD1 & D1 & RP1).
    { intros y I E. apply (DN y I). left. symmetry. exact E. }
    pose proof (nth_error_Some_lt _ _ _ _ O6) as LX.
    destruct (IH f s0 s1 t log home w1 (done ++ done1) K1 cur hs KE RD1 R1 TD) as (s' & w' & e & E' & R' & H' & L' & F' & G'); auto.
    { intros x' n' I. destruct (SR x' n') as [U1 U2 U3 U4 U5 U6]; [right; exact I|]. constructor; auto.
      rewrite A1, nth_error_upd_other; [exact U6|]. intros ->. apply NI. apply in_map_iff. exists (x', n'). auto. }
    { intros y I Q. rewrite map_app in I. apply in_app_or in I. destruct I as [I|I].
      - apply (DN y I). right. exact Q.
      - rewrite (D1 y I) in Q. contradiction. }
    exists s', w', (e1 ++ e). split.
    { unfold read_all in *. cbn [foldM read_one].
      rewrite E1. cbn [bind]. exact E'. }
    split; [exact R'|]. split; [rewrite H', H1, app_assoc; reflexivity|].
    split; [rewrite L', A1, upd_length; reflexivity|]. split.
    { intros y I. rewrite F' by (intros Q; apply I; right; exact Q). rewrite A1. apply nth_error_upd_other.
      intros ->. apply I. left. reflexivity. }
    intros y [<-|I]; [|apply G'; exact I].
    exists a1. split.
    + rewrite F' by exact NI. rewrite A1. apply nth_error_upd_same. exact LX.
    + rewrite H'. apply rep_grow. exact RP1.
Qed.

Lemma reading_start : forall (s : ser T) t home lts,
  (forall y, stored y (root s) = t y) ->
  reading T t home {| rser := open_read (root s); vecs := []; vars := avars (map (@new_arr T) lts) |} [] (fun _ => None).
Proof.
  intros s t home lts V. constructor; cbn [rser vecs vars].
  - exists []. split; [reflexivity|]. split; [reflexivity|]. split; [intros n []|exact V].
  - intros h I. reflexivity.
  - discriminate.
  - discriminate.
  - discriminate.
  - intros x v [].
Qed.

Lemma looks_max : forall h a h' a' (s s' : sarr T), looks_like h a s -> looks_like h' a' s' ->
  cells s' = cells s -> used s' = used s -> is_max (slay s') = is_max (slay s) -> same_reads h a h' a'.
Proof.
  intros h a h' a' s s' H H' E1 E2 E3. apply looks_same with (s := s); auto.
  unfold looks_like, srow in *. rewrite E1, E2, E3 in H'. exact H'.
Qed.
Lemma compatible_max : forall l rd lt, compatible l rd lt -> is_max lt = is_max l.
Proof. intros [] rd []; cbn; intros; (contradiction || reflexivity). Qed.

(** ** The round trip *)
Theorem round_trip : forall ls cs w d items lts,
  covered_history dflt (map snew ls) cs ->
  ArrayModel.run dflt {| hp := []; arrs := map (@new_arr T) ls |} cs = Ok w ->
  good d -> good (names items) -> NoDup (names items) ->
  (forall k n, In (k, n) items -> exists a, nth_error (arrs w) k = Some a /\ writable a) ->
  List.length lts = List.length items ->
  (forall i k n a lt, nth_error items i = Some (k, n) -> nth_error (arrs w) k = Some a -> nth_error lts i = Some lt ->
     nonzero a /\ compatible (lay a) (rsd a) lt) ->
  exists s0 s w' s1 s2 w2,
    (do s <- CreatePath open_write (slashes d); GoToPath s (slashes d)) = Ok s0 /\
    write_all T dflt sizeofT align type_name (s0, w) items = Ok (s, w') /\
    GetCurrentPath s = GetCurrentPath s0 /\
    (forall k a, nth_error (arrs w) k = Some a -> exists a', nth_error (arrs w') k = Some a' /\ same_reads (hp w) a (hp w') a') /\
    GoToPath (open_read (root s)) (slashes d) = Ok s1 /\
    read_all T sizeofT align (s1, {| hp := []; arrs := map (@new_arr T) lts |})
      (combine (seq 0 (List.length items)) (names items)) = Ok (s2, w2) /\
    GetCurrentPath s2 = GetCurrentPath s1 /\
    (forall i k n a, nth_error items i = Some (k, n) -> nth_error (arrs w) k = Some a ->
       exists b, nth_error (arrs w2) i = Some b /\ same_reads (hp w) a (hp w2) b).
Proof.
  intros ls cs w d items lts HC HR GD GN ND HW HL HT.
  pose proof (run_refines T dflt cs _ _ (wrep_new T [] ls) HC) as G. rewrite HR in G.
  destruct G as (ss & _ & W).
  pose proof (step_ok T open_write _ (Create (Abs d)) (rel_open T) GD) as H. cbn [sstep resolve] in H.
  assert (NB : blocked (@empty_tree T) d = false).
  { unfold blocked. induction (seq 0 (List.length d)); cbn; auto. }
  rewrite NB in H. destruct H as (sa & EA & RA & PA & QA). cbn [step text] in EA.
  destruct (CreatePath open_write (slashes d)) as [sa'| |] eqn:EC; cbn in EA; try discriminate. injection EA as ->.
  set (t0 := place empty_tree d Dir) in *.
  pose proof (ok_dir_created empty_tree d) as D0. fold t0 in D0.
  destruct (return_ok sa [] t0 d RA (ok_dir_here _ _ D0) GD) as (s0 & E0 & R0 & P0 & Q0).
  assert (K0 : kept s0 t0 [] []).
  { apply (kept_elsewhere T open_write s0 empty_tree t0 [] []); [apply kept_start|congruence|intros x []]. }
  destruct (write_all_ok items s0 w ss d t0 [] [] R0 D0 K0) as (s & w' & t & log & home & ss' & EW & R & D & K & W' & PS & SV & _); auto.
  { intros x []. }
  { intros k n I. split; [apply GN; apply in_map_iff; exists (k, n); auto|apply (HW k n I)]. }
  { intros x n []. }
  cbn [app] in *.
  assert (GS : good d) by exact GD.
  pose proof (proj2 (proj2 (proj2 R))) as VS. cbn [snd] in VS.
  assert (RO : rel (open_read (root s)) ([], t)).
  { split; [reflexivity|]. split; [reflexivity|]. split; [intros n []|exact VS]. }
  destruct (return_ok (open_read (root s)) [] t d RO (ok_dir_here _ _ D) GD) as (s1 & E1 & R1 & _ & P1).
  pose proof (reading_start s t home lts VS) as RS.
  pose proof (reading_goto T t home _ [] _ s1 RS P1 (ex_intro _ d R1)) as RS1. cbn [vecs vars rser] in RS1.
  (* the sources *)
  set (f := fun i : nat => match nth_error items i, nth_error lts i with
     | Some (k, _), Some lt => match nth_error (arrs w) k, nth_error ss k with
        | Some a, Some sp => (a, sp, lt) | _, _ => (new_arr CSR, snew CSR, CSR) end
     | _, _ => (new_arr CSR, snew CSR, CSR) end : arr T * sarr T * layout).
  assert (IN : forall i n, In (i, n) (combine (seq 0 (List.length items)) (names items)) ->
     exists k, nth_error items i = Some (k, n)).
  { intros i n I. apply In_nth_error in I. destruct I as (j & I).
    assert (J : nth_error (combine (seq 0 (List.length items)) (names items)) j =
      match nth_error (seq 0 (List.length items)) j, nth_error (names items) j with Some a, Some b => Some (a, b) | _, _ => None end).
    { clear. generalize (seq 0 (List.length items)) as u. generalize (names items) as v. revert j.
      induction j; intros v [|a u]; destruct v as [|b v]; cbn; auto.
      destruct (nth_error u j); reflexivity. }
    rewrite J in I. destruct (nth_error (seq 0 (List.length items)) j) as [i'|] eqn:E; [|discriminate].
    destruct (nth_error (names items) j) as [n'|] eqn:E'; [|discriminate]. injection I as -> ->.
    assert (L := nth_error_Some_lt _ _ _ _ E). rewrite seq_length in L.
    assert (EQ : nth_error (seq 0 (List.length items)) j = Some j).
    { rewrite (nth_error_nth' _ 0%nat) by (rewrite seq_length; exact L). rewrite seq_nth by exact L. reflexivity. }
    assert (i = j) by congruence. subst j. unfold names in E'. rewrite nth_error_map_ in E'.
    destruct (nth_error items i) as [[k m]|]; [|discriminate]. cbn in E'. injection E' as ->. eauto. }
  assert (FST : map fst (combine (seq 0 (List.length items)) (names items)) = seq 0 (List.length items)).
  { clear. assert (Q : List.length (names items) = List.length (seq 0 (List.length items))).
    { unfold names. rewrite map_length, seq_length. reflexivity. }
    revert Q. generalize (seq 0 (List.length items)) as u. generalize (names items) as v.
    intros v u. revert v. induction u as [|a u IH]; intros [|b v] Q; cbn in *; try discriminate; auto. f_equal. apply IH. lia. }
  assert (FS : forall i k n a sp lt, nth_error items i = Some (k, n) -> nth_error (arrs w) k = Some a -> nth_error ss k = Some sp ->
     nth_error lts i = Some lt -> f i = (a, sp, lt)).
  { intros i k n a sp lt Q1 Q2 Q3 Q4. unfold f. rewrite Q1, Q4, Q2, Q3. reflexivity. }
  destruct W as (WL & WR & WD).
  assert (SRC : forall i k n, nth_error items i = Some (k, n) -> exists a sp lt, nth_error (arrs w) k = Some a /\
     nth_error ss k = Some sp /\ nth_error lts i = Some lt /\ f i = (a, sp, lt)).
  { intros i k n E. destruct (HW k n) as (a & Ha & _); [eapply nth_error_In; eauto|].
    destruct (nth_error_lt_Some _ ss k) as [sp Hs]; [rewrite <- WL; eapply nth_error_Some_lt; eauto|].
    destruct (nth_error_lt_Some _ lts i) as [lt Hl]; [rewrite HL; eapply nth_error_Some_lt; eauto|].
    exists a, sp, lt. repeat split; auto. eapply FS; eauto. }
  destruct (read_all_ok (combine (seq 0 (List.length items)) (names items)) f s s1 t log home
    {| hp := []; arrs := map (@new_arr T) lts |} [] (fun _ => None) d (hp w) K RS1 R1 (ok_dir_here _ _ D)) as
    (s2 & w2 & e & E2 & R2 & H2 & L2 & F2 & G2).
  { intros i n I. destruct (IN i n I) as (k & E). destruct (SRC i k n E) as (a & sp & lt & Ha & Hs & Hl & ->). cbn [fst snd].
    destruct (HT i k n a lt E Ha Hl) as (NZ & CM). constructor; auto.
    - apply GN. apply in_map_iff. exists (k, n). split; [reflexivity|eapply nth_error_In; eauto].
    - apply (SV k n a sp); auto. eapply nth_error_In; eauto.
    - eapply WR; eauto.
    - cbn [arrs]. rewrite nth_error_map_, Hl. reflexivity. }
  { rewrite FST. apply seq_NoDup. }
  { intros y []. }
  exists s0, s, w', s1, s2, w2. cbn [bind]. split; [exact E0|]. split; [exact EW|].
  split.
  { destruct R as (_ & Q1 & _), R0 as (_ & Q2 & _). cbn [fst] in *. unfold GetCurrentPath. congruence. }
  split.
  { intros k a Ha. destruct (nth_error_lt_Some _ ss k) as [sp Hs]; [rewrite <- WL; eapply nth_error_Some_lt; eauto|].
    destruct (PS k sp Hs) as (sp' & Hs' & C1 & C2 & C3). destruct W' as (WL' & WR' & _).
    destruct (nth_error_lt_Some _ (arrs w') k) as [a' Ha']; [rewrite WL'; eapply nth_error_Some_lt; eauto|].
    exists a'. split; [exact Ha'|].
    apply (looks_max _ _ _ _ sp sp'); auto; [apply rep_looks; eauto|apply rep_looks; eauto|congruence]. }
  split; [exact E1|]. split; [exact E2|].
  split.
  { destruct R1 as (_ & Q1 & _), R2 as (_ & Q2 & _). cbn [fst] in *. unfold GetCurrentPath. congruence. }
  intros i k n a E Ha. destruct (SRC i k n E) as (a0 & sp & lt & Ha0 & Hs & Hl & FI).
  replace a0 with a in * by congruence.
  destruct (G2 i) as (b & Hb & RB).
  { rewrite FST. apply in_seq. pose proof (nth_error_Some_lt _ _ _ _ E). lia. }
  rewrite FI in RB. cbn [fst snd] in RB. exists b. split; [exact Hb|].
  destruct (HT i k n a lt E Ha Hl) as (_ & CM).
  apply (looks_max _ _ _ _ sp (read_spec sp lt)); auto.
  - apply rep_looks. eapply WR; eauto.
  - apply rep_looks. exact RB.
  - cbn [slay read_spec]. rewrite (compatible_max _ _ _ CM). f_equal. apply (r_lay _ _ _ _ (WR _ _ _ Ha Hs)).
Qed.
End Serial.

(** ** Counterexamples *)
Definition tn : layout -> string := fun _ => "t"%string.
(** never resized: the row sizes are a null pointer *)
Lemma null_sizes : WriteSerializer Z 0 8 0 tn open_write [] (new_arr Max) "x" = UB.
Proof. vm_compute. reflexivity. Qed.
(** a table with rows of length 0 *)
Definition zero_table : arr Z := {| lay := Fixed; pStart := None; pSizes := None; dat := []; unc := []; size := 3; rsd := 0 |}.
Lemma zero_rows : exists s h a,
  ArrayModel.run 0 {| hp := []; arrs := [new_arr Fixed] |} [(0%nat, CResize2 3 0)] = Ok {| hp := []; arrs := [zero_table] |} /\
  WriteSerializer Z 0 8 0 tn open_write [] zero_table "x" = Ok (s, h, a) /\
  ReadSerializer Z 8 0 (open_read (root s)) {| hp := []; arrs := [new_arr Fixed] |} 0 "x" = UB.
Proof. do 3 eexists. split; [vm_compute; reflexivity|]. split; vm_compute; reflexivity. Qed.
(** rows of capacity 2 read into rows of capacity 3 *)
Lemma capacity_differs : exists w a s h a' s' w' b,
  ArrayModel.run 0 {| hp := []; arrs := [new_arr Max] |}
    [(0%nat, CResize2 2 2); (0%nat, CResizeRow 0 1); (0%nat, CResizeRow 1 1); (0%nat, CSet 0 0 5); (0%nat, CSet 1 0 6)] = Ok w /\
  nth_error (arrs w) 0 = Some a /\ at_ (hp w) a 1 0 = Ok 6 /\
  WriteSerializer Z 0 8 0 tn open_write (hp w) a "x" = Ok (s, h, a') /\
  ReadSerializer Z 8 0 (open_read (root s)) {| hp := []; arrs := [new_arr (StaticMax 3)] |} 0 "x" = Ok (s', w') /\
  nth_error (arrs w') 0 = Some b /\ at_ (hp w') b 1 0 = Ok 0.
Proof.
  do 8 eexists. split; [vm_compute; reflexivity|]. split; [reflexivity|]. split; [vm_compute; reflexivity|].
  split; [vm_compute; reflexivity|]. split; [vm_compute; reflexivity|]. split; [reflexivity|vm_compute; reflexivity].
Qed.
