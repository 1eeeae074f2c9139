(** * Proofs about the element tables *)

From Coq Require Import List Arith QArith Bool Permutation Lia.
From Verif Require Import Base.Prelude Base.PreludeFacts.
From Verif Require Import Geom.ElemModel Geom.ElemSpec.
Import ListNotations.
Open Scope nat_scope.

(** ** Extraction is natural in the labels *)

Definition rmap {A B} (g : A -> B) (r : res A) : res B :=
  match r with Ok x => Ok (g x) | Abort => Abort | UB => UB end.

Lemma gather_nat A B (g : A -> B) nodes ids :
  gather (map g nodes) ids = rmap (map g) (gather nodes ids).
Proof.
  unfold gather. induction ids as [|k ids IH]; [reflexivity|].
  cbn [mapM]. rewrite IH, nth_error_map. clear IH.
  destruct (nth_error nodes k); cbn; [|reflexivity].
  destruct (mapM _ ids); reflexivity.
Qed.

Lemma ExtractFaceNodes_nat A B (g : A -> B) t f nodes :
  ExtractFaceNodes t f (map g nodes)
  = rmap (map g) (ExtractFaceNodes t f nodes).
Proof.
  unfold ExtractFaceNodes. destruct (ObtainFace t f); [|reflexivity..]. cbn.
  destruct (get_row _ f); [|reflexivity..]. cbn.
  destruct (row_prefix _ _); [|reflexivity..]. cbn. apply gather_nat.
Qed.

Lemma ExtractElevNodeSpanNodes_nat A B (g : A -> B) t f nodes :
  ExtractElevNodeSpanNodes t f (map g nodes)
  = rmap (map g) (ExtractElevNodeSpanNodes t f nodes).
Proof.
  unfold ExtractElevNodeSpanNodes. destruct (assert_ _); [|reflexivity..]. cbn.
  destruct (get_row _ f); [|reflexivity..]. cbn.
  destruct (row_prefix _ _); [|reflexivity..]. cbn. apply gather_nat.
Qed.

Lemma face_vertices_nat A B (g : A -> B) t f nodes :
  face_vertices t f (map g nodes) = rmap (map g) (face_vertices t f nodes).
Proof.
  unfold face_vertices. rewrite ExtractFaceNodes_nat.
  destruct (ExtractFaceNodes t f nodes); cbn; [|reflexivity..].
  now rewrite firstn_map.
Qed.

Lemma all_face_vertices_nat A B (g : A -> B) t nodes :
  all_face_vertices t (map g nodes)
  = rmap (map (map g)) (all_face_vertices t nodes).
Proof.
  unfold all_face_vertices. induction (seq 0 (GetNumFaces t)) as [|f l IH].
  - reflexivity.
  - cbn [mapM]. rewrite face_vertices_nat, IH. clear IH.
    destruct (face_vertices t f nodes); cbn; [|reflexivity..].
    destruct (mapM _ l); reflexivity.
Qed.

Lemma cycle_edges_map A B (g : A -> B) l :
  cycle_edges (map g l) = map (fun e => (g (fst e), g (snd e))) (cycle_edges l).
Proof.
  destruct l as [|x r]; [reflexivity|]. unfold cycle_edges. cbn [map].
  change (g x :: map g r) with (map g (x :: r)).
  replace (map g r ++ [g x]) with (map g (r ++ [x])) by now rewrite map_app.
  generalize (r ++ [x]) as s. generalize (x :: r) as q. clear.
  induction q as [|a q IH]; intros [|b s]; cbn; [reflexivity..|].
  now rewrite IH.
Qed.

Lemma boundary_edges_nat A B (g : A -> B) t nodes :
  boundary_edges t (map g nodes)
  = rmap (map (fun e => (g (fst e), g (snd e)))) (boundary_edges t nodes).
Proof.
  unfold boundary_edges.
  pose proof (all_face_vertices_nat A B g t nodes) as E.
  unfold all_face_vertices in E. rewrite E. clear E.
  destruct (mapM _ _) as [fs| |]; cbn; [|reflexivity..].
  rewrite concat_map, !map_map. do 2 f_equal. apply map_ext.
  intro. apply cycle_edges_map.
Qed.

(** Any labelling is a map over the local numbers. *)
Lemma labels A (d : A) nodes n :
  length nodes = n -> nodes = map (fun k => nth k nodes d) (seq 0 n).
Proof.
  intro H. apply nth_error_ext. intro i. rewrite nth_error_map.
  destruct (Nat.lt_ge_cases i n) as [Hi|Hi].
  - rewrite (nth_error_nth' nodes d) by lia.
    rewrite (nth_error_nth' (seq 0 n) 0) by (now rewrite seq_length).
    cbn. rewrite seq_nth by exact Hi. reflexivity.
  - rewrite (proj2 (nth_error_None nodes i)) by lia.
    rewrite (proj2 (nth_error_None (seq 0 n) i)) by (rewrite seq_length; lia).
    reflexivity.
Qed.

Definition inj_below {A} (n : nat) (g : nat -> A) : Prop :=
  forall i j, i < n -> j < n -> g i = g j -> i = j.

Lemma nth_inj A (d : A) nodes :
  NoDup nodes -> inj_below (length nodes) (fun k => nth k nodes d).
Proof. intros H i j Hi Hj E. eapply NoDup_nth in E; eauto. Qed.

Lemma NoDup_map_below A (g : nat -> A) n l :
  inj_below n g -> Forall (fun k => k < n) l -> NoDup l -> NoDup (map g l).
Proof.
  intros Hg F N. induction N as [|x l Hx N IH]; cbn; [constructor|].
  apply Forall_cons_iff in F. destruct F as [Fx F].
  constructor; [|auto]. rewrite in_map_iff. intros (y & E & Hy).
  apply Hg in E; [subst; auto| |exact Fx].
  rewrite Forall_forall in F. auto.
Qed.

Fixpoint nodupb (l : list nat) : bool :=
  match l with
  | [] => true
  | x :: r => negb (existsb (Nat.eqb x) r) && nodupb r
  end.

Lemma nodupb_ok l : nodupb l = true -> NoDup l.
Proof.
  induction l as [|x r IH]; cbn; intro H; [constructor|].
  apply andb_prop in H. destruct H as [H1 H2]. constructor; [|auto].
  intro Hx. apply negb_true_iff in H1.
  rewrite <- not_true_iff_false, existsb_exists in H1. apply H1.
  exists x. split; [exact Hx|apply Nat.eqb_refl].
Qed.

Definition pair_eqb (a b : nat * nat) : bool :=
  (fst a =? fst b) && (snd a =? snd b).
Lemma pair_eqb_ok a b : pair_eqb a b = true <-> a = b.
Proof.
  unfold pair_eqb. rewrite andb_true_iff, !Nat.eqb_eq.
  destruct a, b; cbn. split; [intros []; congruence|intro H; now inversion H].
Qed.
Fixpoint nodupb2 (l : list (nat * nat)) : bool :=
  match l with
  | [] => true
  | x :: r => negb (existsb (pair_eqb x) r) && nodupb2 r
  end.
Lemma nodupb2_ok l : nodupb2 l = true -> NoDup l.
Proof.
  induction l as [|x r IH]; cbn; intro H; [constructor|].
  apply andb_prop in H. destruct H as [H1 H2]. constructor; [|auto].
  intro Hx. apply negb_true_iff in H1.
  rewrite <- not_true_iff_false, existsb_exists in H1. apply H1.
  exists x. split; [exact Hx|now apply pair_eqb_ok].
Qed.

Lemma forallb_seq (P : nat -> bool) n :
  forallb P (seq 0 n) = true -> forall i, i < n -> P i = true.
Proof.
  intros H i Hi. rewrite forallb_forall in H. apply H, in_seq. lia.
Qed.

Lemma mapM_length A B (f : A -> res B) l r : mapM f l = Ok r -> length r = length l.
Proof.
  revert r. induction l as [|x l IH]; intros r H; cbn in H.
  - now inversion H.
  - destruct (f x); try discriminate. cbn in H.
    destruct (mapM f l) as [ys| |]; try discriminate. inversion H; subst.
    cbn. f_equal. now apply IH.
Qed.

(** ** Faces *)

Definition face_check (t : ElemType) (f : nat) : bool :=
  let ft := GetFaceType t f in
  match ExtractFaceNodes t f (seq 0 (GetNumNodes t)) with
  | Ok fn =>
      (length fn =? GetNumNodes ft) && nodupb fn
      && forallb (fun k => k <? GetNumNodes t) fn
      && forallb (fun k => k <? GetNumVertices t)
                 (firstn (GetNumVertices ft) fn)
      && forallb (fun k => GetNumVertices t <=? k)
                 (skipn (GetNumVertices ft) fn)
      && match GetDim ft, GetDim t with
         | Some a, Some b => S a =? b | _, _ => false end
      && match GetOrder ft, GetOrder t with
         | Some a, Some b => a =? b | _, _ => false end
  | _ => false
  end.

Lemma face_check_ok : forall t f, f < GetNumFaces t -> face_check t f = true.
Proof.
  intros t. apply forallb_seq. destruct t; vm_compute; reflexivity.
Qed.

Lemma In_firstn_nth A (d : A) n nodes k :
  k < n -> k < length nodes -> In (nth k nodes d) (firstn n nodes).
Proof.
  revert n k. induction nodes as [|x r IH]; intros [|n] [|k] H1 H2; cbn in *;
    try lia; auto. right. apply IH; lia.
Qed.

Lemma In_skipn_nth A (d : A) n nodes k :
  n <= k -> k < length nodes -> In (nth k nodes d) (skipn n nodes).
Proof.
  revert n k. induction nodes as [|x r IH]; intros [|n] [|k] H1 H2; cbn in *;
    try lia; auto.
  - right. apply nth_In. lia.
  - apply IH; lia.
Qed.

Lemma faces_nodes_pos t f : f < GetNumFaces t -> 0 < GetNumNodes t.
Proof. destruct t; cbn; lia. Qed.

Lemma faces_well_formed A t f (nodes : list A) :
  f < GetNumFaces t -> length nodes = GetNumNodes t -> NoDup nodes ->
  exists fn,
    ExtractFaceNodes t f nodes = Ok fn
    /\ length fn = GetNumNodes (GetFaceType t f)
    /\ NoDup fn
    /\ incl fn nodes
    /\ incl (firstn (GetNumVertices (GetFaceType t f)) fn)
            (firstn (GetNumVertices t) nodes)
    /\ incl (skipn (GetNumVertices (GetFaceType t f)) fn)
            (skipn (GetNumVertices t) nodes)
    /\ (exists d, GetDim (GetFaceType t f) = Some d
                  /\ GetDim t = Some (S d))
    /\ (exists o, GetOrder (GetFaceType t f) = Some o
                  /\ GetOrder t = Some o).
Proof.
  intros Hf Hl Hn. pose proof (face_check_ok t f Hf) as C.
  pose proof (faces_nodes_pos t f Hf) as Hp.
  assert (exists d : A, True) as (d & _).
  { destruct nodes as [|d ?]; [cbn in Hl; lia|now exists d]. }
  pose proof (nth_inj A d nodes Hn) as Hinj. rewrite Hl in Hinj.
  assert (EL : ExtractFaceNodes t f nodes
               = rmap (map (fun k => nth k nodes d))
                      (ExtractFaceNodes t f (seq 0 (GetNumNodes t)))).
  { rewrite <- ExtractFaceNodes_nat, <- labels; auto. }
  rewrite EL. clear EL. unfold face_check in C.
  destruct (ExtractFaceNodes t f (seq 0 (GetNumNodes t))) as [fn| |];
    try discriminate.
  repeat (apply andb_prop in C; destruct C as [C ?C]).
  apply Nat.eqb_eq in C. apply nodupb_ok in C5.
  rewrite forallb_forall in C4, C3, C2.
  exists (map (fun k => nth k nodes d) fn). cbn.
  split; [reflexivity|]. split; [now rewrite map_length|].
  split. { apply NoDup_map_below with (n := GetNumNodes t); auto.
           rewrite Forall_forall. intros k Hk. apply Nat.ltb_lt. auto. }
  assert (B : forall k, In k fn -> k < length nodes).
  { intros k Hk. rewrite Hl. apply Nat.ltb_lt. auto. }
  split. { intros x Hx. apply in_map_iff in Hx. destruct Hx as (k & <- & Hk).
           apply nth_In. auto. }
  split. { rewrite firstn_map. intros x Hx. apply in_map_iff in Hx.
           destruct Hx as (k & <- & Hk). apply In_firstn_nth.
           - apply Nat.ltb_lt. auto.
           - apply B. rewrite <- (firstn_skipn (GetNumVertices (GetFaceType t f)) fn).
             apply in_or_app. auto. }
  split. { rewrite skipn_map. intros x Hx. apply in_map_iff in Hx.
           destruct Hx as (k & <- & Hk). apply In_skipn_nth.
           - apply Nat.leb_le. auto.
           - apply B. rewrite <- (firstn_skipn (GetNumVertices (GetFaceType t f)) fn).
             apply in_or_app. auto. }
  split.
  - destruct (GetDim (GetFaceType t f)) as [a|], (GetDim t) as [b|];
      try discriminate. apply Nat.eqb_eq in C1. exists a. now subst b.
  - destruct (GetOrder (GetFaceType t f)) as [a|], (GetOrder t) as [b|];
      try discriminate. apply Nat.eqb_eq in C0. exists a. now subst b.
Qed.

(** ** The boundary is closed *)

Definition closed_check (t : ElemType) : bool :=
  match boundary_edges t (seq 0 (GetNumNodes t)) with
  | Ok es =>
      nodupb2 es
      && forallb (fun e => existsb (pair_eqb (snd e, fst e)) es) es
      && forallb (fun e => (fst e <? GetNumNodes t)
                           && (snd e <? GetNumNodes t)) es
      && forallb (fun e => negb (fst e =? snd e)) es
  | _ => false
  end.

Lemma closed_check_ok t : GetDim t = Some 3 -> closed_check t = true.
Proof. destruct t; intro H; try discriminate; vm_compute; reflexivity. Qed.

Lemma NoDup_map_pairs A (g : nat -> A) n (l : list (nat * nat)) :
  inj_below n g ->
  (forall e, In e l -> fst e < n /\ snd e < n) ->
  NoDup l -> NoDup (map (fun e => (g (fst e), g (snd e))) l).
Proof.
  intros Hg F N. induction N as [|x l Hx N IH]; cbn; [constructor|].
  constructor.
  - rewrite in_map_iff. intros (y & E & Hy). inversion E as [[E1 E2]].
    destruct (F x (or_introl eq_refl)), (F y (or_intror Hy)).
    apply Hg in E1; auto. apply Hg in E2; auto.
    destruct x, y; cbn in *; subst; auto.
  - apply IH. intros e He. apply F. now right.
Qed.

Lemma boundary_closed A t (nodes : list A) :
  GetDim t = Some 3 -> length nodes = GetNumNodes t -> NoDup nodes ->
  exists es,
    boundary_edges t nodes = Ok es
    /\ es <> []
    /\ NoDup es
    /\ (forall a b, In (a, b) es -> a <> b /\ In (b, a) es).
Proof.
  intros Hd Hl Hn. pose proof (closed_check_ok t Hd) as C.
  assert (Hp : 0 < GetNumNodes t) by (destruct t; cbn in *; try discriminate; lia).
  assert (exists d : A, True) as (d & _).
  { destruct nodes as [|d ?]; [cbn in Hl; lia|now exists d]. }
  pose proof (nth_inj A d nodes Hn) as Hinj. rewrite Hl in Hinj.
  assert (EL : boundary_edges t nodes
               = rmap (map (fun e => (nth (fst e) nodes d, nth (snd e) nodes d)))
                      (boundary_edges t (seq 0 (GetNumNodes t)))).
  { rewrite <- boundary_edges_nat with (g := fun k => nth k nodes d), <- labels; auto. }
  rewrite EL. clear EL.
  assert (Hne : boundary_edges t (seq 0 (GetNumNodes t)) <> Ok []).
  { destruct t; try discriminate Hd; vm_compute; discriminate. }
  unfold closed_check in C.
  destruct (boundary_edges t (seq 0 (GetNumNodes t))) as [es| |];
    try discriminate.
  repeat (apply andb_prop in C; destruct C as [C ?C]).
  apply nodupb2_ok in C. rewrite forallb_forall in C0, C1, C2.
  assert (B : forall e, In e es -> fst e < GetNumNodes t /\ snd e < GetNumNodes t).
  { intros e He. apply C1 in He. apply andb_prop in He.
    now rewrite !Nat.ltb_lt in He. }
  eexists. split; [reflexivity|]. split.
  { intro E. apply map_eq_nil in E. subst. now apply Hne. }
  split. { apply (NoDup_map_pairs A (fun k => nth k nodes d) (GetNumNodes t)); auto. }
  intros a b H. apply in_map_iff in H. destruct H as ((i & j) & E & He).
  inversion E; subst. split.
  - intro F. apply C0 in He as N. cbn in N. destruct (B _ He). cbn in *.
    apply Hinj in F; auto. subst. now rewrite Nat.eqb_refl in N.
  - apply C2 in He. apply existsb_exists in He. destruct He as (e & He & Ee).
    apply pair_eqb_ok in Ee. subst e. cbn in He.
    apply in_map_iff. exists (j, i). auto.
Qed.

(** In two dimensions the faces are the edges of the vertex cycle, in order. *)
Lemma boundary_cycle_2d A t (nodes : list A) :
  GetDim t = Some 2 -> length nodes = GetNumNodes t ->
  exists fs,
    all_face_vertices t nodes = Ok fs
    /\ map (fun e => [fst e; snd e])
           (cycle_edges (firstn (GetNumVertices t) nodes)) = fs.
Proof.
  intros Hd Hl.
  assert (Hp : 0 < GetNumNodes t) by (destruct t; cbn in *; try discriminate; lia).
  assert (exists d : A, True) as (d & _).
  { destruct nodes as [|d ?]; [cbn in Hl; lia|now exists d]. }
  rewrite (labels A d nodes _ Hl), all_face_vertices_nat.
  rewrite firstn_map, cycle_edges_map, map_map.
  destruct t; try discriminate Hd; cbn; eexists; split; reflexivity.
Qed.

(** ** Edges and mid-nodes *)

Definition line_spans (t : ElemType) : list (list nat) :=
  map (fun r => firstn 2 r)
    (filter (fun r => length r =? 2) (ElemElevationSpan_O1O2List t)).

Definition edge_span_check (t : ElemType) : bool :=
  match boundary_edges t (seq 0 (GetNumNodes t)),
        GetElemElevation_O1O2_NumNode t with
  | Ok es, Some n =>
      forallb (fun e =>
        length (filter (fun ine =>
          match ExtractElevNodeSpanNodes t ine (seq 0 (GetNumNodes t)) with
          | Ok s => list_eqb s [fst e; snd e] || list_eqb s [snd e; fst e]
          | _ => false
          end) (seq 0 n)) =? 1) es
      && forallb (fun ine =>
          match ExtractElevNodeSpanNodes t ine (seq 0 (GetNumNodes t)) with
          | Ok [a; b] => existsb (pair_eqb (a, b)) es
          | Ok _ => true
          | _ => false
          end) (seq 0 n)
  | _, _ => false
  end.

Lemma edge_span_check_ok t :
  GetDim t = Some 3 -> GetOrder t = Some 1 -> edge_span_check t = true.
Proof.
  destruct t; intros H1 H2; try discriminate; vm_compute; reflexivity.
Qed.

Lemma list_eqb_ok a b : list_eqb a b = true <-> a = b.
Proof.
  revert b. induction a as [|x a IH]; intros [|y b]; cbn;
    try (split; congruence).
  rewrite andb_true_iff, Nat.eqb_eq, IH. split; [intros []; congruence|].
  intro H. inversion H; auto.
Qed.

Lemma filter_one (P : nat -> bool) l :
  NoDup l -> length (filter P l) = 1 ->
  exists i, In i l /\ P i = true
            /\ forall j, In j l -> P j = true -> j = i.
Proof.
  intros N H. destruct (filter P l) as [|i [|? ?]] eqn:E; try discriminate H.
  exists i. assert (Hi : In i (filter P l)) by (rewrite E; now left).
  apply filter_In in Hi. destruct Hi. split; [auto|]. split; [auto|].
  intros j Hj Hp. assert (Hj' : In j (filter P l)) by now apply filter_In.
  rewrite E in Hj'. now destruct Hj' as [->|[]].
Qed.

Lemma edges_have_midnodes t es :
  GetDim t = Some 3 -> GetOrder t = Some 1 ->
  boundary_edges t (seq 0 (GetNumNodes t)) = Ok es ->
  exists n, GetElemElevation_O1O2_NumNode t = Some n
  /\ (forall a b, In (a, b) es ->
      exists ine, ine < n
        /\ (ExtractElevNodeSpanNodes t ine (seq 0 (GetNumNodes t)) = Ok [a; b]
            \/ ExtractElevNodeSpanNodes t ine (seq 0 (GetNumNodes t)) = Ok [b; a])
        /\ forall j, j < n ->
             (ExtractElevNodeSpanNodes t j (seq 0 (GetNumNodes t)) = Ok [a; b]
              \/ ExtractElevNodeSpanNodes t j (seq 0 (GetNumNodes t)) = Ok [b; a]) ->
             j = ine)
  /\ (forall ine a b, ine < n ->
      ExtractElevNodeSpanNodes t ine (seq 0 (GetNumNodes t)) = Ok [a; b] ->
      In (a, b) es).
Proof.
  intros H1 H2 E. pose proof (edge_span_check_ok t H1 H2) as C.
  unfold edge_span_check in C. rewrite E in C.
  destruct (GetElemElevation_O1O2_NumNode t) as [n|]; [|discriminate].
  apply andb_prop in C. destruct C as [C1 C2]. rewrite forallb_forall in C1, C2.
  exists n. split; [reflexivity|]. split.
  - intros a b Hab. apply C1 in Hab. apply Nat.eqb_eq in Hab.
    apply filter_one in Hab; [|apply seq_NoDup].
    destruct Hab as (i & Hi & Pi & U). exists i.
    apply in_seq in Hi. split; [lia|]. split.
    + destruct (ExtractElevNodeSpanNodes t i _) as [s| |]; try discriminate.
      apply orb_prop in Pi. rewrite !list_eqb_ok in Pi. cbn in Pi.
      destruct Pi; subst; auto.
    + intros j Hj Pj. apply U; [apply in_seq; lia|].
      destruct Pj as [-> | ->]; cbn; rewrite !Nat.eqb_refl; cbn;
        auto using orb_true_r.
  - intros i a b Hi Es. assert (Hs : In i (seq 0 n)) by (apply in_seq; lia).
    apply C2 in Hs. rewrite Es in Hs. apply existsb_exists in Hs.
    destruct Hs as (e & He & Ee). apply pair_eqb_ok in Ee. now subst.
Qed.

Lemma euler t es :
  GetDim t = Some 3 ->
  boundary_edges t (seq 0 (GetNumNodes t)) = Ok es ->
  2 * GetNumVertices t + 2 * GetNumFaces t = length es + 4.
Proof.
  intros Hd E. destruct t; try discriminate Hd; vm_compute in E;
    inversion E; subst; reflexivity.
Qed.

(** ** Second-order faces *)

Fixpoint subsetb (a b : list nat) : bool :=
  match a with
  | [] => true
  | x :: r => existsb (Nat.eqb x) b && subsetb r b
  end.
Definition seteqb (a b : list nat) : bool := subsetb a b && subsetb b a.
Lemma subsetb_ok a b : subsetb a b = true -> incl a b.
Proof.
  induction a as [|x a IH]; cbn; intro H; [intros y []|].
  apply andb_prop in H. destruct H as [H1 H2]. apply existsb_exists in H1.
  destruct H1 as (y & Hy & E). apply Nat.eqb_eq in E. subst y.
  intros z [->|Hz]; auto. now apply IH.
Qed.
Lemma seteqb_ok a b : seteqb a b = true -> same_set a b.
Proof.
  unfold seteqb. intro H. apply andb_prop in H. destruct H.
  split; now apply subsetb_ok.
Qed.

Definition o2_check (t1 : ElemType) (f : nat) : bool :=
  let t2 := GetElemElevation_O1O2_ElevatedType t1 in
  let nodes := seq 0 (GetNumNodes t2) in
  let verts := seq 0 (GetNumNodes t1) in
  let ft1 := GetFaceType t1 f in
  match ExtractFaceNodes t1 f verts, ExtractFaceNodes t2 f nodes,
        GetElemElevation_O1O2_NumNode t1, GetElemElevation_O1O2_NumNode ft1 with
  | Ok fn1, Ok fn2, Some n1, Some m1 =>
      list_eqb (firstn (GetNumNodes ft1) fn2) fn1
      && (length fn2 =? GetNumNodes ft1 + m1)
      && forallb (fun j =>
           match ExtractElevNodeSpanNodes ft1 j fn1,
                 nth_error fn2 (GetNumNodes ft1 + j) with
           | Ok sf, Some k =>
               (GetNumNodes t1 <=? k)
               && match ExtractElevNodeSpanNodes t1 (k - GetNumNodes t1) verts
                  with
                  | Ok sc => seteqb sf sc && (length sf =? length sc)
                  | _ => false
                  end
           | _, _ => false
           end) (seq 0 m1)
  | _, _, _, _ => false
  end.

Lemma o2_check_ok t1 :
  GetOrder t1 = Some 1 -> forall f, f < GetNumFaces t1 -> o2_check t1 f = true.
Proof.
  intros H. apply forallb_seq.
  destruct t1; try discriminate H; vm_compute; reflexivity.
Qed.

Lemma second_order_faces t1 f :
  GetOrder t1 = Some 1 -> f < GetNumFaces t1 ->
  let t2 := GetElemElevation_O1O2_ElevatedType t1 in
  let ft1 := GetFaceType t1 f in
  let nv := GetNumNodes t1 in
  exists fn1 fn2 m,
    GetNumFaces t2 = GetNumFaces t1
    /\ GetFaceType t2 f = GetElemElevation_O1O2_ElevatedType ft1
    /\ ExtractFaceNodes t1 f (seq 0 nv) = Ok fn1
    /\ ExtractFaceNodes t2 f (seq 0 (GetNumNodes t2)) = Ok fn2
    /\ firstn (GetNumNodes ft1) fn2 = fn1
    /\ GetElemElevation_O1O2_NumNode ft1 = Some m
    /\ length fn2 = GetNumNodes ft1 + m
    /\ forall j, j < m ->
       exists ine sf sc,
         nth_error fn2 (GetNumNodes ft1 + j) = Some (nv + ine)
         /\ ExtractElevNodeSpanNodes ft1 j fn1 = Ok sf
         /\ ExtractElevNodeSpanNodes t1 ine (seq 0 nv) = Ok sc
         /\ same_set sf sc /\ length sf = length sc.
Proof.
  intros Ho Hf t2 ft1 nv. pose proof (o2_check_ok t1 Ho f Hf) as C.
  unfold o2_check in C. fold t2 ft1 nv in C.
  destruct (ExtractFaceNodes t1 f (seq 0 nv)) as [fn1| |] eqn:E1; try discriminate.
  destruct (ExtractFaceNodes t2 f _) as [fn2| |] eqn:E2; try discriminate.
  destruct (GetElemElevation_O1O2_NumNode t1) as [n1|]; try discriminate.
  destruct (GetElemElevation_O1O2_NumNode ft1) as [m|] eqn:Em; try discriminate.
  apply andb_prop in C. destruct C as [C C3].
  apply andb_prop in C. destruct C as [C1 C2].
  apply list_eqb_ok in C1. apply Nat.eqb_eq in C2.
  exists fn1, fn2, m. split.
  { destruct t1; try discriminate Ho; reflexivity. }
  split. { unfold t2, ft1.
    destruct t1; try discriminate Ho; cbn in *; try reflexivity;
      destruct (f <=? _); reflexivity. }
  do 5 (split; [auto|]).
  intros j Hj. pose proof (forallb_seq _ _ C3 j Hj) as D. cbn beta in D.
  destruct (ExtractElevNodeSpanNodes ft1 j fn1) as [sf| |] eqn:Ef; try discriminate.
  destruct (nth_error fn2 (GetNumNodes ft1 + j)) as [k|] eqn:Ek; try discriminate.
  apply andb_prop in D. destruct D as [D1 D2]. apply Nat.leb_le in D1.
  destruct (ExtractElevNodeSpanNodes t1 (k - nv) (seq 0 nv)) as [sc| |] eqn:Ec;
    try discriminate.
  apply andb_prop in D2. destruct D2 as [D2 D3]. apply Nat.eqb_eq in D3.
  exists (k - nv), sf, sc. split; [f_equal; lia|].
  do 2 (split; [auto|]). split; [now apply seteqb_ok|auto].
Qed.

(** ** Geometry *)

Definition outward_check (t : ElemType) (f : nat) : bool :=
  match GetDim t with
  | Some d =>
    match face_vertices t f (seq 0 (GetNumNodes t)) with
    | Ok ids =>
        match face_vertices t f (GetStandardCoord t) with
        | Ok fv =>
            forallb (fun k =>
              match nth_error (GetStandardCoord t) k with
              | Some q =>
                  match side d fv q with
                  | Some s => if existsb (Nat.eqb k) ids
                              then Qeq_bool s 0
                              else negb (Qle_bool 0 s)
                  | None => false
                  end
              | None => false
              end) (seq 0 (GetNumVertices t))
        | _ => false
        end
    | _ => false
    end
  | None => false
  end.

Lemma outward_check_ok t f : f < GetNumFaces t -> outward_check t f = true.
Proof.
  revert f. apply forallb_seq. destruct t; vm_compute; reflexivity.
Qed.

Lemma faces_outward t f :
  f < GetNumFaces t ->
  exists d ids fv,
    GetDim t = Some d
    /\ face_vertices t f (seq 0 (GetNumNodes t)) = Ok ids
    /\ face_vertices t f (GetStandardCoord t) = Ok fv
    /\ forall k, k < GetNumVertices t ->
       exists q s, nth_error (GetStandardCoord t) k = Some q
         /\ side d fv q = Some s
         /\ (In k ids -> (s == 0)%Q)
         /\ (~ In k ids -> (s < 0)%Q).
Proof.
  intro Hf. pose proof (outward_check_ok t f Hf) as C. unfold outward_check in C.
  destruct (GetDim t) as [d|]; try discriminate.
  destruct (face_vertices t f (seq 0 _)) as [ids| |]; try discriminate.
  destruct (face_vertices t f (GetStandardCoord t)) as [fv| |]; try discriminate.
  exists d, ids, fv. do 3 (split; [reflexivity|]). intros k Hk.
  pose proof (forallb_seq _ _ C k Hk) as D. cbn beta in D.
  destruct (nth_error (GetStandardCoord t) k) as [q|]; try discriminate.
  destruct (side d fv q) as [s|] eqn:Es; try discriminate.
  exists q, s. do 2 (split; [auto|]).
  destruct (existsb (Nat.eqb k) ids) eqn:Ex.
  - split; [intros _; now apply Qeq_bool_eq|]. intro N. exfalso. apply N.
    apply existsb_exists in Ex. destruct Ex as (y & Hy & E).
    apply Nat.eqb_eq in E. now subst.
  - split.
    + intro H. exfalso. rewrite <- not_true_iff_false, existsb_exists in Ex.
      apply Ex. exists k. split; [auto|apply Nat.eqb_refl].
    + intros _. apply negb_true_iff in D. apply Qnot_le_lt. intro H.
      apply Qle_bool_iff in H. congruence.
Qed.

Definition peqb (a b : pt) : bool :=
  Qeq_bool (px a) (px b) && Qeq_bool (py a) (py b) && Qeq_bool (pz a) (pz b).
Lemma peqb_ok a b : peqb a b = true -> peq a b.
Proof.
  unfold peqb, peq. rewrite !andb_true_iff. intros [[H1 H2] H3].
  repeat split; now apply Qeq_bool_eq.
Qed.

Definition coord_check (t1 : ElemType) : bool :=
  let t2 := GetElemElevation_O1O2_ElevatedType t1 in
  let c1 := GetStandardCoord t1 in
  let c2 := GetStandardCoord t2 in
  match GetElemElevation_O1O2_NumNode t1 with
  | Some n =>
      (length (StandardCoordStream t1) =? 3 * GetNumNodes t1)
      && (length (StandardCoordStream t2) =? 3 * GetNumNodes t2)
      && (GetNumNodes t2 =? GetNumNodes t1 + n)
      && forallb (fun k => match nth_error c1 k, nth_error c2 k with
                           | Some p, Some q => peqb p q
                           | _, _ => false end) (seq 0 (GetNumNodes t1))
      && forallb (fun ine =>
           match ExtractElevNodeSpanNodes t1 ine c1,
                 nth_error c2 (GetNumNodes t1 + ine) with
           | Ok s, Some q => peqb q (mean s)
           | _, _ => false
           end) (seq 0 n)
  | None => false
  end.

Lemma coord_check_ok t : GetOrder t = Some 1 -> coord_check t = true.
Proof. destruct t; intro H; try discriminate H; vm_compute; reflexivity. Qed.

Lemma standard_coordinates t1 :
  GetOrder t1 = Some 1 ->
  let t2 := GetElemElevation_O1O2_ElevatedType t1 in
  length (StandardCoordStream t1) = 3 * GetNumNodes t1
  /\ length (StandardCoordStream t2) = 3 * GetNumNodes t2
  /\ GetOrder t2 = Some 2
  /\ ElemType_to_ParamSpace t2 = ElemType_to_ParamSpace t1
  /\ exists n, GetElemElevation_O1O2_NumNode t1 = Some n
  /\ GetNumNodes t2 = GetNumNodes t1 + n
  /\ (forall k, k < GetNumNodes t1 ->
      exists p q, nth_error (GetStandardCoord t1) k = Some p
                  /\ nth_error (GetStandardCoord t2) k = Some q /\ peq p q)
  /\ (forall ine, ine < n ->
      exists s q, ExtractElevNodeSpanNodes t1 ine (GetStandardCoord t1) = Ok s
        /\ nth_error (GetStandardCoord t2) (GetNumNodes t1 + ine) = Some q
        /\ peq q (mean s)).
Proof.
  intros Ho t2. pose proof (coord_check_ok t1 Ho) as C. unfold coord_check in C.
  fold t2 in C.
  destruct (GetElemElevation_O1O2_NumNode t1) as [n|]; try discriminate.
  repeat (apply andb_prop in C; destruct C as [C ?C]).
  apply Nat.eqb_eq in C, C3, C2. do 2 (split; [auto|]).
  split. { unfold t2. destruct t1; try discriminate Ho; reflexivity. }
  split. { unfold t2. destruct t1; try discriminate Ho; reflexivity. }
  exists n. split; [auto|]. split; [auto|]. split.
  - intros k Hk. pose proof (forallb_seq _ _ C1 k Hk) as D. cbn beta in D.
    destruct (nth_error (GetStandardCoord t1) k) as [p|]; try discriminate.
    destruct (nth_error (GetStandardCoord t2) k) as [q|]; try discriminate.
    exists p, q. do 2 (split; [auto|]). now apply peqb_ok.
  - intros k Hk. pose proof (forallb_seq _ _ C0 k Hk) as D. cbn beta in D.
    destruct (ExtractElevNodeSpanNodes t1 k _) as [s| |]; try discriminate.
    destruct (nth_error (GetStandardCoord t2) _) as [q|]; try discriminate.
    exists s, q. do 2 (split; [auto|]). now apply peqb_ok.
Qed.

Lemma standard_volume t :
  t <> UnknownElem ->
  exists v, cell_volume t (GetStandardCoord t) = Ok v
            /\ (v == ParamSpaceVol (ElemType_to_ParamSpace t))%Q.
Proof.
  intro H. destruct t; try congruence;
    (eexists; split; [vm_compute; reflexivity|vm_compute; reflexivity]).
Qed.

(** ** Bisection *)

Definition bisect_check (t : ElemType) (v : nat) : bool :=
  match sub_elements t v (GetStandardCoord t) with
  | Ok subs =>
      match mapM (fun s => cell_volume (fst s) (snd s)) subs with
      | Ok vs =>
          forallb (fun x => negb (Qle_bool x 0)) vs
          && Qeq_bool (fold_right Qplus 0%Q vs)
                      (ParamSpaceVol (ElemType_to_ParamSpace t))
      | _ => false
      end
  | _ => false
  end.

Definition variants (t : ElemType) : nat :=
  match t with Pyramid14 => 2 | Tet10 => 3 | _ => 1 end.
Lemma variants_ok t v : variant_ok t v = true -> v < variants t.
Proof.
  destruct t; unfold variant_ok, variants; intro H;
    first [apply Nat.ltb_lt in H | apply Nat.eqb_eq in H]; lia.
Qed.

Lemma bisect_check_ok t v :
  GetOrder t = Some 2 -> variant_ok t v = true -> bisect_check t v = true.
Proof.
  intros H V. apply variants_ok in V. revert v V. apply forallb_seq.
  destruct t; try discriminate H; vm_compute; reflexivity.
Qed.

Lemma bisection_volume t v :
  GetOrder t = Some 2 -> variant_ok t v = true ->
  exists subs vs,
    sub_elements t v (GetStandardCoord t) = Ok subs
    /\ mapM (fun s => cell_volume (fst s) (snd s)) subs = Ok vs
    /\ length vs = GetO2ElemBisectNum t
    /\ Forall (fun x => (0 < x)%Q) vs
    /\ (fold_right Qplus 0 vs == ParamSpaceVol (ElemType_to_ParamSpace t))%Q.
Proof.
  intros H V. pose proof (bisect_check_ok t v H V) as C. unfold bisect_check in C.
  destruct (sub_elements t v (GetStandardCoord t)) as [subs| |] eqn:E1;
    try discriminate.
  destruct (mapM (fun s : ElemType * list pt => cell_volume (fst s) (snd s)) subs) as [vs| |] eqn:E2; try discriminate.
  apply andb_prop in C. destruct C as [C1 C2].
  exists subs, vs. do 2 (split; [auto|]). split.
  { unfold sub_elements in E1.
    pose proof (mapM_length _ _ _ _ _ E1) as L1.
    pose proof (mapM_length _ _ _ _ _ E2) as L2.
    rewrite seq_length in L1. exact (eq_trans L2 L1). }
  split; [|now apply Qeq_bool_eq].
  rewrite forallb_forall in C1. apply Forall_forall. intros x Hx.
  apply C1, negb_true_iff in Hx. apply Qnot_le_lt. intro N.
  apply Qle_bool_iff in N. congruence.
Qed.

(** *** Conformity *)

Definition conf_check (t : ElemType) (v : nat) : bool :=
  let nodes := seq 0 (GetNumNodes t) in
  match sub_faces t v nodes, bisected_faces t nodes with
  | Ok F, Ok B =>
      forallb (fun c =>
        (count_cycle c F + count_cycle (rev c) B
         =? count_cycle (rev c) F + count_cycle c B)
        && (count_cycle c F <=? 1) && (count_cycle c B <=? 1))
      (F ++ map (@rev nat) F ++ B ++ map (@rev nat) B)
  | _, _ => false
  end.

Lemma conf_check_ok t v :
  GetOrder t = Some 2 -> GetDim t = Some 3 -> variant_ok t v = true ->
  conf_check t v = true.
Proof.
  intros H D V. apply variants_ok in V. revert v V. apply forallb_seq.
  destruct t; try discriminate H; try discriminate D; vm_compute; reflexivity.
Qed.

Lemma same_cycle_iff a b :
  same_cycle a b = true <-> exists k, k <= length a /\ rotate k a = b.
Proof.
  unfold same_cycle. rewrite existsb_exists. split.
  - intros (k & Hk & E). apply in_seq in Hk. apply list_eqb_ok in E.
    exists k. split; [lia|auto].
  - intros (k & Hk & E). exists k. split; [apply in_seq; lia|].
    now apply list_eqb_ok.
Qed.

Lemma rotate_length A k (l : list A) : length (rotate k l) = length l.
Proof.
  unfold rotate. rewrite app_length, skipn_length, firstn_length. lia.
Qed.

Lemma rotate_add A i j (l : list A) :
  i <= length l -> j <= length l ->
  exists k, k <= length l /\ rotate j (rotate i l) = rotate k l.
Proof.
  intros Hi Hj. unfold rotate.
  destruct (Nat.le_gt_cases j (length l - i)) as [H|H].
  - exists (i + j). split; [lia|].
    rewrite skipn_app, firstn_app, skipn_length.
    replace (j - (length l - i)) with 0 by lia. cbn [skipn firstn].
    rewrite app_nil_r, <- app_assoc.
    f_equal.
    + clear. revert l. induction i as [|i IH]; intros l; [reflexivity|].
      destruct l; cbn; [now rewrite skipn_nil|apply IH].
    + clear. revert l. induction i as [|i IH]; intros l; [reflexivity|].
      destruct l as [|x l]; cbn; [now rewrite firstn_nil|].
      f_equal. apply IH.
  - exists (j - (length l - i)). split; [lia|].
    rewrite skipn_app, firstn_app, skipn_length.
    rewrite (skipn_all2 (skipn i l)) by (rewrite skipn_length; lia).
    rewrite (firstn_all2 (skipn i l)) by (rewrite skipn_length; lia).
    cbn [app].
    set (m := j - (length l - i)).
    rewrite firstn_firstn, Nat.min_l by lia.
    rewrite app_assoc. f_equal.
    rewrite <- (firstn_skipn i l) at 3. rewrite skipn_app, firstn_length.
    replace (m - Nat.min i (length l)) with 0 by lia. reflexivity.
Qed.

Lemma rotate_back A i (l : list A) :
  i <= length l -> rotate (length l - i) (rotate i l) = l.
Proof.
  intro H. unfold rotate. rewrite skipn_app, firstn_app, skipn_length.
  rewrite (skipn_all2 (skipn i l)) by (rewrite skipn_length; lia).
  rewrite (firstn_all2 (skipn i l)) by (rewrite skipn_length; lia).
  rewrite Nat.sub_diag. cbn. rewrite app_nil_r. apply firstn_skipn.
Qed.

Lemma same_cycle_sym a b : same_cycle a b = true -> same_cycle b a = true.
Proof.
  rewrite !same_cycle_iff. intros (k & Hk & <-).
  exists (length a - k). rewrite rotate_length. split; [lia|].
  now apply rotate_back.
Qed.

Lemma same_cycle_trans a b c :
  same_cycle a b = true -> same_cycle b c = true -> same_cycle a c = true.
Proof.
  rewrite !same_cycle_iff. intros (i & Hi & <-) (j & Hj & <-).
  rewrite rotate_length in Hj. destruct (rotate_add _ i j a Hi Hj) as (k & Hk & E).
  exists k. auto.
Qed.

Lemma rotate_app A (a b : list A) : rotate (length a) (a ++ b) = b ++ a.
Proof.
  unfold rotate. rewrite skipn_app, firstn_app, Nat.sub_diag, skipn_all,
    firstn_all. cbn. now rewrite app_nil_r.
Qed.

Lemma rev_rotate A k (l : list A) :
  k <= length l -> rev (rotate k l) = rotate (length l - k) (rev l).
Proof.
  intro H.
  assert (Ha : length (firstn k l) = k) by (rewrite firstn_length; lia).
  assert (Hb : length (skipn k l) = length l - k) by apply skipn_length.
  rewrite <- Hb. clear Hb.
  rewrite <- (firstn_skipn k l) in H |- *.
  set (a := firstn k l) in *. set (b := skipn k l) in *. clearbody a b. subst k.
  replace (skipn (length a) (a ++ b)) with b
    by now rewrite skipn_app, Nat.sub_diag, skipn_all.
  rewrite rotate_app, !rev_app_distr, <- (rev_length b). symmetry.
  apply rotate_app.
Qed.

Lemma same_cycle_rev a b :
  same_cycle a b = true -> same_cycle (rev a) (rev b) = true.
Proof.
  rewrite !same_cycle_iff. intros (k & Hk & <-). exists (length a - k).
  rewrite rev_length. split; [lia|]. now rewrite rev_rotate.
Qed.

Lemma count_same_cycle c d L :
  same_cycle c d = true -> count_cycle c L = count_cycle d L.
Proof.
  intro H. unfold count_cycle. f_equal. apply filter_ext. intro x.
  destruct (same_cycle c x) eqn:E1, (same_cycle d x) eqn:E2; auto; exfalso.
  - assert (same_cycle d x = true); [|congruence].
    eapply same_cycle_trans; [eapply same_cycle_sym|]; eauto.
  - assert (same_cycle c x = true); [|congruence].
    eapply same_cycle_trans; eauto.
Qed.

Lemma count_zero c L :
  (forall x, In x L -> same_cycle c x = false) -> count_cycle c L = 0.
Proof.
  intro H. unfold count_cycle. induction L as [|x L IH]; [reflexivity|].
  cbn [filter]. rewrite H by now left. apply IH. intros; apply H; now right.
Qed.

Lemma rev_same c x :
  same_cycle (rev c) x = true -> same_cycle c (rev x) = true.
Proof.
  intro H. apply same_cycle_rev in H. now rewrite rev_involutive in H.
Qed.

Lemma bisection_conforming t v :
  GetOrder t = Some 2 -> GetDim t = Some 3 -> variant_ok t v = true ->
  exists F B,
    sub_faces t v (seq 0 (GetNumNodes t)) = Ok F
    /\ bisected_faces t (seq 0 (GetNumNodes t)) = Ok B
    /\ forall c,
         count_cycle c F + count_cycle (rev c) B
         = count_cycle (rev c) F + count_cycle c B
         /\ count_cycle c F <= 1 /\ count_cycle c B <= 1.
Proof.
  intros H D V. pose proof (conf_check_ok t v H D V) as C. unfold conf_check in C.
  destruct (sub_faces t v _) as [F| |]; try discriminate.
  destruct (bisected_faces t _) as [B| |]; try discriminate.
  exists F, B. do 2 (split; [reflexivity|]). intro c.
  rewrite forallb_forall in C.
  set (L := F ++ map (@rev nat) F ++ B ++ map (@rev nat) B) in *.
  destruct (existsb (same_cycle c) L) eqn:E.
  - apply existsb_exists in E. destruct E as (d & Hd & E).
    apply C in Hd. rewrite !andb_true_iff, Nat.eqb_eq, !Nat.leb_le in Hd.
    rewrite (count_same_cycle c d F E), (count_same_cycle c d B E).
    rewrite (count_same_cycle _ _ F (same_cycle_rev _ _ E)).
    rewrite (count_same_cycle _ _ B (same_cycle_rev _ _ E)). tauto.
  - assert (N : forall x, In x L -> same_cycle c x = false).
    { intros x Hx. destruct (same_cycle c x) eqn:Ex; auto.
      rewrite <- E. symmetry. apply existsb_exists. eauto. }
    assert (N' : forall x, In (rev x) L -> same_cycle (rev c) x = false).
    { intros x Hx. destruct (same_cycle (rev c) x) eqn:Ex; auto.
      apply rev_same in Ex. rewrite N in Ex; auto. }
    rewrite (count_zero c F), (count_zero c B),
      (count_zero (rev c) F), (count_zero (rev c) B); auto;
      intros x Hx; first [apply N|apply N']; unfold L; rewrite !in_app_iff;
      auto using in_map.
Qed.

(** In two dimensions. *)
Definition conf2_check (t : ElemType) : bool :=
  let nodes := seq 0 (GetNumNodes t) in
  match sub_faces t 0 nodes, bisected_faces t nodes with
  | Ok F, Ok B =>
      forallb (fun c =>
        (count_edge c F + count_edge (rev c) B
         =? count_edge (rev c) F + count_edge c B)
        && (count_edge c F <=? 1) && (count_edge c B <=? 1))
      (F ++ map (@rev nat) F ++ B ++ map (@rev nat) B)
  | _, _ => false
  end.

Lemma bisection_conforming_2d t :
  GetOrder t = Some 2 -> GetDim t = Some 2 ->
  exists F B,
    sub_faces t 0 (seq 0 (GetNumNodes t)) = Ok F
    /\ bisected_faces t (seq 0 (GetNumNodes t)) = Ok B
    /\ forall a b,
         count_edge [a; b] F + count_edge [b; a] B
         = count_edge [b; a] F + count_edge [a; b] B
         /\ count_edge [a; b] F <= 1 /\ count_edge [a; b] B <= 1.
Proof.
  intros H D. assert (C : conf2_check t = true).
  { destruct t; try discriminate H; try discriminate D; vm_compute; reflexivity. }
  unfold conf2_check in C.
  destruct (sub_faces t 0 _) as [F| |]; try discriminate.
  destruct (bisected_faces t _) as [B| |]; try discriminate.
  exists F, B. do 2 (split; [reflexivity|]). intros a b.
  rewrite forallb_forall in C.
  set (L := F ++ map (@rev nat) F ++ B ++ map (@rev nat) B) in *.
  destruct (in_dec (list_eq_dec Nat.eq_dec) [a; b] L) as [I|N].
  - apply C in I. rewrite !andb_true_iff, Nat.eqb_eq, !Nat.leb_le in I.
    cbn [rev app] in I. tauto.
  - assert (N' : forall x, In (rev x) L -> x <> [b; a]).
    { intros x Hx ->. apply N, Hx. }
    unfold count_edge.
    rewrite !(proj1 (count_occ_not_In (list_eq_dec Nat.eq_dec) _ _));
      [lia| | | |]; intro I;
      first [ apply N; unfold L; rewrite !in_app_iff; now auto
            | eapply N'; [|reflexivity]; unfold L; rewrite !in_app_iff;
              apply (in_map (@rev nat)) in I; now auto ].
Qed.

(** *** Two cells see the same bisection of a common face *)

Definition shared_check (t : ElemType) (k : nat) (o : bool) : bool :=
  let nodes := seq 0 (GetNumNodes t) in
  match sub_elements t 0 nodes, sub_elements t 0 (seen_from t k o nodes) with
  | Ok A, Ok B =>
      forallb (fun a => existsb (fun b => seteqb (snd a) (snd b)) B) A
      && forallb (fun b => existsb (fun a => seteqb (snd a) (snd b)) A) B
  | _, _ => false
  end.

Lemma shared_check_ok t k o :
  GetOrder t = Some 2 -> GetDim t = Some 2 -> k < GetNumVertices t ->
  shared_check t k o = true.
Proof.
  intros H D. revert k. apply forallb_seq.
  destruct t; try discriminate H; try discriminate D; destruct o;
    vm_compute; reflexivity.
Qed.

Lemma bisection_of_shared_face t k opposite :
  GetOrder t = Some 2 -> GetDim t = Some 2 -> k < GetNumVertices t ->
  let nodes := seq 0 (GetNumNodes t) in
  exists A B,
    sub_elements t 0 nodes = Ok A
    /\ sub_elements t 0 (seen_from t k opposite nodes) = Ok B
    /\ same_sets (map snd A) (map snd B).
Proof.
  intros H D Hk nodes. pose proof (shared_check_ok t k opposite H D Hk) as C.
  unfold shared_check in C. fold nodes in C.
  destruct (sub_elements t 0 nodes) as [A| |]; try discriminate.
  destruct (sub_elements t 0 (seen_from t k opposite nodes)) as [B| |];
    try discriminate.
  exists A, B. do 2 (split; [reflexivity|]).
  apply andb_prop in C. destruct C as [C1 C2].
  rewrite forallb_forall in C1, C2. split.
  - intros a Ha. apply in_map_iff in Ha. destruct Ha as (a' & <- & Ha).
    apply C1, existsb_exists in Ha. destruct Ha as (b & Hb & E).
    exists (snd b). split; [now apply in_map|now apply seteqb_ok].
  - intros b Hb. apply in_map_iff in Hb. destruct Hb as (b' & <- & Hb).
    apply C2, existsb_exists in Hb. destruct Hb as (a & Ha & E).
    exists (snd a). split; [now apply in_map|now apply seteqb_ok].
Qed.
