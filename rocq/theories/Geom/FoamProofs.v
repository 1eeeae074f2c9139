(** Proofs about the conversion of a polyMesh. *)
From Coq Require Import List ZArith Bool String Permutation Lia Arith.
From Verif Require Import Base.Prelude Base.PreludeFacts Geom.ElemModel Geom.ElemSpec Geom.ElemProofs Geom.BoundaryModel Geom.BisectSpec Geom.BisectProofs Geom.BisectFaces Geom.BisectMore Geom.FoamModel Geom.FoamSpec.
Import ListNotations.
Local Open Scope list_scope.
Local Open Scope Z_scope.

(** ** Renaming nodes *)
Definition lab : list Z := [0; 1; 2; 3; 4; 5; 6; 7].
Definition inj_on (g : Z -> Z) : Prop := forall x y, In x lab -> In y lab -> g x = g y -> x = y.
Section Rename.
Variable g : Z -> Z.
Hypothesis INJ : inj_on g.
Lemma eqb_g x y : In x lab -> In y lab -> (g x =? g y) = (x =? y).
Proof. intros X Y. destruct (Z.eqb_spec x y) as [->|N]; [apply Z.eqb_refl|]. apply Z.eqb_neq. intro E. apply N. auto. Qed.
Lemma last_place_map x : In x lab -> forall l i acc, incl l lab -> last_place (g x) i (map g l) acc = last_place x i l acc.
Proof.
  intro X. induction l as [|y l IH]; intros i acc I; cbn; [reflexivity|]. rewrite eqb_g; [|apply I; now left|auto]. apply IH. intros z Z. apply I. now right.
Qed.
Lemma in_first4_map x nodes : In x lab -> incl nodes lab -> in_first4 (map g nodes) (g x) = in_first4 nodes x.
Proof.
  intros X I. unfold in_first4. rewrite firstn_map. assert (J : incl (firstn 4 nodes) lab). { intros z Z. apply I. rewrite <- (firstn_skipn 4 nodes). apply in_or_app. now left. }
  revert J. generalize (firstn 4 nodes). induction l as [|y l IH]; intro J; cbn; [reflexivity|]. rewrite eqb_g, IH; auto; [intros z Z; apply J; now right|apply J; now left].
Qed.
Lemma vget_map A B (f : A -> B) l i : vget (map f l) i = rmap f (vget l i).
Proof. unfold vget. destruct (i <? 0); [reflexivity|]. rewrite nth_error_map. now destruct (nth_error l (Z.to_nat i)). Qed.
Lemma vget_in A (l : list A) i x : vget l i = Ok x -> In x l.
Proof. unfold vget. destruct (i <? 0); [discriminate|]. destruct (nth_error l (Z.to_nat i)) eqn:E; [|discriminate]. intro H. injection H as <-. eapply nth_error_In; eauto. Qed.
Lemma head_of_map nodes x f : In x lab -> incl nodes lab -> incl f lab -> head_of (map g nodes) (g x) (map g f) = rmap (option_map g) (head_of nodes x f).
Proof.
  intros X N F. unfold head_of. rewrite last_place_map by auto. destruct (last_place x 0 f None) as [i|]; [|reflexivity]. rewrite map_length, !vget_map.
  destruct (vget f (Z.of_nat ((i + (List.length f - 1)) mod List.length f))) as [L| |] eqn:EL; try reflexivity. cbn [rmap bind].
  destruct (vget f (Z.of_nat ((i + 1) mod List.length f))) as [R| |] eqn:ER; try reflexivity. cbn [rmap bind option_map].
  rewrite in_first4_map; [|apply F; eapply vget_in; eauto|auto]. now destruct (in_first4 nodes L).
Qed.
End Rename.

(** ** The tables *)
Definition zl_eqb (a b : list Z) : bool := if list_eq_dec Z.eq_dec a b then true else false.
Lemma zl_eqb_ok a b : zl_eqb a b = true <-> a = b.
Proof. unfold zl_eqb. destruct (list_eq_dec Z.eq_dec a b); split; intro; congruence. Qed.
Definition hf (j : nat) : list Z := nth j (hex_faces lab) [].
(** face [j] of the hexahedron, started anywhere, seen from outside or inside *)
Definition seen (j r : nat) (o : bool) : list Z := let x := rotate r (hf j) in if o then x else rev x.
Definition bottom (j r : nat) : list Z := rev (rotate r (hf j)).
Definition others (j : nat) : list nat := filter (fun i => negb (Nat.eqb i j)) (seq 0 6).
Definition whole (j r : nat) : list Z := match lift (bottom j r) (bottom j r) (map hf (others j)) with Ok (Some n) => n | _ => [] end.
Definition answer (j r i j' r' : nat) (o : bool) : bool :=
  match head_of (bottom j r) (nth i (bottom j r) 0) (seen j' r' o) with Ok (Some v) => v =? nth (4 + i) (whole j r) (-1) | Ok None => true | _ => false end.
Definition known (j r i j' r' : nat) (o : bool) : bool :=
  match head_of (bottom j r) (nth i (bottom j r) 0) (seen j' r' o) with Ok (Some _) => true | _ => false end.
Definition turn_b (x y : list Z) : bool := existsb (fun k => zl_eqb (rotate k x) y) (seq 0 4).
Definition faces_b (j r : nat) : list nat :=
  map (fun k => match find (fun q => turn_b (hf q) (nth k (hex_faces (whole j r)) [])) (seq 0 6) with Some q => q | None => 6%nat end) (seq 0 6).
Definition case_b (j r : nat) : bool :=
  Nat.eqb (List.length (whole j r)) 8 && zl_eqb (firstn 4 (whole j r)) (bottom j r) && forallb (fun x => existsb (Z.eqb x) lab) (whole j r) && zl_eqb (zsort (whole j r)) lab &&
  forallb (fun i => forallb (fun j' => forallb (fun r' => forallb (answer j r i j' r') [true; false]) (seq 0 4)) (others j) &&
     existsb (fun j' => forallb (fun r' => forallb (known j r i j' r') [true; false]) (seq 0 4)) (others j)) (seq 0 4) &&
  forallb (fun k => turn_b (hf (nth k (faces_b j r) 0%nat)) (nth k (hex_faces (whole j r)) [])) (seq 0 6) &&
  (if list_eq_dec Nat.eq_dec (map Z.to_nat (zsort (map Z.of_nat (faces_b j r)))) (seq 0 6) then true else false).
Lemma all_cases : forallb (fun j => forallb (case_b j) (seq 0 4)) (seq 0 6) = true.
Proof. vm_compute. reflexivity. Qed.

(** ** Looking up *)
Lemma heads_same nodes foot v : forall fs head, (forall f, In f fs -> head_of nodes foot f = Ok None \/ head_of nodes foot f = Ok (Some v)) ->
  heads nodes foot head fs = Ok (if existsb (fun f => match head_of nodes foot f with Ok (Some _) => true | _ => false end) fs then v else head).
Proof.
  induction fs as [|f fs IH]; intros head H; cbn; [reflexivity|]. destruct (H f (or_introl eq_refl)) as [E|E]; rewrite E; cbn; rewrite IH by (intros; apply H; now right); [reflexivity|].
  now destruct (existsb _ fs).
Qed.
Lemma head_of_first nodes more foot f : List.length nodes = 4%nat -> head_of (nodes ++ more) foot f = head_of nodes foot f.
Proof. intro L. unfold head_of, in_first4. rewrite firstn_app, L, Nat.sub_diag. cbn [firstn]. rewrite app_nil_r. reflexivity. Qed.
Lemma heads_first nodes more foot : List.length nodes = 4%nat -> forall fs head, heads (nodes ++ more) foot head fs = heads nodes foot head fs.
Proof. intro L. induction fs as [|f fs IH]; intro head; cbn; [reflexivity|]. rewrite head_of_first by auto. destruct (head_of nodes foot f); cbn; auto. Qed.
Lemma lift_ok nodes fs : List.length nodes = 4%nat -> forall feet tops more,
  Forall2 (fun foot v => heads nodes foot (-1) fs = Ok v /\ 0 <= v) feet tops -> lift (nodes ++ more) feet fs = Ok (Some (nodes ++ more ++ tops)).
Proof.
  intros L feet tops more F. revert more. induction F as [|foot v feet tops [H P] F IH]; intro more; cbn [lift].
  - now rewrite app_nil_r.
  - rewrite heads_first, H by auto. cbn [bind]. rewrite (proj2 (Z.leb_le 0 v) P), <- app_assoc, IH, <- !app_assoc. reflexivity.
Qed.
Lemma turned_rotate (x y : list Z) : turned x y -> List.length y = 4%nat -> exists r, (r < 4)%nat /\ x = rotate r y.
Proof.
  intros T L. apply turned_sym in T. destruct T as [->|(_ & k & K & <-)]; [exists 0%nat; split; [lia|unfold rotate; cbn; now rewrite app_nil_r]|].
  rewrite L in K. destruct (Nat.eq_dec k 4) as [->|N]; [|exists k; split; [lia|reflexivity]]. exists 0%nat. split; [lia|]. unfold rotate. rewrite <- L at 1 2. rewrite skipn_all, firstn_all. cbn. now rewrite app_nil_r.
Qed.
Lemma lab_hf j : (j < 6)%nat -> List.length (hf j) = 4%nat /\ incl (hf j) lab.
Proof. intro J. do 6 (destruct j as [|j]; [cbn; split; [reflexivity|intros x X; cbn in X |- *; tauto]|]). lia. Qed.
Lemma incl_rotate A r (x l : list A) : incl x l -> incl (rotate r x) l.
Proof. intros I z Z. apply I. unfold rotate in Z. apply in_app_or in Z. rewrite <- (firstn_skipn r x). apply in_or_app. tauto. Qed.
Lemma seen_lab j r o : (j < 6)%nat -> incl (seen j r o) lab /\ List.length (seen j r o) = 4%nat.
Proof.
  intro J. destruct (lab_hf j J) as [L I]. unfold seen. split.
  - destruct o; [now apply incl_rotate|]. intros z Z. apply in_rev in Z. eapply incl_rotate; eauto.
  - destruct o; rewrite ?rev_length, rotate_length; exact L.
Qed.
Lemma hex_faces_map g l : List.length l = 8%nat -> hex_faces (map g l) = map (map g) (hex_faces l).
Proof. intro L. do 9 (destruct l as [|? l]; try discriminate L). reflexivity. Qed.
Lemma hex_faces_len l : List.length l = 8%nat -> List.length (hex_faces l) = 6%nat.
Proof. intro L. do 9 (destruct l as [|? l]; try discriminate L). reflexivity. Qed.
Lemma h_labels h : List.length h = 8%nat -> h = map (fun z => nth (Z.to_nat z) h 0) lab.
Proof. intro L. do 9 (destruct h as [|? h]; try discriminate L). reflexivity. Qed.
Lemma h_inj h : List.length h = 8%nat -> NoDup h -> inj_on (fun z => nth (Z.to_nat z) h 0).
Proof.
  intros L N x y X Y E. assert (R : forall z, In z lab -> 0 <= z < 8) by (intros z Z; cbn in Z; lia). pose proof (R _ X). pose proof (R _ Y).
  rewrite NoDup_nth with (d := 0) in N. apply N in E; lia.
Qed.
Lemma turn_b_ok x y : turn_b x y = true -> List.length x = 4%nat -> turned x y.
Proof. unfold turn_b. rewrite existsb_exists. intros (k & K & E) L. apply zl_eqb_ok in E. apply in_seq in K. right. split; [lia|]. exists k. split; [lia|auto]. Qed.

(** the faces of a cell with their flags, outward *)
Definition out (q : list Z * bool) : list Z := if snd q then fst q else rev (fst q).
Lemma out_inv q x : out q = x -> fst q = if snd q then x else rev x.
Proof. destruct q as [f [|]]; cbn; intros <-; [reflexivity|]. now rewrite rev_involutive. Qed.
Lemma perm_nth A (l : list A) d ts : Permutation ts (seq 0 (List.length l)) -> Permutation (map (fun k => nth k l d) ts) l.
Proof. intro P. rewrite P. rewrite <- (labels A d l (List.length l) eq_refl). reflexivity. Qed.
Lemma zsort_nat_perm l : Permutation (map Z.to_nat (zsort (map Z.of_nat l))) l.
Proof.
  transitivity (map Z.to_nat (map Z.of_nat l)); [apply Permutation_map; symmetry; apply zsort_perm|]. rewrite map_map, (map_ext _ (fun x => x)), map_id; [reflexivity|]. intro x. apply Nat2Z.id.
Qed.
Lemma Forall2_nth_r A B (R : A -> B -> Prop) l q d e : Forall2 R l q -> forall k, (k < List.length q)%nat -> R (nth k l d) (nth k q e).
Proof. intro F. induction F as [|a b l q H F IH]; intros [|k] K; cbn in *; try lia; auto. apply IH. lia. Qed.
Lemma F2_length A B (R : A -> B -> Prop) l q : Forall2 R l q -> List.length l = List.length q.
Proof. intro F. induction F; cbn; congruence. Qed.
Lemma recover L h : NoDup h -> (forall x, In x h -> 0 <= x) -> bounds (map out L) h ->
  exists n, extract_element (map fst L) (map snd L) = Ok (Some n) /\ NoDup n /\ bounds (map out L) n /\ Permutation n h.
Proof.
  intros ND POS (L8 & p & PERM & F). set (g := fun z => nth (Z.to_nat z) h 0). pose proof (h_inj h L8 ND) as INJ. fold g in INJ. pose proof (h_labels h L8) as HL. fold g in HL.
  assert (HF : hex_faces h = map (map g) (hex_faces lab)) by (rewrite HL at 1; now apply hex_faces_map). rewrite HF in F.
  assert (LP : List.length p = 6%nat) by (apply F2_length in F; rewrite F; reflexivity).
  assert (NTH : forall j, (j < 6)%nat -> exists r, (r < 4)%nat /\ nth j p [] = map g (rotate r (hf j))).
  { intros j J. pose proof (Forall2_nth_r _ _ _ _ _ [] [] F j J) as T. rewrite (map_nth (map g) (hex_faces lab) [] j : nth j (map (map g) (hex_faces lab)) [] = _) in T. fold (hf j) in T.
    apply turned_rotate in T; [|rewrite map_length; now apply lab_hf]. destruct T as (r & R & E). exists r. split; auto. rewrite E. apply rotate_map. }
  assert (LL : List.length L = 6%nat) by (rewrite <- (map_length out L), (Permutation_length PERM); exact LP).
  destruct L as [|q0 L]; [discriminate|]. cbn [map] in PERM |- *.
  destruct (in_split (out q0) p) as (a & b & E). { eapply Permutation_in; [exact PERM|now left]. }
  rewrite E in PERM. apply Permutation_cons_app_inv in PERM. set (j0 := List.length a).
  assert (J0 : (j0 < 6)%nat). { unfold j0. rewrite <- LP, E, app_length. cbn. lia. }
  assert (N0 : nth j0 p [] = out q0). { rewrite E. unfold j0. now rewrite nth_middle. }
  destruct (NTH j0 J0) as (r0 & R0 & E0). rewrite N0 in E0.
  assert (OTH : forall j, (j < 6)%nat -> j <> j0 -> In (nth j p []) (a ++ b)).
  { intros j J NE. rewrite E. assert (LAB : (List.length a + S (List.length b) = 6)%nat) by (rewrite <- LP, E, app_length; reflexivity). destruct (Nat.lt_ge_cases j j0) as [Q|Q]; unfold j0 in *.
    - rewrite app_nth1 by lia. apply in_or_app. left. apply nth_In. lia.
    - rewrite app_nth2 by lia. destruct (j - List.length a)%nat eqn:D; [lia|]. cbn [nth]. apply in_or_app. right. apply nth_In. lia. }
  assert (OTH' : forall x, In x (a ++ b) -> exists j, (j < 6)%nat /\ j <> j0 /\ nth j p [] = x).
  { intros x X. assert (LAB : (List.length a + S (List.length b) = 6)%nat) by (rewrite <- LP, E, app_length; reflexivity). apply in_app_or in X. destruct X as [X|X]; apply In_nth with (d := []) in X; destruct X as (k & K & X).
    - exists k. rewrite E, app_nth1 by lia. unfold j0. repeat split; auto; lia.
    - exists (S (List.length a + k)). rewrite E, app_nth2 by lia. replace (S (List.length a + k) - List.length a)%nat with (S k) by lia. unfold j0. repeat split; auto; lia. }
  pose proof (forallb_seq _ _ (forallb_seq _ _ all_cases j0 J0) r0 R0) as CB. unfold case_b in CB. rewrite !andb_true_iff in CB. destruct CB as ((((((C1 & C2) & C3) & C3') & C4) & C5) & C6).
  apply Nat.eqb_eq in C1. apply zl_eqb_ok in C2. apply zl_eqb_ok in C3'. unfold answer, known in C4.
  assert (BE : bottom j0 r0 = rev (rotate r0 (hf j0))) by reflexivity.
  assert (LT : List.length (faces_b j0 r0) = 6%nat) by (unfold faces_b; now rewrite map_length). set (T := faces_b j0 r0) in *. clearbody T.
  set (W := whole j0 r0) in *. clearbody W.
  assert (WL : incl W lab). { intros x X. rewrite forallb_forall in C3. specialize (C3 x X). apply existsb_exists in C3. destruct C3 as (y & Y & Q). apply Z.eqb_eq in Q. rewrite Q; exact Y. }
  assert (WP : Permutation W lab) by (rewrite <- C3'; apply zsort_perm).
  assert (BL : incl (bottom j0 r0) lab /\ List.length (bottom j0 r0) = 4%nat). { destruct (seen_lab j0 r0 false J0) as [S1 S2]. split; auto. }
  destruct BL as [BL BN]. set (B := bottom j0 r0) in *. clearbody B.
  assert (WB : W = B ++ skipn 4 W) by (rewrite <- C2; symmetry; apply firstn_skipn).
  assert (OWN : forall q, In q L -> exists j r, In j (others j0) /\ (r < 4)%nat /\ fst q = map g (seen j r (snd q))).
  { intros q Q. destruct (OTH' (out q)) as (j & J & NE & X). { eapply Permutation_in; [exact PERM|]. now apply in_map. }
    destruct (NTH j J) as (r & R & Y). exists j, r. split; [|split; auto].
    - unfold others. apply filter_In. split; [apply in_seq; lia|]. apply negb_true_iff, Nat.eqb_neq. auto.
    - rewrite (out_inv q (map g (rotate r (hf j)))) by congruence. unfold seen. destruct (snd q); [reflexivity|]. now rewrite map_rev. }
  assert (OWN' : forall j, In j (others j0) -> exists q r, In q L /\ (r < 4)%nat /\ fst q = map g (seen j r (snd q))).
  { intros j J. unfold others in J. apply filter_In in J. destruct J as [J NE]. apply in_seq in J. apply negb_true_iff, Nat.eqb_neq in NE. pose proof (OTH j ltac:(lia) NE) as I. eapply Permutation_in in I; [|symmetry; exact PERM].
    apply in_map_iff in I. destruct I as (q & Q & I). destruct (NTH j ltac:(lia)) as (r & R & Y). exists q, r. split; auto. split; auto. rewrite (out_inv q (map g (rotate r (hf j)))) by congruence. unfold seen. destruct (snd q); [reflexivity|]. now rewrite map_rev. }
  exists (map g W). split; [|split; [|split]].
  - unfold extract_element.
    assert (FOUR : forallb (fun f => zlen f =? 4) (fst q0 :: map fst L) = true).
    { apply forallb_forall. intros f [<-|I].
      - apply Z.eqb_eq. unfold zlen. assert (X : List.length (out q0) = 4%nat) by (rewrite E0, map_length; apply (proj2 (seen_lab j0 r0 true J0))). unfold out in X. destruct (snd q0); rewrite ?rev_length in X; lia.
      - apply in_map_iff in I. destruct I as (q & <- & I). destruct (OWN q I) as (j & r & J & R & X). rewrite X. unfold zlen. rewrite map_length, (proj2 (seen_lab j r (snd q) ltac:(unfold others in J; apply filter_In in J; destruct J as [J _]; apply in_seq in J; lia))). reflexivity. }
    assert (ZL : (zlen (fst q0 :: map fst L) =? 6) = true) by (unfold zlen; cbn [List.length] in LL |- *; rewrite map_length; apply Z.eqb_eq; lia).
    rewrite ZL, FOUR. cbn [map]. change (vget (fst q0 :: map fst L) 0) with (Ok (fst q0)). change (vget (snd q0 :: map snd L) 0) with (Ok (snd q0)). cbn [bind tl].
    assert (NB : (if snd q0 then rev (fst q0) else fst q0) = map g B).
    { rewrite BE, map_rev, <- E0. unfold out. destruct (snd q0); [reflexivity|]. now rewrite rev_involutive. }
    rewrite NB. rewrite WB, map_app. pose proof (lift_ok (map g B) (map fst L) ltac:(now rewrite map_length) (map g B) (map g (skipn 4 W)) []) as LO. rewrite !app_nil_r in LO. cbn [app] in LO. apply LO. clear LO.
    assert (L4 : List.length (skipn 4 W) = 4%nat) by (rewrite skipn_length; lia).
    assert (EACH : forall i, (i < 4)%nat -> heads (map g B) (g (nth i B 0)) (-1) (map fst L) = Ok (g (nth i (skipn 4 W) 0)) /\ 0 <= g (nth i (skipn 4 W) 0)).
    { intros i I. assert (IB : In (nth i B 0) lab) by (apply BL, nth_In; lia). assert (IW : In (nth i (skipn 4 W) 0) W). { assert (IW : In (nth i (skipn 4 W) 0) (skipn 4 W)) by (apply nth_In; lia). rewrite <- (firstn_skipn 4 W) at 2. apply in_or_app. now right. }
      pose proof (forallb_seq _ _ C4 i I) as C. cbv beta in C. apply andb_true_iff in C. destruct C as [CA CK]. rewrite forallb_forall in CA. apply existsb_exists in CK. destruct CK as (jk & JK & CK).
      assert (NW : nth (4 + i) W (-1) = nth i (skipn 4 W) 0). { rewrite WB at 1. rewrite app_nth2 by lia. replace (4 + i - List.length B)%nat with i by lia. apply nth_indep. lia. }
      assert (ANS : forall q, In q L -> head_of (map g B) (g (nth i B 0)) (fst q) = Ok None \/ head_of (map g B) (g (nth i B 0)) (fst q) = Ok (Some (g (nth i (skipn 4 W) 0)))).
      { intros q Q. destruct (OWN q Q) as (j & r & J & R & X). assert (J6 : (j < 6)%nat) by (unfold others in J; apply filter_In in J; destruct J as [J _]; apply in_seq in J; lia).
        rewrite X, head_of_map; [|auto..|apply (seen_lab j r (snd q) J6)]. pose proof (forallb_seq _ _ (CA j J) r R) as A. rewrite forallb_forall in A. specialize (A (snd q) ltac:(destruct (snd q); cbn; auto)). rewrite NW in A.
        destruct (head_of B (nth i B 0) (seen j r (snd q))) as [[v|]| |]; try discriminate; [|now left]. apply Z.eqb_eq in A. right. cbn. now rewrite A. }
      split.
      - rewrite (heads_same _ _ (g (nth i (skipn 4 W) 0))); [|intros f I'; apply in_map_iff in I'; destruct I' as (q & <- & I'); auto].
        assert (EX : existsb (fun f => match head_of (map g B) (g (nth i B 0)) f with Ok (Some _) => true | _ => false end) (map fst L) = true); [|now rewrite EX].
        apply existsb_exists. destruct (OWN' jk JK) as (q & r & Q & R & X). exists (fst q). split; [now apply in_map|]. assert (J6 : (jk < 6)%nat) by (unfold others in JK; apply filter_In in JK; destruct JK as [J _]; apply in_seq in J; lia).
        rewrite X, head_of_map; [|auto..|apply (seen_lab jk r (snd q) J6)]. pose proof (forallb_seq _ _ CK r R) as A. rewrite forallb_forall in A. specialize (A (snd q) ltac:(destruct (snd q); cbn; auto)). 
        destruct (head_of B (nth i B 0) (seen jk r (snd q))) as [[v|]| |]; try discriminate. reflexivity.
      - apply POS. rewrite HL. apply in_map. apply WL. exact IW. }
    assert (G : forall s, (forall i, In i s -> (i < 4)%nat) -> Forall2 (fun foot v => heads (map g B) foot (-1) (map fst L) = Ok v /\ 0 <= v) (map (fun x => g (nth x B 0)) s) (map (fun x => g (nth x (skipn 4 W) 0)) s)).
    { induction s as [|x s IH]; intro S; cbn [map]; constructor; [apply EACH, S; now left|apply IH; intros; apply S; now right]. }
    pose proof (G (seq 0 4) ltac:(intros i I; apply in_seq in I; lia)) as K. rewrite <- (map_map (fun x => nth x B 0) g), <- (map_map (fun x => nth x (skipn 4 W) 0) g), <- (labels Z 0 B 4 BN), <- (labels Z 0 (skipn 4 W) 4 L4) in K. exact K.
  - assert (NDL : NoDup lab) by (apply BisectProofs.nodupb_ok || (repeat constructor; cbn; lia)).
    assert (NW : NoDup W) by (eapply Permutation_NoDup; [symmetry; exact WP|exact NDL]). clear - NW WL INJ. induction NW as [|x l X N IH]; cbn; constructor.
    + intro I. apply in_map_iff in I. destruct I as (y & Y & I). apply X. assert (y = x) by (apply INJ; auto; apply WL; [now right|now left]). now subst.
    + apply IH. intros z Z. apply WL. now right.
  - split; [now rewrite map_length|]. rewrite hex_faces_map by exact C1.
    destruct (list_eq_dec Nat.eq_dec (map Z.to_nat (zsort (map Z.of_nat T))) (seq 0 6)) as [TP|]; [|discriminate]. pose proof (zsort_nat_perm T) as TQ. rewrite TP in TQ.
    exists (map (fun k => nth k p []) T). split.
    + rewrite perm_nth by (rewrite LP; symmetry; exact TQ). rewrite E. now apply Permutation_cons_app.
    + rewrite (labels nat 0%nat T 6 LT), (labels (list Z) [] (hex_faces W) 6 (hex_faces_len _ C1)), !map_map.
      assert (G : forall s, (forall i, In i s -> (i < 6)%nat) -> Forall2 turned (map (fun x => nth (nth x T 0%nat) p []) s) (map (fun x => map g (nth x (hex_faces W) [])) s)).
      { induction s as [|x s IH]; intro S; cbn [map]; constructor; [|apply IH; intros; apply S; now right].
        assert (X : (x < 6)%nat) by (apply S; now left). assert (TX : (nth x T 0%nat < 6)%nat). { assert (In (nth x T 0%nat) (seq 0 6)) by (eapply Permutation_in; [symmetry; exact TQ|apply nth_In; lia]). apply in_seq in H. lia. }
        pose proof (Forall2_nth_r _ _ _ _ _ [] [] F (nth x T 0%nat) TX) as TT. rewrite (map_nth (map g) (hex_faces lab) [] (nth x T 0%nat) : nth _ (map (map g) (hex_faces lab)) [] = _) in TT.
        eapply turned_trans; [exact TT|]. apply turned_map. apply turn_b_ok; [exact (forallb_seq _ _ C5 x X)|apply lab_hf; auto]. }
      apply G. intros i I. apply in_seq in I. lia.
  - rewrite WP, <- HL. reflexivity.
Qed.
