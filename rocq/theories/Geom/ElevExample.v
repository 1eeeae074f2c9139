(** Meshes that can be elevated, and two that cannot. *)
From Coq Require Import Reals List ZArith Bool Permutation Lia Lra Arith.
From Verif Require Import Base.Prelude Base.PreludeFacts Geom.ElemModel Geom.ElemSpec Geom.ElemProofs Geom.PeriodicModel Geom.PeriodicSpec Geom.PeriodicProofs
  Geom.ElevModel Geom.ElevSpec Geom.ElevProofs Geom.ElevNumber Geom.ElevShare Geom.ElevMore Geom.ElevDone Geom.ElevTotal.
Import ListNotations.
Local Open Scope Z_scope.

(** points with halves as coordinates *)
Definition half (p : Z * Z) : vec := fun i => match i with 0%nat => (IZR (fst p) / 2)%R | 1%nat => (IZR (snd p) / 2)%R | _ => 0%R end.
Definition quad (l b nb : list Z) : cell := {| c_type := Quad4; c_nodes := l; c_bits := b; c_nb := nb |}.
Definition line (l : list Z) (c : Z) : bnd := {| b_type := Line2; b_nodes := l; b_cell := c |}.
(** a period of [t] halves along the first axis *)
Definition ident : mat := fun i j => if Nat.eqb i j then 1%R else 0%R.
Definition shift (t : Z) : Periodicity :=
  {| rotation := [ident; ident; ident; ident]; rotationCenter := [half (0, 0); half (0, 0); half (0, 0); half (0, 0)];
     translation := [half (t, 0); half (t, 0); half (0, 0); half (0, 0)] |}.

(** two cells on two ranks *)
Definition two : mesh := {| periodic := false; info := shift 0; parts :=
  [{| p_coords := [half (0, 0); half (2, 0); half (0, 2); half (2, 2)]; p_cells := [quad [0; 1; 3; 2] [] [1]]; p_bnds := [line [1; 0] 0; line [2; 0] 0] |};
   {| p_coords := [half (4, 0); half (4, 2)]; p_cells := [quad [1; 4; 5; 3] [] [0]]; p_bnds := [line [4; 5] 1] |}] |}.
(** a ring of three cells *)
Definition ring3 : mesh := {| periodic := true; info := shift 6; parts :=
  [{| p_coords := [half (0, 0); half (2, 0); half (4, 0)]; p_cells := [quad [0; 1; 4; 3] [0; 0; 0; 0] [1; 2]]; p_bnds := [line [1; 0] 0] |};
   {| p_coords := [half (0, 2); half (2, 2); half (4, 2)]; p_cells := [quad [1; 2; 5; 4] [0; 0; 0; 0] [0; 2]; quad [2; 0; 3; 5] [0; 1; 1; 0] [0; 1]]; p_bnds := [line [2; 0] 2] |}] |}.
(** a ring of two *)
Definition ring2 : mesh := {| periodic := true; info := shift 4; parts :=
  [{| p_coords := [half (0, 0); half (2, 0); half (0, 2); half (2, 2)];
      p_cells := [quad [0; 1; 3; 2] [0; 0; 0; 0] [1]; quad [1; 0; 2; 3] [0; 1; 1; 0] [0]]; p_bnds := [] |}] |}.

Lemma shift_wf t : well_formed 3 (shift t).
Proof.
  repeat split; try reflexivity. all: (destruct i as [|[|[|[|i]]]]; cbn in H0; try (exfalso; lia); try discriminate; injection H0 as <-;
    destruct i0 as [|[|[|]]]; try (exfalso; lia); destruct j as [|[|[|]]]; try (exfalso; lia); unfold ident, kron; cbn; ring).
Qed.

(** decisions *)
Definition cells_b (m : mesh) (P : nat -> cell -> bool) : bool := forallb (fun q => P (fst q) (snd q)) (combine (seq 0 (length (all_cells m))) (all_cells m)).
Lemma cells_b_ok m P : cells_b m P = true -> forall i c, is_cell m i c -> P i c = true.
Proof.
  unfold cells_b. rewrite forallb_forall. intros H i c C. apply (H (i, c)). apply in_indexed. rewrite Nat.sub_0_r. split; [lia|exact C].
Qed.
Definition inb (x : Z) (l : list Z) : bool := existsb (Z.eqb x) l.
Lemma inb_ok x l : inb x l = true <-> In x l.
Proof.
  unfold inb. rewrite existsb_exists. split.
  - intros (y & I & E). apply Z.eqb_eq in E. now subst.
  - intro I. exists x. split; auto. apply Z.eqb_refl.
Qed.
Fixpoint nodup_z (l : list Z) : bool := match l with [] => true | x :: l => negb (inb x l) && nodup_z l end.
Lemma nodup_z_ok l : nodup_z l = true -> NoDup l.
Proof.
  induction l as [|x l IH]; cbn; intro H; constructor.
  - apply andb_true_iff in H. destruct H as [H _]. intro I. apply inb_ok in I. rewrite I in H. discriminate.
  - apply andb_true_iff in H. apply IH, H.
Qed.
Definition sound_b (m : mesh) : bool := cells_b m (fun _ c => Nat.eqb (length (c_nodes c)) (GetNumNodes (c_type c)) && nodup_z (c_nodes c)).
Lemma sound_b_ok m : sound_b m = true -> sound_cells m.
Proof. intros H i c C. pose proof (cells_b_ok _ _ H i c C) as K. cbv beta in K. apply andb_true_iff in K. destruct K as [A B]. split; [now apply Nat.eqb_eq|now apply nodup_z_ok]. Qed.
Definition point_b (m : mesh) : bool :=
  cells_b m (fun i a => cells_b m (fun j b => Nat.eqb i j || negb (existsb (fun n => inb n (c_nodes b)) (c_nodes a)) || inb (Z.of_nat j) (c_nb a))).
Lemma point_b_ok m : point_b m = true -> point_neighbours m.
Proof.
  intros H i j a b n Ca Cb N I J. pose proof (cells_b_ok _ _ (cells_b_ok _ _ H i a Ca) j b Cb) as K. cbv beta in K. rewrite !orb_true_iff in K. destruct K as [[K|K]|K].
  - apply Nat.eqb_eq in K. congruence.
  - exfalso. apply negb_true_iff, not_true_iff_false in K. apply K. apply existsb_exists. exists n. split; auto. now apply inb_ok.
  - now apply inb_ok.
Qed.
Definition zlist_eqb (a b : list Z) : bool := if list_eq_dec Z.eq_dec a b then true else false.
Definition perm_b (a b : list Z) : bool := zlist_eqb (zsort a) (zsort b).
Lemma perm_b_ok a b : perm_b a b = true <-> Permutation a b.
Proof.
  unfold perm_b, zlist_eqb. destruct (list_eq_dec Z.eq_dec (zsort a) (zsort b)) as [E|E]; split; intro H; try discriminate; auto.
  - rewrite (zsort_perm a), E. symmetry. apply zsort_perm.
  - exfalso. apply E. now apply zsort_perm_eq.
Qed.
Definition conf_b (m : mesh) : bool :=
  cells_b m (fun _ a => cells_b m (fun _ b => forallb (fun k =>
    match ExtractElevNodeSpanNodes (c_type a) k (c_nodes a) with
    | Ok s => negb (forallb (fun x => inb x (c_nodes b)) s) ||
        existsb (fun l => match ExtractElevNodeSpanNodes (c_type b) l (c_nodes b) with Ok s' => perm_b s s' | _ => false end) (seq 0 19)
    | _ => true end) (seq 0 19))).
Lemma num_le t n : GetElemElevation_O1O2_NumNode t = Some n -> (n <= 19)%nat.
Proof. destruct t; cbn; intro H; try discriminate; injection H as <-; lia. Qed.
Lemma conf_b_ok m : conf_b m = true -> conforming m.
Proof.
  intros H i j a b k s Ca Cb S I. pose proof (cells_b_ok _ _ (cells_b_ok _ _ H i a Ca) j b Cb) as K. cbv beta in K. destruct (span_lt _ _ _ _ _ S) as (n & N & L). apply num_le in N.
  pose proof (forallb_seq _ _ K k ltac:(lia)) as Q. cbv beta in Q. unfold is_span in S. rewrite S in Q. apply orb_true_iff in Q. destruct Q as [Q|Q].
  - exfalso. apply negb_true_iff, not_true_iff_false in Q. apply Q. apply forallb_forall. intros x X. apply inb_ok. auto.
  - apply existsb_exists in Q. destruct Q as (l & _ & Q). destruct (ExtractElevNodeSpanNodes (c_type b) l (c_nodes b)) as [s'| |] eqn:E; try discriminate. exists l, s'. split; auto. now apply perm_b_ok.
Qed.
(** a table of the places *)
Definition tab_ok (m : mesh) (tab : list (list (Z * Z))) : Prop :=
  forall i c k x, is_cell m i c -> place m c k = Ok x -> exists r p, nth_error tab i = Some r /\ nth_error r k = Some p /\ same_vec 3 (fst x) (half p).
Definition apart_b (tab : list (list (Z * Z))) : bool :=
  forallb (fun r => forallb (fun k => forallb (fun l => match nth_error r k, nth_error r l with
     | Some p, Some q => Nat.eqb k l || negb (fst p =? fst q) || negb (snd p =? snd q) | _, _ => true end) (seq 0 (length r))) (seq 0 (length r))) tab.
Lemma tiny : (/ 10 ^ 20 <= / 4)%R.
Proof. apply Rinv_le_contravar; [lra|]. replace 4%R with (4 * 1)%R by ring. assert (1 <= 10 ^ 19)%R by (apply pow_R1_Rle; lra). replace (10 ^ 20)%R with (10 * 10 ^ 19)%R by ring. lra. Qed.
Lemma sq_apart a b : a <> b -> (1 <= (IZR a - IZR b) * (IZR a - IZR b))%R.
Proof. intro N. rewrite <- minus_IZR, <- mult_IZR. apply IZR_le. nia. Qed.
Lemma half_apart p q : (fst p =? fst q) = false \/ (snd p =? snd q) = false -> (/ 4 <= dist2 (half p) (half q))%R.
Proof.
  intro H. unfold dist2, half. cbn. set (a := IZR (fst p)). set (b := IZR (fst q)). set (c := IZR (snd p)). set (d := IZR (snd q)).
  destruct H as [H|H]; apply Z.eqb_neq, sq_apart in H; fold a b c d in H; [pose proof (Rle_0_sqr (c - d))|pose proof (Rle_0_sqr (a - b))]; unfold Rsqr in *; lra.
Qed.
Lemma dist2_same u v u' v' : same_vec 3 u u' -> same_vec 3 v v' -> dist2 u v = dist2 u' v'.
Proof. intros A B. unfold dist2. cbn. now rewrite !A, !B by lia. Qed.
Lemma apart_b_ok m tab : tab_ok m tab -> apart_b tab = true -> apart m.
Proof.
  intros T H i c k l x y C Px Py N. destruct (T _ _ _ _ C Px) as (r & p & R & P & E). destruct (T _ _ _ _ C Py) as (r' & q & R' & Q & E'). assert (r' = r) by congruence. subst r'.
  unfold apart_b in H. rewrite forallb_forall in H. specialize (H r (nth_error_In _ _ R)). pose proof (forallb_seq _ _ H k (proj1 (nth_error_Some r k) ltac:(congruence))) as K. cbv beta in K.
  pose proof (forallb_seq _ _ K l (proj1 (nth_error_Some r l) ltac:(congruence))) as Z. cbv beta in Z. rewrite P, Q, !orb_true_iff, !negb_true_iff in Z.
  rewrite (dist2_same _ _ _ _ E E'). apply Rle_trans with (/ 4)%R; [apply tiny|]. apply half_apart. destruct Z as [[Z|Z]|Z]; auto. apply Nat.eqb_eq in Z. congruence.
Qed.
Definition same_b (m : mesh) (tab : list (list (Z * Z))) : bool :=
  cells_b m (fun i a => cells_b m (fun j b => forallb (fun k => forallb (fun l =>
    match ExtractElevNodeSpanNodes (c_type a) k (c_nodes a), ExtractElevNodeSpanNodes (c_type b) l (c_nodes b), nth_error tab i, nth_error tab j with
    | Ok s, Ok s', Some r, Some r' => negb (perm_b s s') ||
        match nth_error r k, nth_error r' l with Some p, Some q => (fst p =? fst q) && (snd p =? snd q) | _, _ => true end
    | _, _, _, _ => true end) (seq 0 19)) (seq 0 19))).
Lemma same_b_ok m tab : tab_ok m tab -> same_b m tab = true -> same_places m.
Proof.
  intros T H i j a b k l s s' x y Ca Cb Sa Sb P Px Py. destruct (T _ _ _ _ Ca Px) as (r & p & R & Pp & E). destruct (T _ _ _ _ Cb Py) as (r' & q & R' & Q & E').
  destruct (span_lt _ _ _ _ _ Sa) as (n & N & L). apply num_le in N. destruct (span_lt _ _ _ _ _ Sb) as (n' & N' & L'). apply num_le in N'.
  pose proof (cells_b_ok _ _ (cells_b_ok _ _ H i a Ca) j b Cb) as K. cbv beta in K. pose proof (forallb_seq _ _ K k ltac:(lia)) as K1. cbv beta in K1. pose proof (forallb_seq _ _ K1 l ltac:(lia)) as K2. cbv beta in K2.
  unfold is_span in *. rewrite Sa, Sb, R, R', Pp, Q in K2. apply perm_b_ok in P. rewrite P in K2. cbn in K2. apply andb_true_iff in K2. destruct K2 as [A B]. apply Z.eqb_eq in A. apply Z.eqb_eq in B.
  assert (p = q) by (destruct p, q; cbn in *; congruence). subst q. intros z Z1. rewrite E, E' by auto. reflexivity.
Qed.
Definition complete_b (m : mesh) : bool := cells_b m (fun _ c =>
  match GetElemElevation_O1O2_NumNode (c_type c) with Some _ => true | None => false end &&
  forallb (fun g => (0 <=? g) && (g <? zlen (all_coords m))) (c_nodes c) && forallb (fun j => (0 <=? j) && (j <? zlen (all_cells m))) (c_nb c) &&
  (negb (periodic m) || Nat.eqb (length (c_bits c)) (length (c_nodes c)))).
Lemma complete_b_ok m : well_formed 3 (info m) -> complete_b m = true -> complete m.
Proof.
  intros W H i c C. pose proof (cells_b_ok _ _ H i c C) as K. cbv beta in K. rewrite !andb_true_iff in K. destruct K as (((A & B) & D) & E). rewrite forallb_forall in B, D.
  split; [destruct (GetElemElevation_O1O2_NumNode (c_type c)); [eauto|discriminate]|]. split; [intros g G; apply B in G; lia|]. split; [intros g G; apply D in G; lia|].
  intro P. rewrite P in E. split; auto. now apply Nat.eqb_eq.
Qed.
Definition bnds_b (m : mesh) : bool :=
  forallb (fun q => let lo := zlen (concat (map p_cells (firstn (fst q) (parts m)))) in
    forallb (fun b => (lo <=? b_cell b) && (b_cell b <? lo + zlen (p_cells (snd q))) &&
      match nth_error (all_cells m) (Z.to_nat (b_cell b)) with
      | Some c => existsb (fun f => match ExtractFaceNodes (c_type c) f (c_nodes c) with Ok fn => perm_b (b_nodes b) fn | _ => false end) (seq 0 6)
      | None => false end) (p_bnds (snd q))) (combine (seq 0 (length (parts m))) (parts m)).
Lemma bnds_b_ok m : bnds_b m = true -> bnds_are_faces m.
Proof.
  intros H lo hi b (l & p & r & E & -> & -> & I). unfold bnds_b in H. rewrite forallb_forall in H. specialize (H (length l, p)). cbn [fst snd] in H.
  assert (F : firstn (length l) (parts m) = l) by (rewrite E, firstn_app, firstn_all, Nat.sub_diag, app_nil_r; reflexivity). rewrite F in H.
  assert (J : In (length l, p) (combine (seq 0 (length (parts m))) (parts m))). { apply in_indexed. rewrite Nat.sub_0_r. split; [lia|]. rewrite E, nth_error_app2, Nat.sub_diag by lia. reflexivity. }
  specialize (H J). rewrite forallb_forall in H. specialize (H b I). rewrite !andb_true_iff in H. destruct H as ((A & B) & D). split; [lia|].
  destruct (nth_error (all_cells m) (Z.to_nat (b_cell b))) as [c|] eqn:C; [|discriminate]. apply existsb_exists in D. destruct D as (f & _ & D).
  destruct (ExtractFaceNodes (c_type c) f (c_nodes c)) as [fn| |] eqn:FN; try discriminate. exists c, f, fn. split; auto. split; auto. now apply perm_b_ok.
Qed.

(** the tables *)
Definition tab2 : list (list (Z * Z)) := [[(1, 0); (2, 1); (1, 2); (0, 1); (1, 1)]; [(3, 0); (4, 1); (3, 2); (2, 1); (3, 1)]].
Definition tab3 : list (list (Z * Z)) := [[(1, 0); (2, 1); (1, 2); (0, 1); (1, 1)]; [(3, 0); (4, 1); (3, 2); (2, 1); (3, 1)]; [(5, 0); (0, 1); (5, 2); (4, 1); (5, 1)]].
Ltac tab_case Px :=
  cbn in Px; injection Px as <-; do 2 eexists; split; [reflexivity|]; split; [reflexivity|];
  let q := fresh "q" in let Q := fresh "Q" in intros q Q; unfold mean, half; destruct q as [|[|[|q]]]; try (exfalso; lia); cbn; unfold ident, tr, vadd, vsub, mvec; cbn; lra.
Ltac tab_cell Px k := destruct k as [|[|[|[|[|k]]]]]; [tab_case Px | tab_case Px | tab_case Px | tab_case Px | tab_case Px | exfalso; cbn in Px; discriminate].
Lemma two_tab : tab_ok two tab2.
Proof.
  intros [|[|i]] c k x C P; cbn in C; try (injection C as <-; tab_cell P k). destruct i; discriminate.
Qed.
Definition tabr : list (list (Z * Z)) := [[(1, 0); (2, 1); (1, 2); (0, 1); (1, 1)]; [(3, 0); (0, 1); (3, 2); (2, 1); (3, 1)]].
Lemma ring2_tab : tab_ok ring2 tabr.
Proof. intros [|[|i]] c k x C P; cbn in C; try (injection C as <-; tab_cell P k). destruct i; discriminate. Qed.
Lemma ring3_tab : tab_ok ring3 tab3.
Proof. intros [|[|[|i]]] c k x C P; cbn in C; try (injection C as <-; tab_cell P k). destruct i; discriminate. Qed.

Lemma two_good : complete two /\ sound_cells two /\ point_neighbours two /\ same_places two /\ conforming two /\ apart two /\ bnds_are_faces two.
Proof.
  split; [apply complete_b_ok; [apply shift_wf|reflexivity]|]. split; [now apply sound_b_ok|]. split; [now apply point_b_ok|]. split; [now apply (same_b_ok _ tab2 two_tab)|].
  split; [now apply conf_b_ok|]. split; [now apply (apart_b_ok _ tab2 two_tab)|]. now apply bnds_b_ok.
Qed.
Lemma ring3_good : complete ring3 /\ sound_cells ring3 /\ point_neighbours ring3 /\ same_places ring3 /\ conforming ring3 /\ apart ring3 /\ bnds_are_faces ring3.
Proof.
  split; [apply complete_b_ok; [apply shift_wf|reflexivity]|]. split; [now apply sound_b_ok|]. split; [now apply point_b_ok|]. split; [now apply (same_b_ok _ tab3 ring3_tab)|].
  split; [now apply conf_b_ok|]. split; [now apply (apart_b_ok _ tab3 ring3_tab)|]. now apply bnds_b_ok.
Qed.
Lemma ring2_good : complete ring2 /\ sound_cells ring2 /\ point_neighbours ring2 /\ conforming ring2 /\ apart ring2 /\ bnds_are_faces ring2.
Proof.
  split; [apply complete_b_ok; [apply shift_wf|reflexivity]|]. split; [now apply sound_b_ok|]. split; [now apply point_b_ok|].
  split; [now apply conf_b_ok|]. split; [now apply (apart_b_ok _ tabr ring2_tab)|]. now apply bnds_b_ok.
Qed.
Lemma two_elevates : exists o, elevate two = Ok o.
Proof. destruct two_good as (A & B & C & D & E & F & G). now apply success. Qed.
Lemma ring3_elevates : exists o, elevate ring3 = Ok o.
Proof. destruct ring3_good as (A & B & C & D & E & F & G). now apply success. Qed.
(** in the ring of two, the first edge of the second cell is looked for among the nodes of the first *)
Lemma ring2_stops o : elevate ring2 <> Ok o.
Proof.
  intro EL. destruct ring2_good as (_ & SC & PN & _). destruct (elevate_facts _ _ EL) as (infos & F).
  assert (C1 : is_cell ring2 1 (quad [1; 0; 2; 3] [0; 1; 1; 0] [0])) by reflexivity.
  assert (C0 : is_cell ring2 0 (quad [0; 1; 3; 2] [0; 0; 0; 0] [1])) by reflexivity.
  destruct (cell_shape _ _ _ _ _ F SC C1) as (n & c2 & old & new & N & C2 & T & ND & LO & LN & _). cbn in N. injection N as <-. cbn in LO.
  destruct (nth_error new 0) as [g|] eqn:G; [|apply nth_error_None in G; lia].
  assert (NN : new_node ring2 o 1 0 g). { eexists _, c2. split; [exact C1|]. split; [exact C2|]. rewrite ND, nth_error_app2 by (cbn; lia). rewrite LO. exact G. }
  destruct (new_node_fact _ _ _ _ _ _ F SC NN) as (c & s & x & ow & e & b & C & S & P & OW & _). assert (c = quad [1; 0; 2; 3] [0; 1; 1; 0] [0]) by (unfold is_cell in *; congruence). subst c. clear C. cbn in S. injection S as <-.
  destruct (resolved _ _ _ _ _ _ _ _ _ _ F SC PN NN C1 eq_refl P) as (h & er & (Hh & Mh) & ER & R).
  assert (h = 0%nat). { assert (holds (all_cells ring2) [1; 0] 0). { exists (quad [0; 1; 3; 2] [0; 0; 0; 0] [1]). split; reflexivity. } apply Mh in H. lia. } subst h.
  destruct R as [(Q & _)|(_ & NR)]; [discriminate|]. assert (I : In g (near_nodes (concat (o_coords o)) er x)) by (rewrite NR; now left).
  apply near_nodes_in in I. destruct I as (I & y & Y & NY). apply In_nth_error in I. destruct I as (q & Q). destruct (row_fact _ _ _ _ _ F C0) as (n' & er' & N' & ER' & L & RF). assert (er' = er) by congruence. subst er'.
  destruct (RF _ _ Q) as (s' & [z bz] & ow' & S' & PZ & _ & V). apply vget_val in V. cbn [fst] in V. assert (z = y) by congruence. subst z.
  destruct (ring2_tab _ _ _ _ C1 P) as (r1 & p1 & T1 & T2 & SV). destruct (ring2_tab _ _ _ _ C0 PZ) as (r0 & p0 & T3 & T4 & SV'). cbn [fst] in SV, SV'. cbn in T1, T3. injection T1 as <-. injection T3 as <-.
  cbn in T2. injection T2 as <-. apply near_iff in NY. rewrite (dist2_same _ _ _ _ SV' SV) in NY. pose proof tiny as TY.
  assert (FAR : (fst p0 =? fst (3, 0)) = false). { destruct q as [|[|[|[|[|q]]]]]; cbn in T4; try (injection T4 as <-; reflexivity). destruct q; discriminate. }
  pose proof (half_apart p0 (3, 0) (or_introl FAR)). lra.
Qed.
(** with one cell around, the two sides get different nodes *)
Definition ring1 : mesh := {| periodic := true; info := shift 2; parts :=
  [{| p_coords := [half (0, 0); half (0, 2)]; p_cells := [quad [0; 0; 1; 1] [0; 1; 1; 0] []]; p_bnds := [] |}] |}.
Lemma ring1_twice : exists o x y, elevate ring1 = Ok o /\ new_node ring1 o 0 1 3 /\ new_node ring1 o 0 3 5 /\ coord2 o 3 x /\ coord2 o 5 y /\ same_vec 3 x y.
Proof.
  do 3 eexists. split; [reflexivity|]. split; [eexists _, _; split; [reflexivity|]; split; reflexivity|]. split; [eexists _, _; split; [reflexivity|]; split; reflexivity|].
  split; [split; [lia|reflexivity]|]. split; [split; [lia|reflexivity]|].
  intros q Q; unfold mean, half; destruct q as [|[|[|q]]]; try (exfalso; lia); cbn; unfold ident, tr, vadd, vsub, mvec; cbn; lra.
Qed.
