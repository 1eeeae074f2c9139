(** Meshes on which the theorems about the export are shown. *)
From Coq Require Import List ZArith Bool Arith Permutation Lia.
From Verif Require Import Base.Prelude Base.PreludeFacts Geom.ElemModel Geom.AdjModel Geom.VtkModel Geom.VtkSpec Geom.VtkFlags Geom.VtkGrid Geom.VtkProofs.
Import ListNotations.
Local Open Scope Z_scope.

(** Two squares in a row on two ranks, the right side of the second being the left of the first. *)
Definition ex_turn (x : Z * Z) (b : Z) : res (Z * Z) :=
  Ok (fst x + (if Z.testbit b 0 then 2 else 0), snd x + (if Z.testbit b 1 then 5 else 0)).
Definition quad (ns bs : list Z) : cell := {| c_type := Quad4; c_nodes := ns; c_bits := bs |}.
Definition ex_mesh : list (part (Z * Z)) :=
  [ Build_part [(0, 0); (0, 1)] [2; 3] [quad [0; 2; 3; 1] [0; 0; 0; 0]];
    Build_part [(1, 0); (1, 1)] [0; 1] [quad [0; 2; 3; 1] [0; 1; 1; 0]] ].
Definition ex_file : grid (Z * Z) :=
  {| f_ncells := 2; f_npoints := 6; f_nconn := 8;
     f_points := map Some [(0, 0); (0, 1); (2, 0); (2, 1); (1, 0); (1, 1)];
     f_offsets := map Some [0; 4; 8]; f_types := map Some [9; 9];
     f_conn := map Some [0; 4; 5; 1; 4; 2; 3; 5] |}.

(** A square of second order. *)
Definition mid_mesh : list (part (Z * Z)) :=
  [ Build_part [(0, 0); (2, 0); (2, 2); (0, 2); (1, 0); (2, 1); (1, 2); (0, 1); (1, 1)] []
      [{| c_type := Quad9; c_nodes := [0; 1; 2; 3; 4; 5; 6; 7; 8]; c_bits := [0; 0; 0; 0; 0; 0; 0; 0; 0] |}] ].

(** A ring of one cell: its last side is its first, a quarter turn around the origin away. *)
Definition quarter (x : Z * Z) (b : Z) : res (Z * Z) :=
  Ok (if Z.testbit b 0 then (- snd x, fst x) else x).
Definition ring_mesh : list (part (Z * Z)) := [ Build_part [(1, 0); (2, 0)] [] [quad [0; 1; 1; 0] [0; 0; 1; 1]] ].

Ltac dist_tac := split;
  [ discriminate
  | intros r p g Hp Hg; destruct r as [|[|r]]; cbn in Hp; try (destruct r; discriminate); try discriminate; injection Hp as <-; cbn in Hg; decompose [or] Hg; subst; try contradiction; cbn; unfold nodes_before, all_nodes, nOwn, zlen; cbn; lia
  | intros r j c p (q & Hq & Hc) Hp; destruct r as [|[|r]]; cbn in Hp, Hq; try (destruct r; discriminate); try discriminate; injection Hp as <-; injection Hq as <-;
    destruct j as [|j]; cbn in Hc; try (destruct j; discriminate); try discriminate; injection Hc as <-; cbn; repeat split; auto; try discriminate; repeat constructor; cbn; unfold nOwn, zlen; cbn; lia ].
Lemma ex_dist : distributed ex_mesh. Proof. dist_tac. Qed.
Lemma mid_dist : distributed mid_mesh. Proof. dist_tac. Qed.
Lemma ring_dist : distributed ring_mesh. Proof. dist_tac. Qed.
Lemma ex_can_turn : can_turn ex_turn. Proof. intros x b _. eexists. reflexivity. Qed.
Lemma quarter_can_turn : can_turn quarter. Proof. intros x b _. eexists. reflexivity. Qed.

(** ** What does not hold *)

(** a field of vectors that turns with the mesh: where the nodes are, seen from the centre *)
Lemma vectors_not_turned : exists f vals id y w, distributed ring_mesh /\ can_turn quarter /\
  export_grid quarter true ring_mesh [0%nat] [0%nat] [0%nat] [0%nat] = Ok f /\
  export_points quarter true ring_mesh (fun _ i => (1 + i, 0)) [0%nat] = Ok vals /\
  (forall r p i x, nth_error ring_mesh r = Some p -> nth_error (p_nodes p) i = Some x -> (1 + Z.of_nat i, 0) = x) /\
  point_at f id y /\ nth_error vals (Z.to_nat id) = Some (Some w) /\ w <> y.
Proof.
  eexists. eexists. exists 2, (0, 1), (1, 0). split; [exact ring_dist|]. split; [exact quarter_can_turn|].
  split; [vm_compute; reflexivity|]. split; [vm_compute; reflexivity|]. split.
  - intros r p i x H1 H2. destruct r as [|r]; [|destruct r; discriminate]. injection H1 as <-. destruct i as [|[|i]]; cbn in H2; [| |destruct i; discriminate].
    + injection H2 as <-. reflexivity.
    + injection H2 as <-. reflexivity.
  - split; [split; [lia|reflexivity]|]. split; [reflexivity|discriminate].
Qed.

Definition rebuilt (m : list (part (Z * Z))) (s1 s2 s3 s4 : list nat) : res (grid (Z * Z)) :=
  do q <- prepare ex_turn true m; do vs <- build m (fst q) (map v_conn (snd q)); print_grid m (fst q) vs s1 s2 s3 s4.
Lemma rebuilt_differs : exists f f', rebuilt ex_mesh [0; 1]%nat [0; 1]%nat [0; 1]%nat [0; 1]%nat = Ok f /\
  rebuilt ex_mesh [0; 1]%nat [0; 1]%nat [0; 1]%nat [1; 0]%nat = Ok f' /\
  file_cell f 1 9 [4; 2; 3; 5] /\ file_cell f' 1 9 [0; 4; 5; 1] /\ In None (f_conn f).
Proof.
  eexists. eexists. split; [vm_compute; reflexivity|]. split; [vm_compute; reflexivity|]. repeat split.
  - exists 4, 8. cbn. repeat split; lia.
  - exists 4, 8. cbn. repeat split; lia.
  - cbn. tauto.
Qed.

Lemma middle_not_drawn : exists f, export_grid quarter false mid_mesh [0%nat] [0%nat] [0%nat] [0%nat] = Ok f /\ distributed mid_mesh /\
  (exists c, cell_of mid_mesh 0 0 c /\ has_corner mid_mesh false 0 c 8 8 0) /\ ~ In (Some 8) (f_conn f).
Proof.
  eexists. split; [vm_compute; reflexivity|]. split; [exact mid_dist|]. split.
  - eexists. split; [eexists; split; reflexivity|]. exists 8. split; [reflexivity|]. split; [|reflexivity].
    eexists. split; [reflexivity|]. left. unfold nOwn, zlen, nodes_before. cbn. lia.
  - cbn. intros H. decompose [or] H; try discriminate; auto.
Qed.

Lemma vectors_refuted : ~ (forall m data f vals s1 s2 s3 s4 s5, distributed m ->
  any_order m s1 -> any_order m s2 -> any_order m s3 -> any_order m s4 -> any_order m s5 ->
  (forall r p i x, nth_error m r = Some p -> nth_error (p_nodes p) i = Some x -> data r (Z.of_nat i) = x) ->
  export_grid quarter true m s1 s2 s3 s4 = Ok f -> export_points quarter true m data s5 = Ok vals ->
  forall id y w, point_at f id y -> nth_error vals (Z.to_nat id) = Some (Some w) -> w = y).
Proof.
  intros H. destruct vectors_not_turned as (f & vals & id & y & w & D & _ & E1 & E2 & N & Y & W & Q).
  apply Q. apply (H ring_mesh (fun _ i => (1 + i, 0)) f vals [0%nat] [0%nat] [0%nat] [0%nat] [0%nat]) with (id := id); auto; apply Permutation_refl.
Qed.
Lemma rebuild_refuted : ~ (forall m f s1 s2 s3 s4 s4', distributed m ->
  any_order m s1 -> any_order m s2 -> any_order m s3 -> any_order m s4 -> any_order m s4' ->
  rebuilt m s1 s2 s3 s4 = Ok f -> rebuilt m s1 s2 s3 s4' = Ok f).
Proof.
  intros H. destruct rebuilt_differs as (f & f' & E1 & E2 & A1 & A2 & _).
  assert (S : rebuilt ex_mesh [0; 1]%nat [0; 1]%nat [0; 1]%nat [1; 0]%nat = Ok f).
  { apply (H ex_mesh f _ _ _ [0; 1]%nat); auto using ex_dist; try apply Permutation_refl. apply perm_swap. }
  assert (f' = f) by congruence. subst f'. destruct A1 as [_ (a & b & A1 & A3 & _ & A4 & _)], A2 as [_ (a' & b' & B1 & B3 & _ & B4 & _)].
  assert (a' = a) by congruence. assert (b' = b) by congruence. subst. rewrite A4 in B4. clear - B4. cbn [map] in B4. inversion B4.
Qed.
Lemma middle_refuted : ~ (forall m (turn : Z * Z -> Z -> res (Z * Z)) f s1 s2 s3 s4, distributed m ->
  any_order m s1 -> any_order m s2 -> any_order m s3 -> any_order m s4 ->
  export_grid turn false m s1 s2 s3 s4 = Ok f ->
  forall r j c n g, cell_of m r j c -> has_corner m false r c n g 0 -> In (Some g) (f_conn f)).
Proof.
  intros H. destruct middle_not_drawn as (f & E & D & (c & C1 & C2) & N). apply N.
  eapply (H mid_mesh quarter f [0%nat] [0%nat] [0%nat] [0%nat]); eauto; apply Permutation_refl.
Qed.
Lemma ex_written s1 s2 s3 s4 : any_order ex_mesh s1 -> any_order ex_mesh s2 -> any_order ex_mesh s3 -> any_order ex_mesh s4 ->
  export_grid ex_turn true ex_mesh s1 s2 s3 s4 = Ok ex_file.
Proof.
  destruct (export_ok _ ex_turn ex_mesh true ex_dist (fun _ => ex_can_turn)) as (keys & f & F & _).
  assert (E : export_grid ex_turn true ex_mesh [0; 1]%nat [0; 1]%nat [0; 1]%nat [0; 1]%nat = Ok f) by (apply F; apply Permutation_refl).
  intros. rewrite F by auto. rewrite <- E. vm_compute. reflexivity.
Qed.
