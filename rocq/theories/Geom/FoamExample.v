(** Two boxes with a face in common, read as a polyMesh; and a cell that is none. *)
From Coq Require Import List ZArith Bool String Permutation Lia Arith.
From Verif Require Import Base.Prelude Base.PreludeFacts Geom.ElemModel Geom.BoundaryModel Geom.BisectSpec Geom.FoamModel Geom.FoamSpec Geom.FoamProofs Geom.FoamMore.
Import ListNotations.
Local Open Scope list_scope.
Local Open Scope Z_scope.

Definition boxes : foam := {|
  points := map (fun k => [""%string]) (seq 0 12);
  faces := [[5; 6; 7; 4]; [0; 3; 2; 1]; [5; 4; 0; 1]; [1; 2; 6; 5]; [2; 3; 7; 6]; [0; 4; 7; 3]; [9; 8; 4; 5]; [5; 6; 10; 9]; [6; 7; 11; 10]; [7; 4; 8; 11]; [8; 9; 10; 11]];
  owner := [0; 0; 0; 0; 0; 0; 1; 1; 1; 1; 1];
  neighbour := [1];
  patches := [("inlet"%string, {| nFaces := 1; startFace := 1 |}); ("outlet"%string, {| nFaces := 1; startFace := 10 |}); ("sides"%string, {| nFaces := 8; startFace := 2 |})] |}.
Definition no_rename (s : string) : option string := if String.eqb s "sides" then Some "WALL"%string else None.
Definition codes (s : string) : Z := if String.eqb s "WALL" then 4 else if String.eqb s "inlet" then 20 else if String.eqb s "outlet" then 21 else BC_ID_NULL.

Lemma turned_by (x y : list Z) k : (3 <= List.length x)%nat -> (k <= List.length x)%nat -> ElemSpec.rotate k x = y -> turned x y.
Proof. intros. right. eauto. Qed.
Lemma boxes_hex : hexahedral boxes.
Proof.
  unfold hexahedral. split; [reflexivity|]. split; [cbn; lia|]. split; [cbn; intros c H; decompose [or] H; subst; try lia; try contradiction|]. split; [cbn; intros f x H X; decompose [or] H; subst; cbn in X; decompose [or] X; subst; try lia; try contradiction|].
  intros c C. change (num_cells boxes) with 2 in C. assert (E : c = 0 \/ c = 1) by lia. destruct E as [-> | ->].
  - exists [0; 1; 2; 3; 4; 5; 6; 7]. split; [repeat constructor; cbn; lia|]. split; [reflexivity|]. exists [[0; 3; 2; 1]; [5; 4; 0; 1]; [1; 2; 6; 5]; [2; 3; 7; 6]; [0; 4; 7; 3]; [5; 6; 7; 4]]. split.
    + change (outside boxes 0) with [[5; 6; 7; 4]; [0; 3; 2; 1]; [5; 4; 0; 1]; [1; 2; 6; 5]; [2; 3; 7; 6]; [0; 4; 7; 3]]. apply (Permutation_cons_append [[0; 3; 2; 1]; [5; 4; 0; 1]; [1; 2; 6; 5]; [2; 3; 7; 6]; [0; 4; 7; 3]] [5; 6; 7; 4]).
    + repeat apply Forall2_cons; try apply Forall2_nil; ((left; reflexivity) || (apply (turned_by _ _ 1); cbn; try lia; reflexivity) || (apply (turned_by _ _ 2); cbn; try lia; reflexivity) || (apply (turned_by _ _ 3); cbn; try lia; reflexivity)).
  - exists [4; 5; 6; 7; 8; 9; 10; 11]. split; [repeat constructor; cbn; lia|]. split; [reflexivity|]. exists [[4; 7; 6; 5]; [9; 8; 4; 5]; [5; 6; 10; 9]; [6; 7; 11; 10]; [7; 4; 8; 11]; [8; 9; 10; 11]]. split.
    + change (outside boxes 1) with [[9; 8; 4; 5]; [5; 6; 10; 9]; [6; 7; 11; 10]; [7; 4; 8; 11]; [8; 9; 10; 11]; [4; 7; 6; 5]]. symmetry. apply (Permutation_cons_append [[9; 8; 4; 5]; [5; 6; 10; 9]; [6; 7; 11; 10]; [7; 4; 8; 11]; [8; 9; 10; 11]] [4; 7; 6; 5]).
    + repeat apply Forall2_cons; try apply Forall2_nil; ((left; reflexivity) || (apply (turned_by _ _ 1); cbn; try lia; reflexivity) || (apply (turned_by _ _ 2); cbn; try lia; reflexivity) || (apply (turned_by _ _ 3); cbn; try lia; reflexivity)).
Qed.
Lemma boxes_patched : patched no_rename codes boxes.
Proof.
  split.
  - intros name p I. cbn in I. unfold zlen. cbn [neighbour owner boxes List.length]. destruct I as [I|[I|[I|[]]]]; injection I as <- <-; (split; [vm_compute; discriminate|cbn; lia]).
  - intros i I. cbn in I. unfold has, zlen. cbn [neighbour boxes List.length patches]. destruct (Nat.eq_dec i 0); [subst; exists "inlet"%string, {| nFaces := 1; startFace := 1 |}; split; [cbn; tauto|vm_compute; split; [discriminate|reflexivity]]|].
    destruct (Nat.eq_dec i 9); [subst; exists "outlet"%string, {| nFaces := 1; startFace := 10 |}; split; [cbn; tauto|vm_compute; split; [discriminate|reflexivity]]|]. exists "sides"%string, {| nFaces := 8; startFace := 2 |}. split; [cbn; tauto|cbn [nFaces startFace]; change (Z.of_nat 1) with 1; lia].
Qed.
Lemma boxes_out : exists m, convert no_rename codes boxes = Ok m /\ s_cells m = [(Hex8, [4; 7; 6; 5; 0; 3; 2; 1]); (Hex8, [5; 4; 8; 9; 6; 7; 11; 10])] /\ map f_zone (s_bnds m) = [20; 4; 4; 4; 4; 4; 4; 4; 4; 21].
Proof. eexists. split; [reflexivity|]. split; reflexivity. Qed.
(** six times the same square is taken for a hexahedron, and so is a box one of whose faces
    is turned the wrong way *)
Definition six_squares : foam := {| points := map (fun k => [""%string]) (seq 0 4); faces := repeat [0; 1; 2; 3] 6; owner := repeat 0 6; neighbour := [];
  patches := [("inlet"%string, {| nFaces := 6; startFace := 0 |})] |}.
Definition one_wrong : foam := {| points := map (fun k => [""%string]) (seq 0 8); faces := [[0; 3; 2; 1]; [0; 1; 5; 4]; [1; 2; 6; 5]; [2; 3; 7; 6]; [0; 4; 7; 3]; [7; 6; 5; 4]]; owner := repeat 0 6; neighbour := [];
  patches := [("inlet"%string, {| nFaces := 6; startFace := 0 |})] |}.
Lemma six_squares_taken : exists m n, convert no_rename codes six_squares = Ok m /\ s_cells m = [(Hex8, n)] /\ ~ NoDup n.
Proof.
  eexists. exists [3; 2; 1; 0; 0; 3; 2; 1]. split; [reflexivity|]. split; [reflexivity|]. intro N. inversion N as [|? ? X _]; subst. apply X. cbn. tauto.
Qed.
Lemma one_wrong_taken : exists m n b, convert no_rename codes one_wrong = Ok m /\ s_cells m = [(Hex8, n)] /\ In b (s_bnds m) /\
  forall f y, ExtractFaceNodes Hex8 f n = Ok y -> ~ turned (f_nodes b) y.
Proof.
  eexists. exists [1; 2; 3; 0; 5; 6; 7; 4]. exists {| f_type := Quad4; f_nodes := [7; 6; 5; 4]; f_cell := 0; f_zone := 20 |}. split; [reflexivity|]. split; [reflexivity|]. split; [vm_compute; tauto|].
  intros f y E T. cbn in T. assert (F : (f < 6)%nat). { destruct (Nat.lt_ge_cases f 6); auto. do 6 (destruct f as [|f]; [lia|]). discriminate E. }
  do 6 (destruct f as [|f]; [injection E as <-; destruct T as [Q|(_ & k & K & Q)]; [discriminate Q|do 5 (destruct k as [|k]; [discriminate Q|]); cbn in K; lia]|]). lia.
Qed.
