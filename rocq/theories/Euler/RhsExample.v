(** Example meshes for C54. *)
From Coq Require Import List ZArith Reals Lra Lia Bool Permutation.
From Verif Require Import Base.Prelude Geom.AdjModel Geom.BoundaryModel Geom.PeriodicModel Geom.PeriodicSpec
  Euler.RhsModel Euler.RhsSpec Euler.RhsProofs.
Import ListNotations.
Local Open Scope R_scope.

Definition quarter : mat := fun i j =>
  match i, j with 0%nat, 1%nat => -1 | 1%nat, 0%nat => 1 | 2%nat, 2%nat => 1 | _, _ => 0 end.
Definition turning : Periodicity :=
  {| rotation := [ident; quarter; ident; ident]; translation := translation default_periodicity;
     rotationCenter := rotationCenter default_periodicity |}.
Definition flux (n : R) : state := fun k => n + INR k.
Definition lface a b z w n := Face a b z w [(1, 1, flux n)].
Definition wallD := GFace 1 None 5 true (flux 4).
Definition mesh := [GFace 0 (Some 1%nat) 0 false (flux 1); GFace 1 (Some 2%nat) 0 false (flux 2);
  GFace 2 (Some 0%nat) (-1) false (flux 3); wallD].
Definition rank0 := Rank [0; 1]%nat [2%nat] [0; 3; 1; 2]%nat 2
  [lface 0 1 0 false 1; lface 1 UnInitIndex 5 true 4; lface 1 2 0 false 2; lface 2 0 (-1) false 3].
Definition rank1 := Rank [2%nat] [1; 0]%nat [1; 2]%nat 2 [lface 1 0 0 false 2; lface 0 2 (-1) false 3].

Lemma flux_one : forall a b z w n k, fluxEs (lface a b z w n) k = flux n k.
Proof. intros. unfold fluxEs, lface, flux. cbn [points fold_left]. lra. Qed.
Ltac match_tac := eexists; split; [reflexivity|]; unfold matches;
  split; [cbn; lia|]; split; [reflexivity|]; split; [first [reflexivity | split; [cbn; lia|reflexivity]]|];
  split; [reflexivity|]; split; [reflexivity|]; intros k; apply flux_one.
Ltac touch_tac := cbn; split; intros HH;
  [ repeat destruct HH as [HH|HH]; try discriminate; try contradiction;
    first [left; cbn; tauto | right; eexists; split; [reflexivity|cbn; tauto]]
  | first [tauto | exfalso; destruct HH as [HH|(c & HH & HI)]; cbn in *;
      [intuition lia | injection HH as <-; intuition lia] | exfalso; destruct HH as [HH|(c & HH & HI)]; cbn in *;
      [intuition lia | discriminate]] ].
Lemma has0 : has_faces mesh rank0.
Proof.
  split; [repeat constructor; cbn; intuition lia|]. split; [repeat constructor; cbn; intuition lia|]. split.
  - cbn [fs table rank0 rank1]. repeat (apply Forall2_cons; [match_tac|]). apply Forall2_nil.
  - intros i gf H. destruct i as [|[|[|[|i]]]]; [| | | |destruct i; discriminate]; injection H as <-; touch_tac.
Qed.
Lemma has1 : has_faces mesh rank1.
Proof.
  split; [repeat constructor; cbn; intuition lia|]. split; [repeat constructor; cbn; intuition lia|]. split.
  - cbn [fs table rank0 rank1]. repeat (apply Forall2_cons; [match_tac|]). apply Forall2_nil.
  - intros i gf H. destruct i as [|[|[|[|i]]]]; [| | | |destruct i; discriminate]; injection H as <-; touch_tac.
Qed.

Lemma example_ok :
  length (rotation turning) = 4%nat /\ Forall (has_faces mesh) [rank0; rank1] /\ distributed 3 [rank0; rank1] /\
  Forall (sides_in 3) mesh /\ Forall (untouched 2 true turning 0) mesh /\
  Forall (fun g => side1 g <> Some (side0 g)) mesh /\ has_cell2face rank0 [[0; 3]; [0; 1; 2]]%Z /\
  Forall (fun f => gwall f = true -> side1 f = None) mesh /\ Forall (wall_first mesh) [rank0; rank1] /\
  filter is_boundary mesh = [wallD] /\ filter gwall mesh = [wallD] /\
  turned 2 true turning (-1) (fun k => INR k) 1%nat <> 1.
Proof.
  split; [reflexivity|]. split; [constructor; [exact has0|constructor; [exact has1|constructor]]|].
  split; [unfold distributed; cbn; apply Permutation_refl|].
  split; [repeat (apply Forall_cons; [split; [cbn; lia|intros c K; inversion K; subst; lia]|]); apply Forall_nil|].
  split; [repeat (apply Forall_cons; [left; reflexivity|]); apply Forall_nil|].
  split; [repeat (apply Forall_cons; [cbn; discriminate|]); apply Forall_nil|].
  split.
  { split; [reflexivity|]. intros i l H. destruct i as [|[|i]]; [| |destruct i; discriminate]; injection H as <-;
      (split; [repeat constructor; cbn; intuition lia|]); intros j; split.
    - intros [<-|[<-|[]]]; eexists; (split; [lia|split; [reflexivity|cbn; tauto]]).
    - intros (f & Hj & Hf & Hs). rewrite <- (Z2Nat.id j Hj). destruct (Z.to_nat j) as [|[|[|[|n]]]]; [| | | |destruct n; discriminate];
        injection Hf as <-; cbn in Hs; cbn; intuition lia.
    - intros [<-|[<-|[<-|[]]]]; eexists; (split; [lia|split; [reflexivity|cbn; tauto]]).
    - intros (f & Hj & Hf & Hs). rewrite <- (Z2Nat.id j Hj). destruct (Z.to_nat j) as [|[|[|[|n]]]]; [| | | |destruct n; discriminate];
        injection Hf as <-; cbn in Hs; cbn; intuition lia. }
  split; [repeat (apply Forall_cons; [cbn; first [discriminate|reflexivity]|]); apply Forall_nil|].
  split.
  { apply Forall_cons; [|apply Forall_cons; [|apply Forall_nil]]; intros j i f Hj Hi Hw; cbn.
    - destruct j as [|[|[|[|j]]]]; [lia|lia| | |destruct j; discriminate]; injection Hj as <-; injection Hi as <-; discriminate.
    - destruct j as [|[|j]]; [lia|lia|destruct j; discriminate]. }
  split; [reflexivity|]. split; [reflexivity|].
  unfold turned. cbn. unfold Pos.to_nat, quarter. cbn.
  intros K. lra.
Qed.

(** One cell, periodic with itself. *)
Definition one_cell := Rank [0%nat] [] [0%nat] 1 [lface 0 0 (-1) false 1].
Lemma one_cell_differs : forall faces_listed, In faces_listed [[0%Z]; [0%Z; 0%Z]] ->
  exists rhs rhs' row row', run 2 true default_periodicity (fun _ => 1) (fun _ => 1) (fun _ _ => 0) true one_cell = Ok rhs /\
    run_threads 2 true default_periodicity (fun _ => 1) (fun _ => 1) (fun _ _ => 0) true [faces_listed] one_cell = Ok rhs' /\
    nth_error rhs 0 = Some row /\ nth_error rhs' 0 = Some row' /\ row 0%nat = 0 /\ row' 0%nat > 0.
Proof.
  intros l [<-|[<-|[]]]; do 4 eexists; (split; [reflexivity|]); (split; [reflexivity|]); (split; [reflexivity|]);
    (split; [reflexivity|]); cbn; unfold flux; cbn.
  all: split; lra.
Qed.

(** A square and its sides. *)
Definition square_area (f : gface) : nat -> R := fun d =>
  match gzone f, d with 1%Z, 0%nat => 1 | 2%Z, 0%nat => -1 | 3%Z, 1%nat => 1 | 4%Z, 1%nat => -1 | _, _ => 0 end.
Definition square := map (fun z => GFace 0 None z false (flux 1)) [1; 2; 3; 4]%Z.
Definition square_rank := Rank [0%nat] [] [0; 1; 2; 3]%nat 4 (map (fun z => lface 0 UnInitIndex z false 1) [1; 2; 3; 4]%Z).
Lemma square_closed : closed square_area square 0 /\ has_faces square square_rank /\
  exists f, In f square /\ square_area f 0%nat <> 0.
Proof.
  split; [intros d; unfold square_area, rsum; cbn; destruct d as [|[|d]]; lra|]. split.
  - split; [repeat constructor; cbn; intuition lia|]. split; [repeat constructor; cbn; intuition lia|]. split.
    + cbn [fs table square_rank map]. repeat (apply Forall2_cons; [match_tac|]). apply Forall2_nil.
    + intros i gf H. destruct i as [|[|[|[|i]]]]; [| | | |destruct i; discriminate]; injection H as <-; touch_tac.
  - eexists. split; [left; reflexivity|]. unfold square_area. cbn. intros K. lra.
Qed.
