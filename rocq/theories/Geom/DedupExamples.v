(** Data of the examples of C39. *)
From Coq Require Import List ZArith Bool Arith Lia Reals Lra.
From Verif Require Import Base.Prelude Geom.BoundaryModel Geom.PeriodicModel Geom.PeriodicSpec
  Geom.DedupModel Geom.DedupSpec.
Import ListNotations.
Local Open Scope Z_scope.

Definition grid1 : list (Z * Z) := [(2, 0); (5, 3); (8, 6)].
Definition grid2 : list (Z * Z) := [(6, 0); (7, 1); (8, 2)].
Definition grid_cells : list (list Z) := [[0; 1; 4; 3]; [1; 2; 5; 4]; [3; 4; 7; 6]; [4; 5; 8; 7]].
Definition grid_bnds : list (list Z) := [[0; 3]; [3; 6]; [2; 5]; [5; 8]; [0; 1]; [1; 2]; [6; 7]; [7; 8]].

Definition map_okb (n : nat) (dm : list (Z * Z)) : bool :=
  forallb (fun p => (0 <=? fst p) && (fst p <? Z.of_nat n) && (0 <=? snd p) && (snd p <? Z.of_nat n)) dm.
Lemma map_ok_by n dm : NoDup (map fst dm) -> map_okb n dm = true -> map_ok n dm.
Proof.
  intros N H. split; auto. intros d m I. unfold map_okb in H. rewrite forallb_forall in H.
  specialize (H _ I). cbn [fst snd] in H. rewrite !andb_true_iff, !Z.leb_le, !Z.ltb_lt in H. lia.
Qed.

Ltac nodup := repeat constructor; cbn; intuition congruence.
Ltac cases := cbn [In]; intros; repeat match goal with
  | H : _ \/ _ |- _ => destruct H as [H|H]
  | H : False |- _ => destruct H
  | H : (_, _) = (_, _) |- _ => injection H as; subst
  end.

Lemma grid_ok :
  map_ok 9 grid1 /\ map_ok 9 grid2 /\ map_ok 9 [] /\ acyclic [grid1; grid2; []] /\
  square grid1 grid2 /\ square grid1 [] /\ square grid2 [] /\
  Deduplicate 0 grid1 grid2 [] [10; 11; 12; 13; 14; 15; 16; 17; 18] grid_cells grid_bnds
  = Ok ([10; 11; 13; 14], [[0; 1; 3; 2]; [1; 0; 2; 3]; [2; 3; 1; 0]; [3; 2; 0; 1]],
        [[0; 2]; [2; 0]; [0; 2]; [2; 0]; [0; 1]; [1; 0]; [0; 1]; [1; 0]]).
Proof.
  split. { apply map_ok_by; [nodup|reflexivity]. }
  split. { apply map_ok_by; [nodup|reflexivity]. }
  split. { apply map_ok_by; [nodup|reflexivity]. }
  split. { exists Z.to_nat. intros dm d m. cbn [In]. intros [<-|[<-|[<-|[]]]]; unfold grid1, grid2; cases; cbn; lia. }
  split. { intros d m m'. unfold grid1, grid2. cases; try discriminate. exists 0. split; cbn; auto. }
  split. { intros d m m' _ []. }
  split. { intros d m m' _ []. }
  vm_compute. reflexivity.
Qed.

Lemma not_meeting :
  map_ok 3 [(2, 0)] /\ map_ok 3 [(2, 1)] /\ acyclic [[(2, 0)]; [(2, 1)]; []] /\
  Deduplicate 0 [(2, 0)] [(2, 1)] [] [10; 11; 12] [[0; 1; 2]] [] = Ok ([10; 11], [[0; 1; 1]], []).
Proof.
  split. { apply map_ok_by; [nodup|reflexivity]. }
  split. { apply map_ok_by; [nodup|reflexivity]. }
  split. { exists Z.to_nat. intros dm d m. cbn [In]. intros [<-|[<-|[<-|[]]]]; cases; cbn; lia. }
  vm_compute. reflexivity.
Qed.

Lemma circle : Deduplicate 0 [(0, 1); (1, 0)] [] [] [10; 11] [[0; 1]] [] = UB.
Proof. vm_compute. reflexivity. Qed.

Definition cell_points : list vec :=
  [vzero; unit_vec 0; fun i => if Nat.ltb i 2 then 1%R else 0%R; unit_vec 1].

Lemma one_cell :
  map_ok 4 [(1, 0); (2, 3)] /\ map_ok 4 [(3, 0); (2, 1)] /\ map_ok 4 [] /\
  acyclic [[(1, 0); (2, 3)]; [(3, 0); (2, 1)]; []] /\
  square [(1, 0); (2, 3)] [(3, 0); (2, 1)] /\ square [(1, 0); (2, 3)] [] /\ square [(3, 0); (2, 1)] [] /\
  straight [[(1, 0); (2, 3)]; [(3, 0); (2, 1)]; []] /\
  images default_periodicity cell_points [[(1, 0); (2, 3)]; [(3, 0); (2, 1)]; []] /\
  periodic_bits [[(1, 0); (2, 3)]; [(3, 0); (2, 1)]; []] [(4%nat, [0; 1; 2; 3])]
    [(-1, [0; 3]); (-4, [1; 2]); (-2, [0; 1]); (-5, [3; 2])] = Ok [[0; 1; 3; 2]] /\
  Deduplicate vzero [(1, 0); (2, 3)] [(3, 0); (2, 1)] [] cell_points [[0; 1; 2; 3]]
    [[0; 3]; [1; 2]; [0; 1]; [3; 2]]
  = Ok ([vzero], [[0; 0; 0; 0]], [[0; 0]; [0; 0]; [0; 0]; [0; 0]]).
Proof.
  split. { apply map_ok_by; [nodup|reflexivity]. }
  split. { apply map_ok_by; [nodup|reflexivity]. }
  split. { apply map_ok_by; [nodup|reflexivity]. }
  split. { exists (fun i => if i =? 2 then 2%nat else if i =? 0 then 0%nat else 1%nat).
    intros dm d m. cbn [In]. intros [<-|[<-|[<-|[]]]]; cases; cbn; lia. }
  split. { intros d m m'. cases; try discriminate. exists 0. split; cbn; auto. }
  split. { intros d m m' _ []. }
  split. { intros d m m' _ []. }
  split. { intros j k dmj dmk d m Hj Hk I (e & J).
    destruct k as [|[|[|k]]]; try (now destruct k); cbn in Hk; injection Hk as <-;
    (destruct j as [|[|[|j]]]; try (now destruct j); cbn in Hj; injection Hj as <-);
    cbn [In] in I, J; cases; try discriminate; split; try discriminate; unfold donor_in; cbn [In]; eauto. }
  split. { intros k dm d m x y Hk I (_ & Hy) (_ & Hx).
    destruct k as [|[|[|k]]]; try (now destruct k); cbn in Hk; injection Hk as <-; cbn [In] in I; cases;
      cbn in Hx, Hy; injection Hx as <-; injection Hy as <-;
      (eexists; split; [reflexivity|]; intros i Hi; destruct i as [|[|[|i]]]; [| | |lia];
       unfold vadd, vsub, mvec, vzero, unit_vec, ident; cbn; lra). }
  split; [vm_compute; reflexivity|]. reflexivity.
Qed.
