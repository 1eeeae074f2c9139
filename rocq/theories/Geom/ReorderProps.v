(** C40: reordering of the cells of each rank. *)
From Coq Require Import List ZArith Permutation Lia.
From Verif Require Import Base.Prelude DNDS.IndexMappingModel DNDS.IndexMappingSpec Geom.AdjModel Geom.NodeCellSpec
  Geom.ReorderModel Geom.ReorderSpec Geom.ReorderProofs.
Import ListNotations.
Local Open Scope Z_scope.

(** The reordering is one to one on all cells, and every cell stays on its rank. *)
Theorem C40_one_to_one : forall lens perm, permutations lens perm ->
  (forall c, item_at lens c <> None -> exists d, reordered lens perm c d) /\
  (forall d, item_at lens d <> None -> exists c, reordered lens perm c d) /\
  (forall c d c' d', reordered lens perm c d -> reordered lens perm c' d' -> (c = c' <-> d = d')).
Proof. exact reordered_bijection. Qed.
Print Assumptions C40_one_to_one.

Theorem C40_mesh_preserved : forall I perm (m m' : cmesh I) gs,
  let lens := map (@length (list Z)) (m_c2n m) in
  permutations lens perm -> same_sizes m -> ReorderLocalCells perm m = Ok (m', gs) ->
  (* the nodes, the information and the faces of a cell are found at its new place *)
  rows_reordered lens perm eq (m_c2n m) (m_c2n m') /\
  rows_reordered lens perm eq (m_info m) (m_info m') /\
  match m_c2f m, m_c2f m' with
  | Some x, Some y => rows_reordered lens perm eq x y
  | None, None => True
  | _, _ => False
  end /\
  (* so are its neighbours, under their new numbers *)
  rows_reordered lens perm (Forall2 (new_entry lens perm)) (m_c2c m) (m_c2c m') /\
  (* boundaries, faces and nodes refer to the same cells, under their new numbers *)
  Forall2 (Forall2 (Forall2 (new_entry lens perm))) (m_b2c m) (m_b2c m') /\
  Forall2 (Forall2 (Forall2 (new_entry lens perm))) (m_f2c m) (m_f2c m') /\
  Forall2 (Forall2 (Forall2 (new_entry lens perm))) (m_n2c m) (m_n2c m') /\
  (* the ghosts of a rank are the same cells, and the ghost rows those of the owners *)
  Forall2 (fun l l' => forall d, In d l' <-> exists c, In c l /\ reordered lens perm c d) (m_ghost m) (m_ghost m') /\
  map ghostIndex (g_maps gs) = m_ghost m' /\
  (exists pulls g, length pulls = length lens /\ setup_pull (map Z.of_nat lens) pulls = Ok (g, g_maps gs)) /\
  ghost_rows (m_c2n m') (m_ghost m') (g_c2n gs) /\
  ghost_rows (m_c2c m') (m_ghost m') (g_c2c gs) /\
  ghost_rows (m_info m') (m_ghost m') (g_info gs) /\
  match m_c2f m', g_c2f gs with
  | Some x, Some y => ghost_rows x (m_ghost m') y
  | None, None => True
  | _, _ => False
  end.
Proof. exact reorder_spec. Qed.
Print Assumptions C40_mesh_preserved.

(** Five cells in a row on two ranks; rank 0 reverses its three cells. *)
Definition ex_perm := [[2; 1; 0]; [0; 1]].
Definition ex_mesh : cmesh Z :=
  {| m_c2n := [[[0; 1]; [1; 2]; [2; 3]]; [[3; 4]; [4; 5]]];
     m_c2c := [[[1]; [0; 2]; [1; 3]]; [[2; 4]; [3]]];
     m_c2f := Some [[[0; 1]; [1; 2]; [2; 3]]; [[3; 4]; [4; 5]]];
     m_info := [[10; 11; 12]; [13; 14]];
     m_b2c := [[[0; UnInitIndex]]; [[4; UnInitIndex]]];
     m_f2c := [[[0; UnInitIndex]; [0; 1]; [1; 2]; [2; 3]]; [[3; 4]; [4; UnInitIndex]]];
     m_n2c := [[[0]; [0; 1]; [1; 2]; [2; 3]]; [[3; 4]; [4]]];
     m_ghost := [[3]; [2]] |}.
Example ex_reordered :
  match ReorderLocalCells ex_perm ex_mesh with
  | Ok (m', gs) =>
      m' = {| m_c2n := [[[2; 3]; [1; 2]; [0; 1]]; [[3; 4]; [4; 5]]];
              m_c2c := [[[1; 3]; [2; 0]; [1]]; [[0; 4]; [3]]];
              m_c2f := Some [[[2; 3]; [1; 2]; [0; 1]]; [[3; 4]; [4; 5]]];
              m_info := [[12; 11; 10]; [13; 14]];
              m_b2c := [[[2; UnInitIndex]]; [[4; UnInitIndex]]];
              m_f2c := [[[2; UnInitIndex]; [2; 1]; [1; 0]; [0; 3]]; [[3; 4]; [4; UnInitIndex]]];
              m_n2c := [[[2]; [2; 1]; [1; 0]; [0; 3]]; [[3; 4]; [4]]];
              m_ghost := [[3]; [0]] |} /\
      g_c2n gs = [[[3; 4]]; [[2; 3]]]
  | _ => False
  end.
Proof. vm_compute. auto. Qed.
Example ex_hypotheses : permutations (map (@length (list Z)) (m_c2n ex_mesh)) ex_perm /\ same_sizes ex_mesh.
Proof.
  split.
  - split; [reflexivity|]. intros [|[|s]] p H; [| |destruct s; discriminate]; injection H as <-; cbn.
    + apply (Permutation_rev [2; 1; 0]).
    + apply Permutation_refl.
  - repeat split. intros c2f H. injection H as <-. reflexivity.
Qed.
