(** Data for the examples of C58. *)
From Coq Require Import List ZArith Bool Lia Reals Lra.
From Verif Require Import Base.Prelude Base.PreludeFacts Solver.DirectModel Solver.DirectSpec Solver.LUModel Solver.LUSpec Solver.LUExamples
  Euler.ImplicitModel Euler.ImplicitSpec.
Import ListNotations.
Local Open Scope Z_scope.
Local Arguments Pos.to_nat !_ /.

(** A line of four cells over two ranks, with a wall at each end. *)
Definition line : list rank :=
  [ {| msh := {| ncell := 2; c2f := [[0; 1]; [1; 2]];
                 faces := [{| fid := 0; fc0 := 0; fc1 := None |}; {| fid := 1; fc0 := 0; fc1 := Some 1 |}; {| fid := 2; fc0 := 1; fc1 := Some 2 |}] |};
       ghosts := [(1, 0)] |};
    {| msh := {| ncell := 2; c2f := [[0; 1]; [1; 2]];
                 faces := [{| fid := 2; fc0 := 2; fc1 := Some 0 |}; {| fid := 3; fc0 := 0; fc1 := Some 1 |}; {| fid := 4; fc0 := 1; fc1 := None |}] |};
       ghosts := [(0, 1)] |} ].
(** the blocks of the faces and of the diagonals, and a solution *)
Definition line_jac (k : Z) (sd : bool) : blk := if sd then (0, 1, 0, 0) else (0, k, 0, 0).
Definition line_inc (k : Z) (sd : bool) (x : Z * Z) : Z * Z := act blocks (line_jac k sd) x.
Definition line_D : list (list blk) := [[(1, 0, 1, 1); (1, 2, 0, 1)]; [(1, 0, 1, 1); (1, 2, 0, 1)]].
Definition line_sol : list (list (Z * Z)) := [[(1, 2); (3, 4); (5, 6)]; [(5, 6); (7, 8); (3, 4)]].
Definition line_rhs : list (list (Z * Z)) := [[(5, 3); (25, 4)]; [(33, 11); (29, 8)]].
Definition line_zero : list (list (Z * Z)) := [[(0, 0); (0, 0); (0, 0)]; [(0, 0); (0, 0); (0, 0)]].

Definition zabs (v : Z * Z) : Z * Z := (Z.abs (fst v), Z.abs (snd v)).
Definition znonneg (v : Z * Z) : Prop := 0 <= fst v /\ 0 <= snd v.
Lemma zabs_absolute : absolute blocks zabs znonneg.
Proof.
  constructor; unfold zabs, znonneg; cbn.
  - intros [a b]; cbn. split; intro H; injection H; intros; f_equal; lia.
  - intros; lia.
  - lia.
  - intros; lia.
  - intros [a b] [c d]; cbn; intros H1 H2 H. injection H; intros. split; f_equal; lia.
Qed.

Ltac ranks := let p := fresh "p" in let r := fresh "r" in let H := fresh in intros p r H;
  destruct p as [|[|p]]; cbn in H; [injection H as <-|injection H as <-|destruct p; discriminate].
Ltac cells i Hi := first [assert (i = 0 \/ i = 1) as [-> | ->] by (cbn in Hi; lia) | assert (i = 0) as -> by (cbn in Hi; lia)].

Lemma line_ranks : ranks_ok line.
Proof.
  ranks; (split; [constructor; cbn; [lia|reflexivity| |]|]).
  1, 4: intros i k Hi Hk; cells i Hi; cbn in Hk; unfold zlen; cbn; lia.
  1, 3: intros i k Hi Hk; cells i Hi; cbn in Hk; unfold total_of, zlen; cbn; intuition (subst; cbn; lia).
  all: intros g [<-|[]]; cbn; split; [lia|eexists; split; [reflexivity|cbn; lia]].
Qed.
Lemma line_no_self : forall p r, nth_error line p = Some r -> no_self (msh r).
Proof. ranks; intros i k Hi Hk; cells i Hi; cbn in Hk; intuition (subst; cbn; discriminate). Qed.
Lemma line_one_face : forall p r, nth_error line p = Some r -> one_face (msh r).
Proof. ranks; intros i Hi; cells i Hi; cbn; repeat constructor; cbn; intuition discriminate. Qed.
Lemma line_system : system_ok binv line line_D line_rhs.
Proof.
  split; [apply line_ranks|]. split; [reflexivity|]. split; [reflexivity|].
  ranks; (split; [split; [reflexivity|]|cbn; unfold zlen; cbn; lia]); intros d Hd; cbn in Hd; intuition (subst; eexists; reflexivity).
Qed.
Lemma line_arrays : arrays_ok line line_zero.
Proof. split; [reflexivity|]. ranks; reflexivity. Qed.
Lemma line_consistent us : us = line_sol \/ us = line_zero -> consistent blocks line us.
Proof.
  intros [-> | ->]; (split; [split; [reflexivity|]; ranks; reflexivity|]);
  intros p r q g Hr Hg; destruct p as [|[|p]]; cbn in Hr; [injection Hr as <-|injection Hr as <-|destruct p; discriminate| injection Hr as <-|injection Hr as <-|destruct p; discriminate];
  destruct q as [|[|q]]; cbn in Hg; try discriminate; injection Hg as <-; reflexivity.
Qed.
Lemma line_linear : linear blocks line_inc.
Proof.
  split; intros k sd; [|intros [a b] [c d]]; unfold line_inc, line_jac; destruct sd; cbn -[Z.mul Z.add]; f_equal; ring.
Qed.
Lemma line_solved : all_solved blocks line_inc line line_D line_rhs line_sol.
Proof. ranks; intros i Hi; cells i Hi; vm_compute; reflexivity. Qed.

(** the factors of the two ranks; the second cell is eliminated first *)
Definition line_adj : list (list Z) := [[1]; [0]].
Definition line_sym : symlu :=
  match symbolic 2 line_adj [1; 0] [1; 0] (-1) with Ok s => s | _ => Build_symlu 0 [] [] [] [] [] [] [] [] [] end.
Definition line_factor (p : nat) : mat blk :=
  match nth_error line p with
  | Some r => match (do A <- to_lu blocks line_jac (msh r) line_sym line_adj (nth p line_D []);
                     lu_decompose blk (tsub blocks) (tmul blocks) binv line_sym {| ldu := A; isDecomposed := false |}) with Ok F => F | _ => {| ldu := []; isDecomposed := false |} end
  | None => {| ldu := []; isDecomposed := false |}
  end.
Definition line_factors : list (mat blk) := [line_factor 0; line_factor 1].
Lemma line_adj_ok : graph_ok 2 line_adj.
Proof. constructor; [reflexivity| |]; intros i j Hi Hj; cells i Hi; cbn in Hj; destruct Hj as [<-|[]]; cbn; auto; lia. Qed.
Lemma line_order_ok : ordering_ok 2 [1; 0] [1; 0].
Proof. constructor; [right; split; reflexivity| |]; intros v Hv; cells v Hv; cbn; lia. Qed.
Lemma line_factored : forall p r s F, nth_error line p = Some r -> nth_error [line_sym; line_sym] p = Some s -> nth_error line_factors p = Some F ->
  no_self (msh r) /\ one_face (msh r) /\ factored blocks line_jac binv (msh r) (nth p line_D []) s F.
Proof.
  intros p r s F Hr Hs HF. split; [eapply line_no_self; eauto|]. split; [eapply line_one_face; eauto|].
  destruct p as [|[|p]]; cbn [nth_error line] in Hr; [| |destruct p; discriminate]; cbn [nth_error] in Hs; cbn [nth_error line_factors] in HF;
  assert (s = line_sym) as -> by congruence.
  - assert (F = line_factor 0) as -> by congruence. assert (r = nth 0 line {| msh := {| ncell := 0; c2f := []; faces := [] |}; ghosts := [] |}) as -> by (cbn; congruence).
    exists line_adj, [1; 0], [1; 0], (-1), [[(1, 0, 1, 1); (0, 1, 0, 0)]; [(1, 2, 0, 1); (0, 1, 0, 0)]]. split; [apply line_adj_ok|]. split; [apply line_order_ok|]. split; [lia|].
    split; [intros i k Hi Hk N L; cells i Hi; cbn in Hk; intuition (subst; cbn in *; auto; lia)|]. repeat split; vm_compute; reflexivity.
  - assert (F = line_factor 1) as -> by congruence. assert (r = nth 1 line {| msh := {| ncell := 0; c2f := []; faces := [] |}; ghosts := [] |}) as -> by (cbn; congruence).
    exists line_adj, [1; 0], [1; 0], (-1), [[(1, 0, 1, 1); (0, 3, 0, 0)]; [(1, 2, 0, 1); (0, 1, 0, 0)]]. split; [apply line_adj_ok|]. split; [apply line_order_ok|]. split; [lia|].
    split; [intros i k Hi Hk N L; cells i Hi; cbn in Hk; intuition (subst; cbn in *; auto; lia)|]. repeat split; vm_compute; reflexivity.
Qed.

(** Real numbers *)
Definition reals : ops R R := {|
  t0 := 0%R; t1 := 1%R; tadd := Rplus; topp := Ropp; tmul := Rmult; v0 := 0%R; vadd := Rplus; vopp := Ropp; act := Rmult |}.
Lemma reals_laws : laws reals.
Proof. constructor; intros; cbn; ring. Qed.
Definition rinv (d : R) : res R := if Req_EM_T d 0 then Abort else Ok (/ d)%R.
Lemma rinv_inverts : inverts reals rinv.
Proof. intros d e H. unfold rinv in H. destruct (Req_EM_T d 0); [discriminate|]. assert (e = / d)%R as -> by congruence. cbn. split; field; auto. Qed.
Definition line_4 : list (list R) := [[4; 4]; [4; 4]]%R.
Definition line_one : list (list R) := [[1; 1; 1]; [1; 1; 1]]%R.
Definition line_b : list (list R) := [[3; 2]; [2; 3]]%R.
Definition rminus (k : Z) (sd : bool) (x : R) : R := (- x)%R.
Lemma line_4_system : system_ok rinv line line_4 line_b.
Proof.
  split; [apply line_ranks|]. split; [reflexivity|]. split; [reflexivity|].
  ranks; (split; [split; [reflexivity|]|cbn; unfold zlen; cbn; lia]); intros d Hd; cbn in Hd;
  (assert (d = 4)%R as -> by (intuition congruence); exists (/ 4)%R; unfold rinv; destruct (Req_EM_T 4 0); [lra|reflexivity]).
Qed.
Lemma line_4_linear : linear reals rminus.
Proof. split; intros; unfold rminus; cbn; ring. Qed.
Lemma line_4_contracts : contracts reals rminus Rabs (1 / 2) line line_4.
Proof.
  ranks; intros i Hi e w M HM He; pose proof (He 0 ltac:(unfold total_of, zlen; cbn; lia)) as H0; pose proof (He 1 ltac:(unfold total_of, zlen; cbn; lia)) as H1;
    pose proof (He 2 ltac:(unfold total_of, zlen; cbn; lia)) as H2; cells i Hi; unfold coupling, block, rminus;
    cbn -[Rabs Rmult Rplus Ropp value Rdiv]; revert H0 H1 H2; generalize (value reals e 0) (value reals e 1) (value reals e 2); intros a b c H0 H1 H2 H;
    apply Rabs_le; revert H0 H1 H2; unfold Rabs; destruct (Rcase_abs a), (Rcase_abs b), (Rcase_abs c); intros; split; lra.
Qed.
Lemma line_4_consistent x y z t : consistent reals line [[x; y; z]; [z; t; y]].
Proof.
  split; [split; [reflexivity|]; ranks; reflexivity|].
  intros p r q g Hr Hg; destruct p as [|[|p]]; cbn in Hr; [injection Hr as <-|injection Hr as <-|destruct p; discriminate];
  destruct q as [|[|q]]; cbn in Hg; try discriminate; injection Hg as <-; reflexivity.
Qed.
Lemma line_4_solved : all_solved reals rminus line line_4 line_b line_one.
Proof. ranks; intros i Hi; cells i Hi; unfold row_of, coupling, block, rminus, value; cbn; ring. Qed.

Lemma line_4_start :
  everywhere line (fun p _ i => (Rabs (vsub reals (value reals (nth p [[9; 0; 5]; [5; -7; 0]]%R []) i) (value reals (nth p line_one []) i)) <= 8)%R).
Proof. ranks; intros i Hi; cells i Hi; unfold vsub, value; cbn; apply Rabs_le; lra. Qed.

(** Integers *)
Definition ints : ops Z Z := {|
  t0 := 0; t1 := 1; tadd := Z.add; topp := Z.opp; tmul := Z.mul; v0 := 0; vadd := Z.add; vopp := Z.opp; act := Z.mul |}.
Lemma ints_laws : laws ints.
Proof. constructor; intros; cbn -[Z.add Z.mul Z.opp]; ring. Qed.
Definition iinv (d : Z) : res Z := if (d =? 1) || (d =? -1) then Ok d else Abort.
Lemma iinv_inverts : inverts ints iinv.
Proof. intros d e H. unfold iinv in H. destruct (Z.eqb_spec d 1), (Z.eqb_spec d (-1)); cbn in H; try discriminate; injection H as <-; subst; split; reflexivity. Qed.
Lemma ints_absolute : absolute ints Z.abs (fun v => 0 <= v).
Proof. constructor; cbn; intros; lia. Qed.
