From Coq Require Import List ZArith Bool Lia.
From Verif Require Import Base.Prelude Base.PreludeFacts Solver.DirectModel Solver.DirectSpec Solver.LUModel Solver.LUSpec
  Euler.ImplicitModel Euler.ImplicitSpec Euler.ImplicitProofs Euler.ImplicitRanks Euler.ImplicitLU Euler.ImplicitAll Euler.ImplicitMore Euler.ImplicitExample.
Import ListNotations.
Local Open Scope Z_scope.
Local Arguments Pos.to_nat !_ /.

Section One.
  Context {T V : Type} (O : ops T V) (LW : laws O) (finc : Z -> bool -> V -> V) (invert : T -> res T) (INV : inverts O invert).
  Lemma lu_one_rank : forall m D rhs jac vabs nonneg s F u tmp,
    system_ok invert [{| msh := m; ghosts := [] |}] [D] [rhs] ->
    (forall k sd x, act O (jac k sd) x = finc k sd x) -> (forall d, invert d <> UB) ->
    no_self m -> one_face m -> factored O jac invert m D s F -> zlen u = ncell m -> zlen tmp = ncell m -> absolute O vabs nonneg ->
    exists u' sum, lu_all O finc vabs [{| msh := m; ghosts := [] |}] [s] [F] [rhs] [u] [tmp] = Ok ([u'], sum) /\ solves O finc m D rhs u'.
  Proof.
    intros m D rhs jac vabs nonneg s F u tmp SO J ND NS OF FA Lu Lt A. set (r := {| msh := m; ghosts := [] |}) in *.
    assert (One : forall x : list V, zlen x = ncell m -> arrays_ok [r] [x]).
    { intros x Hx. split; [reflexivity|]. intros [|[|p]] r' Hr; cbn in Hr; try discriminate. assert (r' = r) as -> by congruence. unfold total_of, zlen in *. cbn. lia. }
    destruct (lu_all_ok O LW finc invert INV [r] [D] [rhs] SO jac vabs nonneg [s] [F] [u] [tmp]) as (us' & sum & E & C & H & _); auto.
    - intros [|[|p]] r' s' F' Hr Hs HF; cbn in Hr, Hs, HF; try discriminate. assert (r' = r) as -> by congruence. assert (s' = s) as -> by congruence. assert (F' = F) as -> by congruence. auto.
    - split; auto. intros [|[|p]] r' q g Hr Hg; cbn in Hr; try discriminate. assert (r' = r) as -> by congruence. destruct q; discriminate.
    - destruct C as ((L & _) & _). destruct us' as [|u' [|? ?]]; try discriminate L. exists u', sum. split; [exact E|]. intros i Hi.
      specialize (H 0%nat r eq_refl i Hi). cbn [nth] in H. destruct SO as (RO & _). destruct (RO 0%nat r eq_refl) as (MO & _).
      replace (total_of r) with (ncell m) in MO by (unfold total_of, zlen; cbn; lia). change (msh r) with m in *.
      destruct (no_ghosts O finc m u' i MO Hi) as (E1 & _). destruct (no_ghosts O finc m u i MO Hi) as (_ & E2).
      rewrite E1, E2, (v_0r O LW) in H. exact H.
  Qed.
End One.

Lemma single_ok : forall m D (rhs : list Z), mesh_ok m (ncell m) -> diagonal_ok iinv m D -> ncell m <= zlen rhs ->
  system_ok iinv [{| msh := m; ghosts := [] |}] [D] [rhs].
Proof.
  intros m D rhs MO DO L. split; [|split; [reflexivity|split; [reflexivity|]]]; intros [|[|p]] r Hr; cbn in Hr; try discriminate; injection Hr as <-; cbn; auto.
  split; [|intros g []]. unfold total_of, zlen. cbn. rewrite Z.add_0_r. exact MO.
Qed.

(** two ranks with a cell each *)
Lemma rec_sums_differ :
  ~ (forall rs finc0 frec Ds rhss us forward us' ss, system_ok iinv rs Ds rhss -> consistent ints rs us ->
     rec_all ints iinv Z.abs rs finc0 frec Ds rhss us forward = Ok (us', ss) ->
     forall s s', In s ss -> In s' ss -> s = s').
Proof.
  intro H. set (c := {| msh := {| ncell := 1; c2f := [[]]; faces := [] |}; ghosts := [] |}).
  assert (X : 1 = 2); [|discriminate]. apply (H [c; c] (fun _ _ x => x) (fun _ _ => 0) [[1]; [1]] [[1]; [2]] [[0]; [0]] true [[1]; [2]] [1; 2]); cbn; auto.
  - assert (MO : mesh_ok (msh c) (total_of c)).
    { constructor; cbn; unfold total_of, zlen; cbn; try lia; intros i k Hi Hk; assert (i = 0) as -> by lia; destruct Hk. }
    split; [ranks; (split; [exact MO|intros g []])|]. split; [reflexivity|]. split; [reflexivity|].
    ranks; (split; [split; [reflexivity|intros d [<-|[]]; exists 1; reflexivity]|unfold zlen; cbn; lia]).
  - split; [split; [reflexivity|]; ranks; reflexivity|]. intros p r q g Hr Hg. destruct p as [|[|p]]; cbn in Hr; [injection Hr as <-|injection Hr as <-|destruct p; discriminate]; destruct q; discriminate.
Qed.

(** one cell, with a period *)
Lemma self_stops :
  ~ (forall rs finc Ds rhss us us' forward, system_ok iinv rs Ds rhss -> consistent ints rs us ->
     sgs_all ints finc iinv Z.abs rs Ds rhss us false forward us = Ok (us', 0) -> all_solved ints finc rs Ds rhss us).
Proof.
  intro H. set (m := {| ncell := 1; c2f := [[0]]; faces := [{| fid := 0; fc0 := 0; fc1 := Some 0 |}] |}).
  specialize (H [{| msh := m; ghosts := [] |}] (fun _ _ x => 3 * x) [[1]] [[4]] [[4]] [[4]] true).
  assert (X : 16 = 4); [|discriminate]. refine (H _ _ _ 0%nat _ eq_refl 0 ltac:(cbn; lia)).
  - apply single_ok; [|split; [reflexivity|intros d [<-|[]]; exists 1; reflexivity]|unfold zlen; cbn; lia].
    constructor; cbn; unfold zlen; cbn; try lia; intros i k Hi Hk; assert (i = 0) as -> by lia; cbn in Hk; [lia|destruct Hk as [<-|[]]; cbn; lia].
  - split; [split; [reflexivity|]; intros [|[|p]] r Hr; cbn in Hr; try discriminate; injection Hr as <-; reflexivity|].
    intros [|[|p]] r q g Hr Hg; cbn in Hr; try discriminate; injection Hr as <-; destruct q; discriminate.
  - reflexivity.
Qed.

(** two cells, with a period *)
Definition two : mesh := {| ncell := 2; c2f := [[0; 1]; [0; 1]]; faces := [{| fid := 0; fc0 := 0; fc1 := Some 1 |}; {| fid := 1; fc0 := 0; fc1 := Some 1 |}] |}.
Definition two_jac (k : Z) (sd : bool) : Z := if sd then 0 else k + 1.
Lemma twice_wrong :
  ~ (forall m D rhs finc jac s F u tmp u' sum,
     system_ok iinv [{| msh := m; ghosts := [] |}] [D] [rhs] -> (forall k sd x, act ints (jac k sd) x = finc k sd x) ->
     no_self m -> factored ints jac iinv m D s F -> zlen u = ncell m -> zlen tmp = ncell m ->
     lu_all ints finc Z.abs [{| msh := m; ghosts := [] |}] [s] [F] [rhs] [u] [tmp] = Ok ([u'], sum) -> solves ints finc m D rhs u').
Proof.
  intro H. destruct (symbolic 2 [[1]; [0]] [] [] (-1)) as [s| |] eqn:Es; [|vm_compute in Es; discriminate|vm_compute in Es; discriminate].
  destruct (to_lu ints two_jac two s [[1]; [0]] [1; 1]) as [A| |] eqn:EA; [|vm_compute in Es; injection Es as <-; vm_compute in EA; discriminate..].
  destruct (lu_decompose Z (tsub ints) (tmul ints) iinv s {| ldu := A; isDecomposed := false |}) as [F| |] eqn:EF;
    [|vm_compute in Es; injection Es as <-; vm_compute in EA; injection EA as <-; vm_compute in EF; discriminate..].
  assert (FA : factored ints two_jac iinv two [1; 1] s F).
  { exists [[1]; [0]], [], [], (-1), A. split; [|split; [|split; [lia|split; [|auto]]]].
    - constructor; [reflexivity| |]; intros i j Hi Hj; cells i Hi; cbn in Hj; destruct Hj as [<-|[]]; cbn; auto; lia.
    - constructor; [left; auto| |]; intros v Hv; cells v Hv; cbn; lia.
    - intros i k Hi Hk N L; cells i Hi; cbn in Hk; intuition (subst; cbn in *; auto; lia). }
  specialize (H two [1; 1] [10; 1] (fun k sd x => two_jac k sd * x) two_jac s F [0; 0] [0; 0]).
  vm_compute in Es. injection Es as <-. vm_compute in EA. injection EA as <-. vm_compute in EF. injection EF as <-.
  specialize (H [8; 1] 9). assert (X : 11 = 10); [|discriminate]. refine (H _ _ _ FA eq_refl eq_refl _ 0 ltac:(cbn; lia)).
  - apply single_ok; [|split; [reflexivity|intros d Hd; cbn in Hd; exists 1; intuition (subst; reflexivity)]|unfold zlen; cbn; lia].
    constructor; cbn; unfold zlen; cbn; try lia; intros i k Hi Hk; cells i Hi; cbn in Hk; intuition (subst; cbn; lia).
  - reflexivity.
  - intros i k Hi Hk; cells i Hi; cbn in Hk; intuition (subst; cbn; discriminate).
  - vm_compute. reflexivity.
Qed.
