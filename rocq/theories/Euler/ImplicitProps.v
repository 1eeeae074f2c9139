(** Property C58: the linear solvers of the implicit time stepping. *)
From Coq Require Import List ZArith Bool Lia Reals Lra.
From Verif Require Import Base.Prelude Solver.DirectModel Solver.DirectSpec Solver.LUModel Solver.LUSpec Solver.LUExamples
  Euler.ImplicitModel Euler.ImplicitSpec Euler.ImplicitProofs Euler.ImplicitRanks Euler.ImplicitLU Euler.ImplicitAll Euler.ImplicitMore Euler.ImplicitExample Euler.ImplicitRefute.
Import ListNotations.
Local Open Scope Z_scope.

(** The product with the matrix is the diagonal block times the cell's value plus what all
    neighbours send. *)
Theorem C58_matrix_vector : forall {T V : Type} (O : ops T V) finc m total D u,
  laws O -> mesh_ok m total -> zlen D = ncell m -> zlen u = total ->
  exists y, matrix_vec O finc m D u = Ok y /\ zlen y = ncell m /\
    forall i, 0 <= i < ncell m -> value O y i = row_of O finc m D u i.
Proof. intros T V O finc m total D u LW MO LD LU. exact (matrix_vec_ok O LW finc m total D u MO LD LU). Qed.
Print Assumptions C58_matrix_vector.

Definition rank0 : rank := nth 0 line {| msh := {| ncell := 0; c2f := []; faces := [] |}; ghosts := [] |}.
Example C58_line : laws blocks /\ inverts blocks binv /\ absolute blocks zabs znonneg /\ linear blocks line_inc /\
  system_ok binv line line_D line_rhs /\ consistent blocks line line_sol /\ consistent blocks line line_zero /\
  (forall p r, nth_error line p = Some r -> no_self (msh r)) /\
  all_solved blocks line_inc line line_D line_rhs line_sol /\
  matrix_vec blocks line_inc (msh rank0) (nth 0 line_D []) (nth 0 line_sol []) = Ok (nth 0 line_rhs []).
Proof.
  split; [apply blocks_laws|]. split; [apply binv_inverts|]. split; [apply zabs_absolute|]. split; [apply line_linear|]. split; [apply line_system|].
  split; [apply line_consistent; auto|]. split; [apply line_consistent; auto|]. split; [apply line_no_self|]. split; [apply line_solved|]. reflexivity.
Qed.

(** The two triangular sweeps solve (D + L) y = rhs, then (D + U) x = D y, where the ghosts
    stand in U with the values of the first sweep. *)
Theorem C58_lusgs : forall {T V : Type} (O : ops T V) finc invert rs Ds rhss us,
  laws O -> inverts O invert -> system_ok invert rs Ds rhss -> arrays_ok rs us ->
  exists ys xs, lusgs O finc invert rs Ds rhss us = Ok xs /\ consistent O rs ys /\ consistent O rs xs /\
    everywhere rs (fun p m i =>
      vadd O (act O (block O (nth p Ds []) i) (value O (nth p ys []) i)) (coupling O finc m (fun j => j <? i) (nth p ys []) i)
      = value O (nth p rhss []) i) /\
    everywhere rs (fun p m i =>
      vadd O (vadd O (act O (block O (nth p Ds []) i) (value O (nth p xs []) i))
                     (coupling O finc m (fun j => (i <? j) && (j <? ncell m)) (nth p xs []) i))
             (coupling O finc m (fun j => ncell m <=? j) (nth p ys []) i)
      = act O (block O (nth p Ds []) i) (value O (nth p ys []) i)).
Proof. intros T V O finc invert rs Ds rhss us LW INV SO AU. exact (lusgs_ok O LW finc invert INV rs Ds rhss SO us AU). Qed.
Print Assumptions C58_lusgs.

(** What the array held before does not matter. *)
Theorem C58_lusgs_fresh : forall {T V : Type} (O : ops T V) finc invert rs Ds rhss us us',
  laws O -> inverts O invert -> system_ok invert rs Ds rhss -> arrays_ok rs us -> arrays_ok rs us' ->
  lusgs O finc invert rs Ds rhss us = lusgs O finc invert rs Ds rhss us'.
Proof. intros T V O finc invert rs Ds rhss us us' LW INV SO AU AU'. exact (lusgs_fresh O LW finc invert INV rs Ds rhss SO us us' AU AU'). Qed.
Print Assumptions C58_lusgs_fresh.

(** As a preconditioner it is linear, as GMRES asks. *)
Theorem C58_lusgs_linear : forall {T V : Type} (O : ops T V) finc invert rs Ds r1 r2 r3 u1 u2 u3,
  laws O -> inverts O invert -> linear O finc ->
  system_ok invert rs Ds r1 -> system_ok invert rs Ds r2 -> system_ok invert rs Ds r3 ->
  everywhere rs (fun p _ i => value O (nth p r3 []) i = vadd O (value O (nth p r1 []) i) (value O (nth p r2 []) i)) ->
  arrays_ok rs u1 -> arrays_ok rs u2 -> arrays_ok rs u3 ->
  exists x1 x2 x3, lusgs O finc invert rs Ds r1 u1 = Ok x1 /\ lusgs O finc invert rs Ds r2 u2 = Ok x2 /\ lusgs O finc invert rs Ds r3 u3 = Ok x3 /\
    consistent O rs x3 /\
    everywhere rs (fun p _ i => value O (nth p x3 []) i = vadd O (value O (nth p x1 []) i) (value O (nth p x2 []) i)).
Proof. intros T V O finc invert rs Ds r1 r2 r3 u1 u2 u3 LW INV LIN. exact (lusgs_linear O LW finc invert INV rs Ds LIN r1 r2 r3 u1 u2 u3). Qed.
Print Assumptions C58_lusgs_linear.

Example C58_line_lusgs :
  lusgs blocks line_inc binv line line_D line_rhs line_zero = Ok [[(1, 2); (63, 4); (5, 6)]; [(5, 6); (35, 8); (63, 4)]] /\
  lusgs blocks line_inc binv line line_D line_rhs line_sol = lusgs blocks line_inc binv line line_D line_rhs line_zero /\
  lusgs blocks line_inc binv line line_D [[(10, 6); (50, 8)]; [(66, 22); (58, 16)]] line_sol = Ok [[(2, 4); (126, 8); (10, 12)]; [(10, 12); (70, 16); (126, 8)]].
Proof. repeat split; vm_compute; reflexivity. Qed.

(** A sweep in place is Gauss-Seidel: own cells that come earlier count with their new
    value, later ones and ghosts with the old one.  It leaves exactly the solutions, and the
    reported sum is zero exactly for them. *)
Theorem C58_sweep : forall {T V : Type} (O : ops T V) finc invert rs Ds rhss vabs us tmp forward nonneg,
  laws O -> inverts O invert -> system_ok invert rs Ds rhss -> consistent O rs us -> arrays_ok rs tmp -> absolute O vabs nonneg ->
  (forall p r, nth_error rs p = Some r -> no_self (msh r)) ->
  exists us' s, sgs_all O finc invert vabs rs Ds rhss us false forward tmp = Ok (us', s) /\ consistent O rs us' /\
    everywhere rs (fun p m i =>
      vadd O (act O (block O (nth p Ds []) i) (value O (nth p us' []) i))
        (vadd O (coupling O finc m (earlier m forward i) (nth p us' []) i)
                (coupling O finc m (fun j => negb (earlier m forward i j)) (nth p us []) i))
      = value O (nth p rhss []) i) /\
    (us' = us <-> all_solved O finc rs Ds rhss us) /\ (s = v0 O <-> us' = us).
Proof.
  intros T V O finc invert rs Ds rhss vabs us tmp forward nonneg LW INV SO.
  exact (sgs_fixed O LW finc invert INV rs Ds rhss SO vabs us tmp forward nonneg).
Qed.
Print Assumptions C58_sweep.

(** A sweep into a copy is Jacobi's method, and its sum compares with what the copy held. *)
Theorem C58_jacobi : forall {T V : Type} (O : ops T V) finc invert rs Ds rhss vabs us tmp forward,
  laws O -> inverts O invert -> system_ok invert rs Ds rhss -> arrays_ok rs us -> arrays_ok rs tmp ->
  exists us' s, sgs_all O finc invert vabs rs Ds rhss us true forward tmp = Ok (us', s) /\ consistent O rs us' /\
    everywhere rs (fun p m i =>
      vadd O (act O (block O (nth p Ds []) i) (value O (nth p us' []) i))
             (coupling O finc m (fun j => negb (i =? j)) (nth p us []) i)
      = value O (nth p rhss []) i) /\
    (forall nonneg, absolute O vabs nonneg ->
       (s = v0 O <-> everywhere rs (fun p _ i => value O (nth p us' []) i = value O (nth p tmp []) i))).
Proof.
  intros T V O finc invert rs Ds rhss vabs us tmp forward LW INV.
  exact (jacobi_ok O LW finc invert INV rs Ds rhss vabs us tmp forward).
Qed.
Print Assumptions C58_jacobi.

(** The forward and backward sweep together, in either way: the residual they report is zero
    exactly if the second changed nothing, which is when the first gave a solution; and a
    solution is left alone. *)
Theorem C58_precondition : forall {T V : Type} (O : ops T V) finc invert rs Ds rhss vabs nonneg us tmp jacobi,
  laws O -> inverts O invert -> system_ok invert rs Ds rhss -> consistent O rs us -> arrays_ok rs tmp -> absolute O vabs nonneg ->
  (forall p r, nth_error rs p = Some r -> no_self (msh r)) ->
  exists u1 s1 u2 s, sgs_all O finc invert vabs rs Ds rhss us jacobi true tmp = Ok (u1, s1) /\
    precondition O finc invert vabs rs Ds rhss us jacobi tmp = Ok (u2, s) /\ consistent O rs u1 /\ consistent O rs u2 /\
    (s = v0 O <-> u2 = u1) /\ (u2 = u1 <-> all_solved O finc rs Ds rhss u1) /\ (all_solved O finc rs Ds rhss us -> u2 = us).
Proof.
  intros T V O finc invert rs Ds rhss vabs nonneg us tmp jacobi LW INV.
  exact (precondition_ok O LW finc invert INV rs Ds rhss vabs nonneg us tmp jacobi).
Qed.
Print Assumptions C58_precondition.

Example C58_line_sweeps :
  sgs_all blocks line_inc binv zabs line line_D line_rhs line_zero false true line_zero
    = Ok ([[(5, -2); (19, 4); (33, -22)]; [(33, -22); (35, 8); (19, 4)]], (92, 36)) /\
  sgs_all blocks line_inc binv zabs line line_D line_rhs line_zero true true line_zero
    = Ok ([[(5, -2); (17, 4); (33, -22)]; [(33, -22); (13, 8); (17, 4)]], (68, 36)) /\
  precondition blocks line_inc binv zabs line line_D line_rhs line_zero false line_zero
    = Ok ([[(1, 2); (63, 4); (5, 6)]; [(5, 6); (35, 8); (63, 4)]], (76, 32)) /\
  precondition blocks line_inc binv zabs line line_D line_rhs line_sol true line_zero = Ok (line_sol, (0, 0)).
Proof. repeat split; vm_compute; reflexivity. Qed.

(** If a cell whose neighbours are off by at most M ends at most q * M off, then after n
    applications the error is at most q^(2n) times what it was, wherever the iteration
    starts and however the cells are split over ranks. *)
Theorem C58_converges : forall {T V : Type} (O : ops T V) finc invert rs Ds rhss nrm q vabs jacobi tmps us zs M,
  laws O -> inverts O invert -> system_ok invert rs Ds rhss -> linear O finc -> (0 <= q <= 1)%R -> contracts O finc nrm q rs Ds ->
  consistent O rs us -> (forall t, In t tmps -> arrays_ok rs t) -> (forall p r, nth_error rs p = Some r -> no_self (msh r)) ->
  consistent O rs zs -> all_solved O finc rs Ds rhss zs -> (0 <= M)%R ->
  everywhere rs (fun p _ i => (nrm (vsub O (value O (nth p us []) i) (value O (nth p zs []) i)) <= M)%R) ->
  exists us', preconditions O finc invert vabs rs Ds rhss us jacobi tmps = Ok us' /\ consistent O rs us' /\
    everywhere rs (fun p _ i => (nrm (vsub O (value O (nth p us' []) i) (value O (nth p zs []) i)) <= q ^ (2 * length tmps) * M)%R).
Proof.
  intros T V O finc invert rs Ds rhss nrm q vabs jacobi tmps us zs M LW INV SO LIN Q C.
  exact (preconditions_error O LW finc invert INV rs Ds rhss SO LIN nrm q Q C vabs jacobi tmps us zs M).
Qed.
Print Assumptions C58_converges.

Example C58_line_converges : laws reals /\ inverts reals rinv /\ system_ok rinv line line_4 line_b /\ linear reals rminus /\
  contracts reals rminus Rabs (1 / 2) line line_4 /\ consistent reals line line_one /\
  all_solved reals rminus line line_4 line_b line_one /\ consistent reals line [[9; 0; 5]; [5; -7; 0]]%R /\
  everywhere line (fun p _ i => (Rabs (vsub reals (value reals (nth p [[9; 0; 5]; [5; -7; 0]]%R []) i) (value reals (nth p line_one []) i)) <= 8)%R).
Proof.
  split; [apply reals_laws|]. split; [apply rinv_inverts|]. split; [apply line_4_system|]. split; [apply line_4_linear|]. split; [apply line_4_contracts|].
  split; [apply line_4_consistent|]. split; [apply line_4_solved|]. split; [apply line_4_consistent|].
  exact line_4_start.
Qed.

(** With the factors of the own cells' matrix every rank solves its rows, with the old
    values in the ghosts; solutions stay, and the reported sum is zero exactly for them. *)
Theorem C58_lu : forall {T V : Type} (O : ops T V) finc invert rs Ds rhss jac vabs nonneg ss Fs us tmp,
  laws O -> inverts O invert -> system_ok invert rs Ds rhss ->
  (forall k sd x, act O (jac k sd) x = finc k sd x) -> (forall d, invert d <> UB) -> length ss = length rs -> length Fs = length rs ->
  (forall p r s F, nth_error rs p = Some r -> nth_error ss p = Some s -> nth_error Fs p = Some F ->
     no_self (msh r) /\ one_face (msh r) /\ factored O jac invert (msh r) (nth p Ds []) s F) ->
  consistent O rs us -> arrays_ok rs tmp -> absolute O vabs nonneg ->
  exists us' s, lu_all O finc vabs rs ss Fs rhss us tmp = Ok (us', s) /\ consistent O rs us' /\
    everywhere rs (fun p m i =>
      vadd O (vadd O (act O (block O (nth p Ds []) i) (value O (nth p us' []) i)) (coupling O finc m (fun j => j <? ncell m) (nth p us' []) i))
             (coupling O finc m (fun j => ncell m <=? j) (nth p us []) i)
      = value O (nth p rhss []) i) /\
    (us' = us <-> all_solved O finc rs Ds rhss us) /\ (s = v0 O <-> us' = us).
Proof.
  intros T V O finc invert rs Ds rhss jac vabs nonneg ss Fs us tmp LW INV SO.
  exact (lu_all_ok O LW finc invert INV rs Ds rhss SO jac vabs nonneg ss Fs us tmp).
Qed.
Print Assumptions C58_lu.

(** On one rank that is the solution. *)
Theorem C58_lu_one_rank : forall {T V : Type} (O : ops T V) finc invert m D rhs jac vabs nonneg s F u tmp,
  laws O -> inverts O invert -> system_ok invert [{| msh := m; ghosts := [] |}] [D] [rhs] ->
  (forall k sd x, act O (jac k sd) x = finc k sd x) -> (forall d, invert d <> UB) ->
  no_self m -> one_face m -> factored O jac invert m D s F -> zlen u = ncell m -> zlen tmp = ncell m -> absolute O vabs nonneg ->
  exists u' sum, lu_all O finc vabs [{| msh := m; ghosts := [] |}] [s] [F] [rhs] [u] [tmp] = Ok ([u'], sum) /\ solves O finc m D rhs u'.
Proof.
  intros T V O finc invert m D rhs jac vabs nonneg s F u tmp LW INV SO.
  exact (lu_one_rank O LW finc invert INV m D rhs jac vabs nonneg s F u tmp SO).
Qed.
Print Assumptions C58_lu_one_rank.

Example C58_line_lu :
  (forall k sd x, act blocks (line_jac k sd) x = line_inc k sd x) /\
  (forall p r s F, nth_error line p = Some r -> nth_error [line_sym; line_sym] p = Some s -> nth_error line_factors p = Some F ->
     no_self (msh r) /\ one_face (msh r) /\ factored blocks line_jac binv (msh r) (nth p line_D []) s F) /\
  lu_all blocks line_inc zabs line [line_sym; line_sym] line_factors line_rhs line_zero line_zero
    = Ok ([[(1, 2); (15, 4); (9, 2)]; [(9, 2); (11, 8); (15, 4)]], (36, 16)) /\
  lu_all blocks line_inc zabs line [line_sym; line_sym] line_factors line_rhs line_sol line_zero = Ok (line_sol, (0, 0)).
Proof. split; [reflexivity|]. split; [exact line_factored|]. split; vm_compute; reflexivity. Qed.

(** The sweep that carries the reconstruction along is the same sweep if there is nothing to
    carry and nothing to turn. *)
Theorem C58_with_reconstruction : forall {T V : Type} (O : ops T V) finc invert vabs m D rhs forward y, laws O ->
  rec_sweep O invert vabs m finc (fun _ _ => v0 O) D rhs forward y = sgs_sweep O finc invert vabs m D rhs y true forward y.
Proof. intros T V O finc invert vabs m D rhs forward y LW. exact (rec_same O LW finc invert vabs m D rhs forward y). Qed.
Print Assumptions C58_with_reconstruction.

(** But the residual it reports differs from rank to rank: the reduced sum is never stored. *)
Theorem C58_same_residual_everywhere_refuted :
  ~ (forall rs finc0 frec Ds rhss us forward us' ss, system_ok iinv rs Ds rhss -> consistent ints rs us ->
     rec_all ints iinv Z.abs rs finc0 frec Ds rhss us forward = Ok (us', ss) ->
     forall s s', In s ss -> In s' ss -> s = s').
Proof. exact rec_sums_differ. Qed.
Print Assumptions C58_same_residual_everywhere_refuted.

(** A cell that is its own neighbour through a period: the sweeps leave the increment out,
    so they stop, with residual zero, at something that does not solve the system whose
    product C58_matrix_vector describes. *)
Theorem C58_own_neighbour_refuted :
  ~ (forall rs finc Ds rhss us us' forward, system_ok iinv rs Ds rhss -> consistent ints rs us ->
     sgs_all ints finc iinv Z.abs rs Ds rhss us false forward us = Ok (us', 0) -> all_solved ints finc rs Ds rhss us).
Proof. exact self_stops. Qed.
Print Assumptions C58_own_neighbour_refuted.

(** Two cells with two common faces, as in a mesh two cells wide with a period: the assembly
    for the factorization assigns where it should add, and the solution is wrong. *)
Theorem C58_two_common_faces_refuted :
  ~ (forall m D rhs finc jac s F u tmp u' sum,
     system_ok iinv [{| msh := m; ghosts := [] |}] [D] [rhs] -> (forall k sd x, act ints (jac k sd) x = finc k sd x) ->
     no_self m -> factored ints jac iinv m D s F -> zlen u = ncell m -> zlen tmp = ncell m ->
     lu_all ints finc Z.abs [{| msh := m; ghosts := [] |}] [s] [F] [rhs] [u] [tmp] = Ok ([u'], sum) -> solves ints finc m D rhs u').
Proof. exact twice_wrong. Qed.
Print Assumptions C58_two_common_faces_refuted.
