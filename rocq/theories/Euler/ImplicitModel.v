(** Model of the linear solvers of the implicit time stepping,
    src/Euler/EulerEvaluator.hxx 103-272 (LUSGSMatrixVec, LUSGSMatrixToJacobianLU), 276-424
    (UpdateLUSGSForward, UpdateLUSGSBackward), 427-563 (UpdateSGS), 566-668
    (UpdateSGSWithRec), 671-737 (LUSGSMatrixSolveJacobianLU), EulerJacobian.hpp 10-160
    (JacobianDiagBlock) and EulerSolver.hxx 964-981, 1491-1545 (doPrecondition).

    Blocks and cell vectors are of any types with the operations the code uses (see
    [Solver.LUSpec.ops]); rounding is not modelled.  The checks for NaN are left out.  One
    thread. *)
From Coq Require Import List ZArith Bool.
From Verif Require Import Base.Prelude Solver.DirectModel Solver.LUModel Solver.LUSpec.
Import ListNotations.
Local Open Scope Z_scope.

(** face2cell: the cell in front, and the one behind unless UnInitIndex; [fid] tells the
    faces of all ranks apart *)
Record face := { fid : Z; fc0 : Z; fc1 : option Z }.
(** the cells of a rank: own ones first, then ghosts *)
Record mesh := { ncell : Z; c2f : list (list Z); faces : list face }.

(** 149-150: the cell across the face and iCellAtFace *)
Definition across (f : face) (i : Z) : option Z * bool :=
  if fc0 f =? i then (fc1 f, false) else (Some (fc0 f), true).

Section Implicit.
  Context {T V : Type} (O : ops T V).
  (** [finc k side x]: (0.5 * alphaDiag) * area / volume times fluxJacobian0_Right_Times_du
      of [x], the neighbour's vector turned by UFromOtherCell, at the face [k] seen from its
      front cell (false) or back cell (true).  [jac k side] is the same as a block, 226-265.
      Both are parameters here. *)
  Variable finc : Z -> bool -> V -> V.
  Variable jac : Z -> bool -> T.
  (** inverse of a diagonal block, EulerJacobian.hpp 81-118 *)
  Variable invert : T -> res T.
  (** absolute values by component *)
  Variable vabs : V -> V.

  (** the loops over the faces of a cell: subtract the neighbours chosen by [sel] *)
  Definition face_loop (m : mesh) (sel : Z -> bool) (src : list V) (i : Z) (buf : V) : res V :=
    do fs <- vget (c2f m) i;
    foldM (fun buf k =>
      do f <- vget (faces m) k;
      match across f i with
      | (None, _) => Ok buf
      | (Some j, sd) => if sel j then do x <- vget src j; Ok (vsub O buf (finc (fid f) sd x)) else Ok buf
      end) buf fs.

  (** 103-201 LUSGSMatrixVec *)
  Definition matrix_vec (m : mesh) (D : list T) (u : list V) : res (list V) :=
    mapM (fun i =>
      do buf <- face_loop m (fun _ => true) u i (v0 O);
      do d <- vget D i;
      do x <- vget u i;
      Ok (vsub O (act O d x) buf)) (range (ncell m)).

  (** 276-358 UpdateLUSGSForward; [alias]: uInc and uIncNew are the same array *)
  Definition forward_cell (m : mesh) (Di : list T) (rhs u : list V) (alias : bool) (y : list V) (i : Z) : res (list V) :=
    do r <- vget rhs i;
    do buf <- face_loop m (fun j => j <? i) (if alias then y else u) i r;
    do d <- vget Di i;
    vset y i (act O d buf).
  Definition lusgs_forward (m : mesh) (D : list T) (rhs u : list V) (alias : bool) (y : list V) : res (list V) :=
    do Di <- mapM invert D;
    foldM (forward_cell m Di rhs u alias) y (range (ncell m)).

  (** 361-424 UpdateLUSGSBackward *)
  Definition backward_cell (m : mesh) (Di : list T) (u : list V) (alias : bool) (y : list V) (i : Z) : res (list V) :=
    do buf <- face_loop m (fun j => i <? j) (if alias then y else u) i (v0 O);
    do d <- vget Di i;
    do x <- vget y i;
    vset y i (vadd O x (act O d buf)).
  Definition lusgs_backward (m : mesh) (D : list T) (u : list V) (alias : bool) (y : list V) : res (list V) :=
    do Di <- mapM invert D;
    foldM (backward_cell m Di u alias) y (rev (range (ncell m))).

  (** 427-563 UpdateSGS up to the reduction: the new values and the rank's part of sumInc *)
  Definition sgs_cell (m : mesh) (Di : list T) (rhs u : list V) (alias : bool) (st : list V * V) (i : Z) : res (list V * V) :=
    let (y, s) := st in
    do r <- vget rhs i;
    do buf <- face_loop m (fun j => negb (i =? j)) (if alias then y else u) i r;
    do old <- vget y i;
    do d <- vget Di i;
    do y' <- vset y i (act O d buf);
    Ok (y', vadd O s (vabs (vsub O (act O d buf) old))).
  Definition sgs_sweep (m : mesh) (D : list T) (rhs u : list V) (alias forward : bool) (y : list V) : res (list V * V) :=
    do Di <- mapM invert D;
    foldM (sgs_cell m Di rhs u alias) (y, v0 O) (if forward then range (ncell m) else rev (range (ncell m))).

  (** 566-668 UpdateSGSWithRec: [frec k side] is the coefficient times the part of the
      reconstruction, and neither the neighbour's values nor its reconstruction are turned,
      for which [finc0] stands.  Always in place. *)
  Definition rec_loop (m : mesh) (finc0 : Z -> bool -> V -> V) (frec : Z -> bool -> V) (src : list V) (i : Z) (buf : V) : res V :=
    do fs <- vget (c2f m) i;
    foldM (fun buf k =>
      do f <- vget (faces m) k;
      match across f i with
      | (None, _) => Ok buf
      | (Some j, sd) => if negb (i =? j) then do x <- vget src j; Ok (vsub O (vsub O buf (finc0 (fid f) sd x)) (frec (fid f) sd)) else Ok buf
      end) buf fs.
  Definition rec_cell (m : mesh) finc0 frec (Di : list T) (rhs : list V) (st : list V * V) (i : Z) : res (list V * V) :=
    let (y, s) := st in
    do r <- vget rhs i;
    do buf <- rec_loop m finc0 frec y i r;
    do old <- vget y i;
    do d <- vget Di i;
    do y' <- vset y i (act O d buf);
    Ok (y', vadd O s (vabs (vsub O (act O d buf) old))).
  Definition rec_sweep (m : mesh) finc0 frec (D : list T) (rhs : list V) (forward : bool) (y : list V) : res (list V * V) :=
    do Di <- mapM invert D;
    foldM (rec_cell m finc0 frec Di rhs) (y, v0 O) (if forward then range (ncell m) else rev (range (ncell m))).

  (** 205-272 LUSGSMatrixToJacobianLU up to the decomposition.  [adj] is
      cell2cellFaceVLocal; the search keeps the last match. *)
  Definition find_last (l : list Z) (j : Z) : option nat :=
    fold_left (fun (r : option nat) (p : nat * Z) => if snd p =? j then Some (fst p) else r) (combine (seq 0 (length l)) l) None.
  Definition to_lu_face (m : mesh) (s : symlu) (adj : list (list Z)) (i : Z) (A : list (list T)) (k : Z) : res (list (list T)) :=
    do f <- vget (faces m) k;
    match across f i with
    | (None, _) => Ok A
    | (Some j, sd) =>
        if negb (j =? i) && (j <? ncell m) then
          do row <- vget adj i;
          match find_last row j with
          | None => Abort
          | Some p => do pos <- vget (rowPos s) i; do q <- vget pos (Z.of_nat p); putE T A i q (jac (fid f) sd)
          end
        else Ok A
    end.
  Definition to_lu_cell (m : mesh) (s : symlu) (adj : list (list Z)) (D : list T) (A : list (list T)) (i : Z) : res (list (list T)) :=
    do fs <- vget (c2f m) i;
    do A <- foldM (to_lu_face m s adj i) A fs;
    do d <- vget D i;
    putE T A i 0 d.
  (** EulerJacobian.hpp 185-209: the rows "diagonal, lower, upper", zeroed *)
  Definition zero_rows (s : symlu) : res (list (list T)) :=
    mapM (fun i => do l <- vget (lowOld s) i; do u <- vget (uppOld s) i; Ok (repeat (t0 O) (1 + length l + length u)))
      (range (Num s)).
  Definition to_lu (m : mesh) (s : symlu) (adj : list (list Z)) (D : list T) : res (list (list T)) :=
    do A <- zero_rows s; foldM (to_lu_cell m s adj D) A (range (ncell m)).

  (** 671-737 LUSGSMatrixSolveJacobianLU: the ghost neighbours go to the right-hand side,
      the rest is solved; [own] cells of the result, the ghosts of uIncNew stay *)
  Definition lu_rhs (m : mesh) (rhs u : list V) : res (list V) :=
    mapM (fun i => do r <- vget rhs i;
                   face_loop m (fun j => negb (i =? j) && (ncell m <=? j)) u i r) (range (ncell m)).
  Definition lu_step (m : mesh) (s : symlu) (F : mat T) (rhs u y : list V) : res (list V) :=
    do b <- lu_rhs m rhs u;
    do x <- lu_solve T V (act O) (vsub O) s F b (firstn (Z.to_nat (ncell m)) y);
    Ok (x ++ skipn (Z.to_nat (ncell m)) y).

  (** *** all ranks.  [ghosts]: where the ghosts of each rank live *)
  Record rank := { msh : mesh; ghosts : list (Z * Z) }.
  Definition pull_rank (us : list (list V)) (r : rank) (u : list V) : res (list V) :=
    do gs <- mapM (fun g => do v <- vget us (fst g); vget v (snd g)) (ghosts r);
    Ok (firstn (Z.to_nat (ncell (msh r))) u ++ gs).
  Definition pull (rs : list rank) (us : list (list V)) : res (list (list V)) :=
    mapM (fun p => pull_rank us (fst p) (snd p)) (combine rs us).

  (** EulerSolver.hxx 969-974: the symmetric Gauss-Seidel preconditioner of the two-step
      schemes; the arguments are by rank *)
  Definition lusgs (rs : list rank) (Ds : list (list T)) (rhss us : list (list V)) : res (list (list V)) :=
    do ys <- mapM (fun p => let '(r, (D, (rhs, u))) := p in lusgs_forward (msh r) D rhs u true u)
               (combine rs (combine Ds (combine rhss us)));
    do ys <- pull rs ys;
    do ys <- mapM (fun p => let '(r, (D, y)) := p in lusgs_backward (msh r) D y true y) (combine rs (combine Ds ys));
    pull rs ys.

  (** EulerSolver.hxx 1507-1516: one sweep over all ranks, in place or into a copy that is
      assigned back; sumInc is summed over the ranks *)
  Definition sgs_all (rs : list rank) (Ds : list (list T)) (rhss us : list (list V)) (jacobi forward : bool) (tmp : list (list V)) : res (list (list V) * V) :=
    do ps <- mapM (fun p => let '(r, (D, (rhs, (u, t)))) := p in
                   sgs_sweep (msh r) D rhs u (negb jacobi) forward (if jacobi then t else u))
               (combine rs (combine Ds (combine rhss (combine us tmp))));
    do ys <- pull rs (map fst ps);
    Ok (ys, fold_left (vadd O) (map snd ps) (v0 O)).

  (** EulerSolver.hxx 1508-1530 doPrecondition, jacobiCode 0 and 1: a sweep forwards and one
      backwards; sgsRes is that of the second.  (The array uTemp of the second sweep holds
      the own values of the first's result; its ghosts are never read.) *)
  Definition precondition (rs : list rank) (Ds : list (list T)) (rhss us : list (list V)) (jacobi : bool) (tmp : list (list V)) : res (list (list V) * V) :=
    do p <- sgs_all rs Ds rhss us jacobi true tmp;
    sgs_all rs Ds rhss (fst p) jacobi false (fst p).
  (** 1384-1411, 1454-1463: the preconditioner [n] times; [tmps]: what uTemp holds *)
  Fixpoint preconditions (rs : list rank) (Ds : list (list T)) (rhss us : list (list V)) (jacobi : bool) (tmps : list (list (list V))) : res (list (list V)) :=
    match tmps with
    | [] => Ok us
    | t :: tmps => do p <- precondition rs Ds rhss us jacobi t; preconditions rs Ds rhss (fst p) jacobi tmps
    end.

  (** 1531-1546, jacobiCode 2: one of the two solutions with the factors of every rank, the
      change against uInc summed by componentWiseNorm1 (Euler.hpp 222-234), the swap and the
      pull.  (What the swap leaves in uTemp is overwritten before it is read.) *)
  Definition lu_all (rs : list rank) (ss : list symlu) (Fs : list (mat T)) (rhss us tmp : list (list V)) : res (list (list V) * V) :=
    do ys <- mapM (fun p => let '(r, (s, (F, (rhs, (u, t))))) := p in lu_step (msh r) s F rhs u t)
               (combine rs (combine ss (combine Fs (combine rhss (combine us tmp)))));
    let part p := fold_left (vadd O) (map (fun q => vabs (vsub O (fst q) (snd q)))
                    (firstn (Z.to_nat (ncell (msh (fst p)))) (combine (fst (snd p)) (snd (snd p))))) (v0 O) in
    let s := fold_left (vadd O) (map part (combine rs (combine us ys))) (v0 O) in
    do ys <- pull rs ys;
    Ok (ys, s).

  (** EulerSolver.hxx 1400-1405: UpdateSGSWithRec on all ranks, with the pull; every rank
      keeps its own sum, for the reduced one stays in sumIncAll *)
  Definition rec_all (rs : list rank) finc0 frec (Ds : list (list T)) (rhss us : list (list V)) (forward : bool) : res (list (list V) * list V) :=
    do ps <- mapM (fun p => let '(r, (D, (rhs, u))) := p in rec_sweep (msh r) finc0 frec D rhs forward u)
               (combine rs (combine Ds (combine rhss us)));
    do ys <- pull rs (map fst ps);
    Ok (ys, map snd ps).
End Implicit.
