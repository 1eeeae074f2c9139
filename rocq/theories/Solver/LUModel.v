(** Model of the numerical factorizations in src/Solver/Direct.hpp, with the storage of
    src/Euler/EulerJacobian.hpp 167-263 (LU) and 265-350 (LDLT): one row of blocks per cell,
    "diagonal, lower entries, upper entries".

    Blocks and vector components are of any types with the operations the code uses; rounding is
    not modelled.  [invert] is InvertDiag, which asserts that its argument can be inverted. *)
From Coq Require Import List ZArith Bool.
From Verif Require Import Base.Prelude DNDS.DefinesModel Solver.DirectModel.
Import ListNotations.
Local Open Scope Z_scope.

Section Num.
Variables T V : Type.
Variables (tsub tmul : T -> T -> T) (ttr : T -> T) (act : T -> V -> V) (vadd vsub : V -> V -> V).
Variable invert : T -> res T.

Record mat := { ldu : list (list T); isDecomposed : bool }.

(** EulerJacobian.hpp 215-226, 313-320 *)
Definition getE (A : list (list T)) (i p : Z) : res T := do r <- vget A i; vget r p.
Definition putE (A : list (list T)) (i p : Z) (x : T) : res (list (list T)) :=
  do r <- vget A i; do r' <- vset r p x; vset A i r'.
Definition upper_off (s : symlu) (i : Z) : res Z := do l <- vget (lowOld s) i; Ok (1 + zlen l).

(** a[i, p] -= b * c *)
Definition subE (A : list (list T)) (i p : Z) (x : T) : res (list (list T)) :=
  do a <- getE A i p; putE A i p (tsub a x).

(** ** LocalLUBase *)
(** 300-314: one common column of the rows [iP] and [jP]; [dst] is the position changed in row [i] *)
Definition lu_common (s : symlu) (i jP dst bound : Z) (A : res (list (list T))) (kP : Z) (pos1 pos2 : nat) : res (list (list T)) * bool :=
  if bound <=? kP then (A, true)
  else
    (do A <- A;
     do _ <- assert_ (kP <? Num s);
     do k <- reorder (new2old s) kP;
     do r <- vget (lowInUpp s) jP;
     do q <- vget r (Z.of_nat pos2);
     if q =? -1 then Ok A
     else
       do off <- upper_off s k;
       do l <- getE A i (1 + Z.of_nat pos1);
       do u <- getE A k (off + q);
       subE A i dst (tmul l u), false).

(** 288-321: lower part, entry [ijP] *)
Definition lu_lower (s : symlu) (iP i : Z) (lowerRow : list Z) (A : list (list T)) (ijP : Z) : res (list (list T)) :=
  do jP <- vget lowerRow ijP;
  do _ <- assert_ (jP <? iP);
  do j <- reorder (new2old s) jP;
  do A <- (if 0 <? ijP then
             do lowerRowJP <- vget (lowNew s) jP;
             snd (iterateIdentical (lu_common s i jP (1 + ijP) jP) lowerRow lowerRowJP (Ok A))
           else Ok A);
  do a <- getE A i (1 + ijP);
  do d <- getE A j 0;
  putE A i (1 + ijP) (tmul a d).

(** 324-332: diagonal part, entry [ikP] *)
Definition lu_diag (s : symlu) (iP i : Z) (lowerRow : list Z) (A : list (list T)) (ikP : Z) : res (list (list T)) :=
  do kP <- vget lowerRow ikP;
  do k <- reorder (new2old s) kP;
  do r <- vget (lowInUpp s) iP;
  do q <- vget r ikP;
  if q =? -1 then Ok A
  else
    do off <- upper_off s k;
    do l <- getE A i (1 + ikP);
    do u <- getE A k (off + q);
    subE A i 0 (tmul l u).

(** 338-363: upper part, entry [ijP] *)
Definition lu_upper (s : symlu) (iP i : Z) (lowerRow upperRow : list Z) (A : list (list T)) (ijP : Z) : res (list (list T)) :=
  do jP <- vget upperRow ijP;
  do _ <- assert_ (iP <? jP);
  do lowerRowJP <- vget (lowNew s) jP;
  do off <- upper_off s i;
  snd (iterateIdentical (lu_common s i jP (off + ijP) iP) lowerRow lowerRowJP (Ok A)).

(** 282-364: row [iP] *)
Definition lu_row (s : symlu) (A : list (list T)) (iP : Z) : res (list (list T)) :=
  do i <- reorder (new2old s) iP;
  do lowerRow <- vget (lowNew s) iP;
  do A <- foldM (lu_lower s iP i lowerRow) A (range (zlen lowerRow));
  do A <- foldM (lu_diag s iP i lowerRow) A (range (zlen lowerRow));
  do d <- getE A i 0;
  do e <- invert d;
  do A <- putE A i 0 e;
  do upperRow <- vget (uppNew s) iP;
  foldM (lu_upper s iP i lowerRow upperRow) A (range (zlen upperRow)).

(** 279-366 InPlaceDecomposeV1, called by InPlaceDecompose 274-277 *)
Definition lu_decompose (s : symlu) (M : mat) : res mat :=
  do A <- foldM (lu_row s) (ldu M) (range (Num s));
  Ok {| ldu := A; isDecomposed := true |}.

(** result[i] += a * x[j] and result[i] -= a * x[j] *)
Definition acc (op : V -> V -> V) (y : list V) (i : Z) (a : T) (x : list V) (j : Z) : res (list V) :=
  do yi <- vget y i; do xj <- vget x j; vset y i (op yi (act a xj)).

(** 431-443 MatMul *)
Definition lu_mul_row (s : symlu) (A : list (list T)) (x : list V) (y : list V) (i : Z) : res (list V) :=
  do d <- getE A i 0;
  do xi <- vget x i;
  do y <- vset y i (act d xi);
  do low <- vget (lowOld s) i;
  do y <- foldM (fun y ij => do a <- getE A i (1 + ij); do j <- vget low ij; acc vadd y i a x j) y (range (zlen low));
  do upp <- vget (uppOld s) i;
  do off <- upper_off s i;
  foldM (fun y ij => do a <- getE A i (off + ij); do j <- vget upp ij; acc vadd y i a x j) y (range (zlen upp)).
Definition lu_mul (s : symlu) (M : mat) (x y : list V) : res (list V) :=
  do _ <- assert_ (negb (isDecomposed M));
  foldM (lu_mul_row s (ldu M) x) y (range (Num s)).

(** 449-459 forward substitution, row [iP] *)
Definition forward_row (s : symlu) (A : list (list T)) (b : list V) (y : list V) (iP : Z) : res (list V) :=
  do i <- reorder (new2old s) iP;
  do bi <- vget b i;
  do y <- vset y i bi;
  do low <- vget (lowOld s) i;
  foldM (fun y ij => do a <- getE A i (1 + ij); do j <- vget low ij; acc vsub y i a y j) y (range (zlen low)).
(** 460-472 backward substitution, row [iP] *)
Definition lu_backward_row (s : symlu) (A : list (list T)) (y : list V) (iP : Z) : res (list V) :=
  do i <- reorder (new2old s) iP;
  do upp <- vget (uppOld s) i;
  do off <- upper_off s i;
  do y <- foldM (fun y ij => do a <- getE A i (off + ij); do j <- vget upp ij; acc vsub y i a y j) y (range (zlen upp));
  do d <- getE A i 0;
  do yi <- vget y i;
  vset y i (act d yi).
(** 445-473 Solve *)
Definition lu_solve (s : symlu) (M : mat) (b y : list V) : res (list V) :=
  do _ <- assert_ (isDecomposed M);
  do y <- foldM (forward_row s (ldu M) b) y (range (Num s));
  foldM (lu_backward_row s (ldu M)) y (rev (range (Num s))).

(** ** LocalLDLTBase; [dn] is diagNoInv *)
(** 515-523 *)
Definition ldlt_common (s : symlu) (i j jP dst : Z) (dn : list T) (A : res (list (list T))) (kP : Z) (pos1 pos2 : nat) : res (list (list T)) * bool :=
  if jP <=? kP then (A, true)
  else
    (do A <- A;
     do _ <- assert_ (kP <? Num s);
     do k <- reorder (new2old s) kP;
     do a <- getE A i (1 + Z.of_nat pos1);
     do d <- vget dn k;
     do b <- getE A j (1 + Z.of_nat pos2);
     subE A i dst (tmul (tmul a d) (ttr b)), false).
(** 502-531 *)
Definition ldlt_lower (s : symlu) (iP i : Z) (lowerRow : list Z) (dn : list T) (A : list (list T)) (ijP : Z) : res (list (list T)) :=
  do jP <- vget lowerRow ijP;
  do _ <- assert_ (jP <? iP);
  do j <- reorder (new2old s) jP;
  do A <- (if 0 <? ijP then
             do lowerRowJP <- vget (lowNew s) jP;
             snd (iterateIdentical (ldlt_common s i j jP (1 + ijP) dn) lowerRow lowerRowJP (Ok A))
           else Ok A);
  do a <- getE A i (1 + ijP);
  do d <- getE A j 0;
  putE A i (1 + ijP) (tmul a d).
(** 534-539 *)
Definition ldlt_diag (s : symlu) (i : Z) (lowerRow : list Z) (dn : list T) (A : list (list T)) (ikP : Z) : res (list (list T)) :=
  do kP <- vget lowerRow ikP;
  do k <- reorder (new2old s) kP;
  do a <- getE A i (1 + ikP);
  do d <- vget dn k;
  subE A i 0 (tmul (tmul a d) (ttr a)).
(** 496-542 *)
Definition ldlt_row (s : symlu) (st : list (list T) * list T) (iP : Z) : res (list (list T) * list T) :=
  let (A, dn) := st in
  do i <- reorder (new2old s) iP;
  do lowerRow <- vget (lowNew s) iP;
  do A <- foldM (ldlt_lower s iP i lowerRow dn) A (range (zlen lowerRow));
  do A <- foldM (ldlt_diag s i lowerRow dn) A (range (zlen lowerRow));
  do d <- getE A i 0;
  do dn <- vset dn i d;
  do e <- invert d;
  do A <- putE A i 0 e;
  Ok (A, dn).
(** 492-544 InPlaceDecompose; [junk] stands for the blocks diagNoInv starts with *)
Definition ldlt_decompose (junk : T) (s : symlu) (M : mat) : res mat :=
  do st <- foldM (ldlt_row s) (ldu M, repeat junk (Z.to_nat (Num s))) (range (Num s));
  Ok {| ldu := fst st; isDecomposed := true |}.

(** 546-561 MatMul *)
Definition ldlt_mul_row (s : symlu) (A : list (list T)) (x : list V) (y : list V) (i : Z) : res (list V) :=
  do d <- getE A i 0;
  do xi <- vget x i;
  do y <- vset y i (act d xi);
  do low <- vget (lowOld s) i;
  foldM (fun y ij => do a <- getE A i (1 + ij); do j <- vget low ij; acc vadd y i a x j) y (range (zlen low)).
Definition ldlt_mul_col (s : symlu) (A : list (list T)) (x : list V) (y : list V) (i : Z) : res (list V) :=
  do low <- vget (lowOld s) i;
  foldM (fun y ij => do a <- getE A i (1 + ij); do j <- vget low ij; acc vadd y j (ttr a) x i) y (range (zlen low)).
Definition ldlt_mul (s : symlu) (M : mat) (x y : list V) : res (list V) :=
  do _ <- assert_ (negb (isDecomposed M));
  do y <- foldM (ldlt_mul_row s (ldu M) x) y (range (Num s));
  foldM (ldlt_mul_col s (ldu M) x) y (range (Num s)).

(** 578-581 *)
Definition ldlt_scale_row (A : list (list T)) (y : list V) (i : Z) : res (list V) :=
  do d <- getE A i 0; do yi <- vget y i; vset y i (act d yi).
(** 582-594 *)
Definition ldlt_backward_row (s : symlu) (A : list (list T)) (y : list V) (iP : Z) : res (list V) :=
  do i <- reorder (new2old s) iP;
  do upp <- vget (uppNew s) iP;
  do back <- vget (uppInLow s) iP;
  foldM (fun y ij =>
    do jP <- vget upp ij;
    do j <- reorder (new2old s) jP;
    do ji <- vget back ij;
    do _ <- assert_ (negb (ji =? -1));
    do a <- getE A j (1 + ji);
    acc vsub y i (ttr a) y j) y (range (zlen upp)).
(** 563-595 Solve *)
Definition ldlt_solve (s : symlu) (M : mat) (b y : list V) : res (list V) :=
  do _ <- assert_ (isDecomposed M);
  do y <- foldM (forward_row s (ldu M) b) y (range (Num s));
  do y <- foldM (ldlt_scale_row (ldu M)) y (range (Num s));
  foldM (ldlt_backward_row s (ldu M)) y (rev (range (Num s))).
End Num.
Arguments ldu {T}.
Arguments isDecomposed {T}.
Arguments Build_mat {T}.
