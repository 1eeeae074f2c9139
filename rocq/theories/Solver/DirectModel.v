(** Model of the symbolic factorization in src/Solver/Direct.hpp.

    Index vectors are lists of integers, unordered sets are lists without repetition in order of
    insertion; the code's results do not depend on the order in which a set is walked through, since
    every set is sorted before use.  The log output and the barrier (178-188) are left out. *)
From Coq Require Import List ZArith Bool.
From Verif Require Import Base.Prelude.
Import ListNotations.
Local Open Scope Z_scope.

Definition range (n : Z) : list Z := map Z.of_nat (seq 0 (Z.to_nat n)).
Definition member (x : Z) (s : list Z) : bool := existsb (Z.eqb x) s.
(** std::unordered_set::insert, and erase *)
Definition sins (s : list Z) (x : Z) : list Z := if member x s then s else s ++ [x].
Definition serase (s : list Z) (x : Z) : list Z := filter (fun y => negb (Z.eqb y x)) s.
(** a change of one row *)
Definition vmod {A} (l : list A) (i : Z) (f : A -> A) : res (list A) := do r <- vget l i; vset l i (f r).

(** 42-61 SerialSymLUStructure *)
Record symlu := {
  Num : Z;
  old2new : list Z; new2old : list Z;
  lowOld : list (list Z); uppOld : list (list Z);
  lowNew : list (list Z); uppNew : list (list Z);
  lowInUpp : list (list Z); uppInLow : list (list Z);
  rowPos : list (list Z)
}.

(** 61-68 FillingReorderOld2New, FillingReorderNew2Old *)
Definition reorder (l : list Z) (v : Z) : res Z := match l with [] => Ok v | _ => vget l v end.

(** 92-100: one round of the expansion of the stencil *)
Definition enlarge_cell (adj : list (list Z)) (e : list (list Z)) (i : Z) : res (list (list Z)) :=
  do row <- vget e i;
  do new <- foldM (fun s c => do r <- vget adj c; Ok (fold_left sins r s)) [] row;
  vset e i (fold_left sins new row).
(** 82-104 *)
Definition enlarge (n : Z) (adj : list (list Z)) (iluCode : Z) : res (list (list Z)) :=
  if 0 <? iluCode then
    do _ <- assert_ (iluCode <=? 5);
    do e0 <- mapM (fun i => do r <- vget adj i; Ok (fold_left sins r [])) (range n);
    do e <- foldM (fun e _ => foldM (enlarge_cell adj) e (range n)) e0 (range iluCode);
    foldM (fun e i => vmod e i (fun s => serase s i)) e (range n)
  else Ok [].

(** 114-124: the columns of the permuted matrix, diagonal included *)
Definition columns (n : Z) (adj : list (list Z)) (o2n n2o : list Z) : res (list (list Z)) :=
  mapM (fun iP =>
    do i <- reorder n2o iP;
    do r <- vget adj i;
    do rP <- mapM (reorder o2n) r;
    Ok (fold_left sins rP [iP])) (range n).

(** 138: is the entry kept *)
Definition keep (iluCode : Z) (enl : list (list Z)) (other otherOther : Z) : res bool :=
  if iluCode <? 0 then Ok true
  else if 0 <? iluCode then do s <- vget enl other; Ok (member otherOther s)
  else Ok false.

(** 132-143 *)
Definition fill_row (iluCode : Z) (enl : list (list Z)) (n2o : list Z) (row : list Z) (p other : Z)
    (mid : list (list Z)) : res (list (list Z)) :=
  foldM (fun mid q =>
    if p <? q then
      do oo <- reorder n2o q;
      do yes <- keep iluCode enl other oo;
      if yes : bool then
        do m1 <- vmod mid q (fun s => sins s p);
        vmod m1 p (fun s => sins s q)
      else Ok mid
    else Ok mid) mid row.
(** 126-147: one column.  The set walked through, that of column [k], is not changed meanwhile:
    the rows changed are those of [p] and [q], both beyond [k]. *)
Definition fill_column (iluCode : Z) (enl : list (list Z)) (n2o : list Z)
    (st : list (list Z) * list (list Z) * list (list Z)) (k : Z) : res (list (list Z) * list (list Z) * list (list Z)) :=
  do row <- vget (fst (fst st)) k;
  foldM (fun st p =>
    if k <? p then
      do other <- reorder n2o p;
      do mid <- fill_row iluCode enl n2o row p other (fst (fst st));
      do low <- vmod (snd (fst st)) p (fun s => sins s k);
      do upp <- vmod (snd st) k (fun s => sins s p);
      Ok (mid, low, upp)
    else Ok st) st row.

(** 154-177: the rows for the old numbering, and the numbers of entries *)
Definition old_rows (n : Z) (n2o : list Z) (rows : list (list Z)) : res (list (list Z) * Z) :=
  foldM (fun st iP =>
    do i <- reorder n2o iP;
    do r <- vget rows iP;
    do rO <- mapM (reorder n2o) r;
    do old <- vget (fst st) i;
    do st' <- vset (fst st) i (old ++ rO);
    Ok (st', snd st + zlen (old ++ rO))) (repeat [] (Z.to_nat n), 0) (range n).

(** 192-207 and 210-225: where row [iP] stands in the rows it refers to *)
Definition cross (n : Z) (rows others : list (list Z)) : res (list (list Z)) :=
  mapM (fun iP =>
    do r <- vget rows iP;
    mapM (fun jP =>
      do o <- vget others jP;
      let ret := lb_lt o iP in
      Ok (if Nat.ltb ret (length o) then Z.of_nat ret else -1)) r) (range n).

(** 227-253 cell2cellFaceVLocal2FullRowPos *)
Definition full_row_pos (n : Z) (adj : list (list Z)) (o2n : list Z) (low upp : list (list Z)) : res (list (list Z)) :=
  mapM (fun i =>
    do iP <- reorder o2n i;
    do r <- vget adj i;
    mapM (fun j =>
      do jP <- reorder o2n j;
      if jP <? iP then
        do row <- vget low iP;
        let ret := lb_lt row jP in
        do _ <- assert_ (Nat.ltb ret (length row));
        Ok (Z.of_nat ret + 1)
      else if iP <? jP then
        do row <- vget upp iP;
        let ret := lb_lt row jP in
        do _ <- assert_ (Nat.ltb ret (length row));
        do l <- vget low iP;
        Ok (Z.of_nat ret + zlen l + 1)
      else Ok (-1)) r) (range n).

(** 77-254 ObtainSymmetricSymbolicFactorization *)
Definition symbolic (n : Z) (adj : list (list Z)) (o2n n2o : list Z) (iluCode : Z) : res symlu :=
  do enl <- enlarge n adj iluCode;
  do mid <- columns n adj o2n n2o;
  let none := repeat [] (Z.to_nat n) in
  do st <- foldM (fill_column iluCode enl n2o) (mid, none, none) (range n);
  let low := map zsort (snd (fst st)) in
  let upp := map zsort (snd st) in
  do lo <- old_rows n n2o low;
  do uo <- old_rows n n2o upp;
  do _ <- assert_ (snd lo =? snd uo);
  do liu <- cross n low upp;
  do uil <- cross n upp low;
  do pos <- full_row_pos n adj o2n low upp;
  Ok {| Num := n; old2new := o2n; new2old := n2o; lowOld := fst lo; uppOld := fst uo;
        lowNew := low; uppNew := upp; lowInUpp := liu; uppInLow := uil; rowPos := pos |}.

(** 30-35 getOrderingCode; INT32_MIN stands for "decide" *)
Definition getOrderingCode (iluCode orderingCode : Z) : Z :=
  if orderingCode =? int32_min then (if iluCode =? -1 then 2 else 0) else orderingCode.
