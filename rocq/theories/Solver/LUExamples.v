(** Blocks for the examples: 2 by 2 integer matrices acting on pairs. *)
From Coq Require Import List ZArith Lia Bool.
From Verif Require Import Base.Prelude Solver.DirectModel Solver.DirectSpec Solver.LUModel Solver.LUSpec.
Import ListNotations.
Local Open Scope Z_scope.

Definition blk : Type := Z * Z * Z * Z.
Definition bmul (x y : blk) : blk :=
  let '(a, b, c, d) := x in let '(e, f, g, h) := y in (a * e + b * g, a * f + b * h, c * e + d * g, c * f + d * h).
Definition blocks : ops blk (Z * Z) := {|
  t0 := (0, 0, 0, 0); t1 := (1, 0, 0, 1);
  tadd := fun x y => let '(a, b, c, d) := x in let '(e, f, g, h) := y in (a + e, b + f, c + g, d + h);
  topp := fun x => let '(a, b, c, d) := x in (- a, - b, - c, - d);
  tmul := bmul;
  v0 := (0, 0);
  vadd := fun x y => (fst x + fst y, snd x + snd y);
  vopp := fun x => (- fst x, - snd x);
  act := fun x v => let '(a, b, c, d) := x in (a * fst v + b * snd v, c * fst v + d * snd v)
|}.
Lemma blocks_laws : laws blocks.
Proof.
  constructor; intros; repeat match goal with x : blk |- _ => destruct x as [[[? ?] ?] ?] | x : Z * Z |- _ => destruct x end; cbv -[Z.add Z.mul Z.opp Z.sub];
    repeat match goal with |- (_, _) = (_, _) => f_equal end; ring.
Qed.
Definition bdet (x : blk) : Z := let '(a, b, c, d) := x in a * d - b * c.
(** blocks with an integer inverse *)
Definition binv (x : blk) : res blk :=
  let '(a, b, c, d) := x in let D := bdet x in
  if (D =? 1) || (D =? -1) then Ok (D * d, - D * b, - D * c, D * a) else Abort.
Lemma binv_inverts : inverts blocks binv.
Proof.
  intros [[[a b] c] d] e. unfold binv. destruct (Z.eqb_spec (bdet (a, b, c, d)) 1) as [E|]; [|destruct (Z.eqb_spec (bdet (a, b, c, d)) (-1)) as [E|]; [|discriminate]];
    cbn [orb]; rewrite E; intro H; match type of H with Ok ?x = Ok ?y => assert (H' : y = x) by congruence; clear H; subst y end; unfold bdet in E; cbv -[Z.add Z.mul Z.opp Z.sub]; split; repeat match goal with |- (_, _) = (_, _) => f_equal end; nia.
Qed.
Lemma binv_def d : binv d <> UB.
Proof. destruct d as [[[? ?] ?] ?]. unfold binv. destruct (_ || _); discriminate. Qed.
Definition btr (x : blk) : blk := let '(a, b, c, d) := x in (a, c, b, d).
Lemma btr_transposes : transposes blocks btr.
Proof.
  constructor; intros; repeat match goal with x : blk |- _ => destruct x as [[[? ?] ?] ?] end; cbv -[Z.add Z.mul Z.opp Z.sub]; auto;
    repeat match goal with |- (_, _) = (_, _) => f_equal end; ring.
Qed.

(** A ring of four cells, eliminated in the order 2, 0, 3, 1; two of the diagonal blocks are singular. *)
Definition ring4 : list (list Z) := [[1; 3]; [0; 2]; [1; 3]; [2; 0]].
Definition ring4_n2o : list Z := [2; 0; 3; 1].
Definition ring4_o2n : list Z := [1; 3; 0; 2].
Definition ring4_matrix (i j : Z) : blk :=
  match i, j with
  | 0, 0 => (1, 2, 0, 1) | 1, 1 => (0, 0, -1, 1) | 2, 2 => (2, 1, 1, 0) | 3, 3 => (1, 1, 0, 0)
  | 0, 1 => (1, 1, 0, 1) | 1, 0 => (0, 0, 1, 1) | 1, 2 => (1, -1, -1, 0) | 2, 1 => (-1, 0, 0, -1)
  | 2, 3 => (0, 0, 0, 1) | 3, 2 => (0, -1, -1, 0) | 3, 0 => (-1, 0, 1, 1) | 0, 3 => (0, 0, 1, -1)
  | _, _ => (0, 0, 0, 0)
  end.
(** the storage of a matrix *)
Definition store (s : symlu) (M : Z -> Z -> blk) : list (list blk) :=
  map (fun i => map (M i) (i :: row (lowOld s) i ++ row (uppOld s) i)) (range (Num s)).
Definition store_half (s : symlu) (M : Z -> Z -> blk) : list (list blk) :=
  map (fun i => map (M i) (i :: row (lowOld s) i)) (range (Num s)).
Definition ring4_symmetric (i j : Z) : blk :=
  match i, j with
  | 0, 0 => (2, 1, 1, 1) | 1, 1 => (0, 0, 0, 2) | 2, 2 => (2, -1, -1, 1) | 3, 3 => (2, -1, -1, 0)
  | 0, 1 => (-1, 1, 0, -1) | 1, 0 => (-1, 0, 1, -1) | 1, 2 => (1, 0, 1, 1) | 2, 1 => (1, 1, 0, 1)
  | 2, 3 => (1, -1, -1, 1) | 3, 2 => (1, -1, -1, 1) | 3, 0 => (0, -1, 0, 0) | 0, 3 => (0, 0, -1, 0)
  | _, _ => (0, 0, 0, 0)
  end.
