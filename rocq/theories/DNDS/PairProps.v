(** C12: a father/son pair is the concatenation of its halves. *)
From Coq Require Import ZArith List.
From Verif Require Import Base.Prelude DNDS.ArrayModel DNDS.ArraySpec DNDS.PairModel DNDS.PairSpec DNDS.PairProofs.
Import ListNotations.
Open Scope Z_scope.

(** Two arrays of any layouts, brought into any state by any history of calls
    (also sharing storage with other arrays), taken as a pair: the pair's size,
    row sizes and elements are those of the concatenated rows; any further
    sequence of assignments, row resizings and compressions through the pair
    changes exactly the addressed rows of the concatenation; the border between
    the halves stays; other arrays keep their contents; an assignment is refused
    only when the element does not exist. *)
Theorem C12_pair_is_concatenation : forall T (dflt : T) ls cs w f s pcs,
  covered_history dflt (map snew ls) cs ->
  run dflt {| hp := []; arrs := map new_arr ls |} cs = Ok w ->
  f <> s -> (f < length (arrs w))%nat -> (s < length (arrs w))%nat -> Forall psmall pcs ->
  exists fr sr, shows w f fr /\ shows w s sr /\ pair_shows w f s (fr ++ sr) /\
  match prun dflt w f s pcs with
  | Ok w' => exists fr' sr', shows w' f fr' /\ shows w' s sr' /\ length fr' = length fr /\
      pair_shows w' f s (fr' ++ sr') /\ psteps (fr ++ sr) pcs (fr' ++ sr') /\
      (forall o rows, o <> f -> o <> s -> shows w o rows -> shows w' o rows)
  | Abort => exists pcs1 c pcs2 rows, pcs = pcs1 ++ c :: pcs2 /\
      psteps (fr ++ sr) pcs1 rows /\ refusable rows c
  | UB => False
  end.
Proof. exact pair_is_concatenation. Qed.
Print Assumptions C12_pair_is_concatenation.

(** Reading through the pair is reading the concatenation. *)
Theorem C12_reads_concatenation : forall T (w : world T) f s fr sr,
  shows w f fr -> shows w s sr -> pair_shows w f s (fr ++ sr).
Proof. exact shows_pair. Qed.
Print Assumptions C12_reads_concatenation.

Example C12_example :
  exists w w', run 0 {| hp := []; arrs := map new_arr [CSR; CSR] |}
      [(0%nat, CResizeF [1; 1]%nat); (1%nat, CResize 2)] = Ok w /\
    covered_history 0 (map snew [CSR; CSR]) [(0%nat, CResizeF [1; 1]%nat); (1%nat, CResize 2)] /\
    prun 0 w 0 1 demo_calls = Ok w' /\
    pair_Size w' 0 1 = Ok 4 /\ pair_at w' 0 1 3 1 = Ok 8 /\ pair_at w' 0 1 1 0 = Ok 6 /\
    pair_RowSize w' 0 1 2 = Ok 0 /\ pair_at w' 0 1 2 0 = Abort.
Proof. exact demo_pair. Qed.
