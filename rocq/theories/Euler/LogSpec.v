(** What a reader of the two logs relies on. *)

From Coq Require Import List ZArith Bool String Ascii.
From Verif Require Import Base.Prelude Euler.LogModel.
Import ListNotations.
Local Open Scope Z_scope.
Local Open Scope string_scope.

(** ** Reading a table *)

(** The pieces of a text between the occurrences of a character. *)
Fixpoint split (c : ascii) (s : string) : list string :=
  match s with
  | "" => [""]
  | String a s =>
    if Ascii.eqb a c then "" :: split c s
    else match split c s with
         | [] => [String a ""]
         | x :: l => String a x :: l
         end
  end.

Definition comma : ascii := ",".
Definition newline : ascii := ascii_of_nat 10.

(** One space in front of a field is skipped. *)
Definition trim (s : string) : string :=
  match s with
  | String " " s => s
  | _ => s
  end.

(** The rows of a text in which every line is ended. *)
Definition rows (s : string) : option (list (list string)) :=
  match rev (split newline s) with
  | "" :: l => Some (map (split comma) (rev l))
  | _ => None
  end.

(** No separator occurs. *)
Fixpoint plain (s : string) : Prop :=
  match s with
  | "" => True
  | String a s => a <> comma /\ a <> newline /\ plain s
  end.

Section Spec.
Context (F : floats).

(** The text of a floating-point number holds no separator. *)
Definition legible : Prop := forall p d, plain (show F p d).

(** ** The convergence log *)

(** The numbers that have a name of their own. *)
Definition scalars : list string :=
  ["step"; "iStep"; "iterAll"; "iter"; "tSimu"; "curDtImplicit"; "curDtMin"; "CFLNow"; "nLimInc"; "alphaMinInc";
   "nLimBeta"; "minBeta"; "nLimAlpha"; "minAlpha"; "tWall"; "telapsed"; "trec"; "trhs"; "tcomm"; "tLim"; "tLimiterA";
   "tLimiterB"; "CL"; "CD"; "AoA"].

(** A vector asked for by its name gets one column for each of its entries. *)
Definition columns (n : nat) (ts : list string) : list string :=
  flat_map (fun t => if (t =? "res") || (t =? "fluxWall")
                     then map (fun i => t ++ decimal (Z.of_nat i)) (seq 0 n) else [t]) ts.

Definition moment_of (e : event F) : moment F := match e with Inner q => q | Step q => q end.

(** Component [i] of the vector called [k]. *)
Definition component (q : moment F) (t : string) (d : num F) : Prop :=
  exists i, (t = "res" ++ decimal (Z.of_nat i) /\ nth_error (resid F q) i = Some d)
         \/ (t = "fluxWall" ++ decimal (Z.of_nat i) /\ nth_error (wall F q) i = Some d).

(** [e] writes its line after the lines [past]; the column called [t] is about
    the number [a].  In the lines of time steps there is no stage and no inner
    iteration, so they show -1, and the count of all iterations is the one of
    the last line of an inner iteration.  What the solver does not know is 0. *)
Inductive about (past : list (event F)) : event F -> string -> arg F -> Prop :=
| about_inner : forall q t, In t scalars -> about past (Inner q) t (scalar F q t)
| about_step : forall q t, In t scalars -> t <> "iStep" -> t <> "iter" -> t <> "iterAll" ->
    about past (Step q) t (scalar F q t)
| about_none : forall q t, t = "iStep" \/ t = "iter" -> about past (Step q) t (AInt (-1))
| about_count : forall q q0 p1 p2, past = (p1 ++ Inner q0 :: p2)%list ->
    (forall e, In e p2 -> exists q, e = Step q) -> about past (Step q) "iterAll" (scalar F q0 "iterAll")
| about_zero : forall q, (forall e, In e past -> exists q, e = Step q) ->
    about past (Step q) "iterAll" (ANum (zero F))
| about_component : forall e t d, component (moment_of e) t d -> about past e t (ANum d)
| about_unknown : forall e t, ~ In t scalars -> (forall d, ~ component (moment_of e) t d) ->
    about past e t (ANum (zero F)).

(** An integer is written in decimal digits, another number at the precision. *)
Definition written (p : Z) (a : arg F) : string :=
  match a with AInt z => decimal z | ANum d => show F p d end.

(** A moment of a run with [n] variables; the smallest 64-bit integer marks the
    absence of an integer and is not a number of the run. *)
Definition proper (n : nat) (e : event F) : Prop :=
  List.length (resid F (moment_of e)) = n /\ List.length (wall F (moment_of e)) = n
  /\ forall t, In t scalars -> scalar F (moment_of e) t <> AInt int64_min.

(** Row by row and column by column. *)
Definition row_of (p : Z) (cols : list string) (past : list (event F)) (e : event F) (r : list string) : Prop :=
  Forall2 (fun t s => exists a, about past e t a /\ s = written p a) cols r.

Definition rows_of (p : Z) (cols : list string) (es : list (event F)) (rs : list (list string)) : Prop :=
  List.length rs = List.length es
  /\ forall i e r, nth_error es i = Some e -> nth_error rs i = Some r -> row_of p cols (firstn i es) e r.

(** ** The integrals *)

(** The calls that concern one boundary, in order. *)
Definition calls_of (k : Z) (cs : list (Z * Z * Z * list (integral F))) : list (Z * Z * Z * integral F) :=
  flat_map (fun c => map (fun b => (fst c, b)) (filter (fun b => Z.eqb (bid F b) k) (snd c))) cs.

(** The numbers shown for a boundary: with option 2 the two extra ones are
    divided by the weight. *)
Definition shown (n : nat) (b : integral F) (v : list (num F)) : Prop :=
  List.length v = List.length (sums F b)
  /\ forall i x, nth_error (sums F b) i = Some x ->
     nth_error v i = Some (if (opt F b =? 2)%Z && ((i =? n)%nat || (i =? S n)%nat) then over F x (weight F b) else x).

Definition integral_row (n : nat) (c : Z * Z * Z * integral F) (r : list string) : Prop :=
  let '(step, stage, iter, b) := c in
  exists v, shown n b v
    /\ map trim r = decimal step :: decimal stage :: decimal iter :: map (show F 16) v.

(** Each boundary has a fixed number of entries, two more than there are
    variables for option 2. *)
Definition sized (n : nat) (size : Z -> nat) (b : integral F) : Prop :=
  List.length (sums F b) = size (bid F b) /\ (opt F b = 2 -> (n + 2 <= size (bid F b))%nat).

End Spec.
