(** Running a sequence of operations on the modelled serializer. *)
From Coq Require Import ZArith List Bool String Ascii Arith.
From Verif Require Import Base.Prelude DNDS.JsonModel DNDS.JsonSpec.
Import ListNotations.

Section Run.
Variable T : Type.
Definition json_of (v : value T) : json T :=
  match v with VNum z => JNum z | VStr s => JStr s | VVec l => JVec l | VData l => JData l end.
(** one call of the serializer *)
Definition step (s : ser T) (o : op T) : res (ser T * answer T) :=
  match o with
  | Create p => do s' <- CreatePath s (text p); Ok (s', None)
  | GoTo p => do s' <- GoToPath s (text p); Ok (s', None)
  | Put n v => do s' <- write s n (json_of v); Ok (s', None)
  | Get KNum n => do v <- ReadNum s n; Ok (s, Some (VNum v))
  | Get KStr n => do v <- ReadStr s n; Ok (s, Some (VStr v))
  | Get KVec n => do v <- ReadVec s n; Ok (s, Some (VVec v))
  | Get KData n => do v <- ReadData s n; Ok (s, Some (VData v))
  end.
Fixpoint run (s : ser T) (ops : list (op T)) : res (ser T * list (answer T)) :=
  match ops with
  | [] => Ok (s, [])
  | o :: r => do sa <- step s o; do sl <- run (fst sa) r; Ok (fst sl, snd sa :: snd sl)
  end.

(** what is stored at a path of a document *)
Fixpoint stored (x : list string) (j : json T) : option (entry T) :=
  match x with
  | [] =>
      match j with
      | JNull => None
      | JNum z => Some (Val (VNum z)) | JStr s => Some (Val (VStr s))
      | JVec l => Some (Val (VVec l)) | JData l => Some (Val (VData l))
      | JObj _ => Some Dir
      end
  | n :: x' =>
      match j with
      | JObj f => match look n f with Some v => stored x' v | None => None end
      | _ => None
      end
  end.
End Run.
Arguments json_of {T}. Arguments step {T}. Arguments run {T}. Arguments stored {T}.
