(** Writing restart files and starting from them.

    Modelled code: src/Euler/EulerSolver.hpp 728-757 ([ReadRestart]), 760-808
    ([ReadRestartOtherSolver]), 810-839 ([PrintRestart]) with the end of
    [PrintConfig] (705-726); the names of src/Euler/EulerSolver_Init.hxx 694, 701,
    925, 933; src/DNDS/ArrayPair.hpp 140-207 ([WriteSerialize],
    [ReadSerialize]); src/DNDS/SerializerJSON.cpp 33-61 and
    src/DNDS/SerializerH5.cpp 112-120 (opening for writing empties a file);
    src/DNDS/Defines.hpp 551-556 ([sstringHasSuffix]).

    Simplified: what a serializer stores comes back as stored (C11, C15-C17), so
    a file holds fields as values; a file is named by its string; directories can
    be created and files opened for writing.  An HDF5 file is opened, filled and
    closed by all ranks together, so its writing is one sequence of acts. *)

From Coq Require Import List ZArith Bool String Ascii DecimalString Arith.
From Verif Require Import Base.Prelude.
Import ListNotations.
Local Open Scope string_scope.

(** [std::to_string] of a count *)
Definition decimal (n : nat) : string := NilEmpty.string_of_uint (Nat.to_uint n).

Fixpoint zeros (n : nat) : string :=
  match n with O => "" | S k => String "0" (zeros k) end.

(** [sprintf(BUF, "%04d", rank)] (EulerSolver.hpp 740, 775, 818) *)
Definition pad4 (r : nat) : string := zeros (4 - String.length (decimal r)) ++ decimal r.

(** [sstringHasSuffix] (Defines.hpp 551-556) *)
Definition hasSuffix (s x : string) : bool :=
  if (String.length s <? String.length x)%nat then false
  else substring (String.length s - String.length x) (String.length x) s =? x.

(** [restartWriter.type] *)
Inductive format := JSON | H5.

(** [lastRestartFile] as set by [PrintRestart] (EulerSolver.hpp 815, 820, 824, 827) *)
Definition restartName (w : format) (base : string) (n : nat) : string :=
  match w with
  | JSON => base ++ "_p" ++ decimal n ++ "_restart.dir"
  | H5 => base ++ "_p" ++ decimal n ++ ".restart.dnds.h5"
  end.

(** [outPath / (BUF + ".json")] (EulerSolver.hpp 741, 776, 819); the directory
    does not end in a separator, having the suffix [.dir] *)
Definition partName (dir : string) (r : nat) : string := dir ++ "/" ++ pad4 r ++ ".json".

(** When a restart is written (EulerSolver_Init.hxx 694, 701, 925, 933) *)
Inductive moment :=
| Step (step : nat)
| Inner (step iter : nat)
| Cover.

(** [getOutRestartName() + "_" + output_stamp + "_" + ...] *)
Definition baseName (out stamp : string) (m : moment) : string :=
  out ++ "_" ++ stamp ++ "_" ++
  match m with
  | Step k => decimal k
  | Inner k i => decimal k ++ "_" ++ decimal i
  | Cover => "C"
  end.

Section Restart.
Context {A : Type}.

(** [u] on one rank: its own rows, the rows of ghosts, [RowSize] and the global
    indices of the ghosts *)
Record field := { father : list (list A); son : list (list A); width : Z; ghost : list Z }.

(** The content of a file: emptied by opening; [MPIRank], [MPISize] and the
    field of a rank; [MPISize] and the fields of all ranks *)
Inductive file :=
| Empty
| Part (rank size : nat) (f : field)
| Whole (size : nat) (fs : list field).

(** The files, and the name of a restart in the settings last printed *)
Record disk := { files : string -> option file; recorded : option string }.

Definition write (d : disk) (x : string) (c : file) : disk :=
  {| files := fun y => if y =? x then Some c else files d y; recorded := recorded d |}.

(** [OpenFile(x, false)], [CloseFile] and [PrintConfig] *)
Inductive act :=
| Open (x : string)
| Close (x : string) (c : file)
| Record_ (x : string).

Definition perform (d : disk) (a : act) : disk :=
  match a with
  | Open x => write d x Empty
  | Close x c => write d x c
  | Record_ x => {| files := files d; recorded := Some x |}
  end.

(** [PrintRestart] on rank [r] of [n] with the writer JSON (EulerSolver.hpp
    812-821, 831-838); only rank 0 prints the settings (705) *)
Definition printPart (base : string) (n r : nat) (u : field) : list act :=
  let dir := restartName JSON base n in
  [Open (partName dir r); Close (partName dir r) (Part r n u)] ++
  (if (r =? 0)%nat then [Record_ dir] else []).

(** [PrintRestart] on all ranks with the writer H5 (EulerSolver.hpp 822-838) *)
Definition printWhole (base : string) (us : list field) : list act :=
  let x := restartName H5 base (List.length us) in
  [Open x; Close x (Whole (List.length us) us); Record_ x].

(** What each process does; with H5 the first stands for all *)
Definition printRestart (w : format) (base : string) (us : list field) : list (list act) :=
  match w with
  | JSON => map (fun ru => printPart base (List.length us) (fst ru) (snd ru))
                (combine (seq 0 (List.length us)) us)
  | H5 => [printWhole base us]
  end.

(** [ReadSerialize] (ArrayPair.hpp 182-191) after [OpenFile(x, true)]: a file
    that is absent, or is no document of the kind, throws *)
Definition readPart (d : disk) (x : string) (n r : nat) : res field :=
  match files d x with
  | Some (Part k m f) => do _ <- assert_ ((k =? r)%nat && (m =? n)%nat); Ok f
  | _ => Abort
  end.

Definition readWhole (d : disk) (x : string) (n r : nat) : res field :=
  match files d x with
  | Some (Whole m fs) =>
      do _ <- assert_ (m =? n)%nat;
      match nth_error fs r with Some f => Ok f | None => UB end
  | _ => Abort
  end.

(** [ReadRestart] on rank [r] of [n] (EulerSolver.hpp 728-757) *)
Definition readRestart (d : disk) (name : string) (n r : nat) : res field :=
  if hasSuffix name ".dir" then readPart d (partName name r) n r
  else if hasSuffix name ".dnds.h5" then readWhole d name n r
  else Abort.

(** [u[iCell](dimStore) = readBuf[iCell](dimStore)] *)
Definition storeRow (dims : list Z) (old new : list A) : res (list A) :=
  foldM (fun row k => do v <- vget new k; vset row k v) old dims.

Definition storeRows (dims : list Z) (old new : list (list A)) : res (list (list A)) :=
  mapM (fun p => storeRow dims (fst p) (snd p)) (combine old new).

(** [ReadRestartOtherSolver] (EulerSolver.hpp 760-808) *)
Definition readOther (d : disk) (name : string) (n r : nat) (dims : list Z) (u : field) : res field :=
  do b <- readRestart d name n r;
  do _ <- assert_ (List.length (father b) =? List.length (father u))%nat;
  do _ <- assert_ (List.length (son b) =? List.length (son u))%nat;
  do _ <- assert_ (forallb (fun k => k <=? Z.min (width u) (width b) - 1)%Z dims);
  do fs <- storeRows dims (father u) (father b);
  do ss <- storeRows dims (son u) (son b);
  Ok {| father := fs; son := ss; width := width u; ghost := ghost u |}.

End Restart.
Arguments field : clear implicits.
Arguments file : clear implicits.
Arguments disk : clear implicits.
Arguments act : clear implicits.
