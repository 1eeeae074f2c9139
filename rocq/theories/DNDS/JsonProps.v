(** Property theorems: C15 (paths of the JSON serializer). *)
From Coq Require Import ZArith List Bool String Ascii.
From Verif Require Import Base.Prelude DNDS.JsonModel DNDS.JsonSpec DNDS.JsonRun DNDS.JsonProofs.
Import ListNotations.
Open Scope list_scope.

Local Definition story : list (op Z) :=
  [Create (Rel "a" []); GoTo (Rel "a" []); Put "x" (VNum 7); Create (Rel "b" ["c"%string]);
   GoTo (Rel "b" ["c"%string]); Put "x" (VVec [1; 2]%Z); GoTo (Abs ["a"%string]); Get KNum "x"].

(** Every sequence of creations, moves, writes and reads does on the serializer
    what it does on a tree of directories: same answers, same current path, same
    stored values, and it stops exactly where the tree has no such directory or
    value. *)
Theorem C15_behaves_like_a_tree : forall (T : Type) (ops : list (op T)),
  (forall o, In o ops -> good_op o) ->
  match srun ([], empty_tree) ops with
  | Some (cur, t, l) =>
      exists s, run open_write ops = Ok (s, l) /\ GetCurrentPath s = slashes cur /\
        (forall x, stored x (root s) = t x)
  | None => run open_write ops = Abort
  end.
Proof. exact refines_all. Qed.
Print Assumptions C15_behaves_like_a_tree.
Example C15_behaves_like_a_tree_example :
  exists cur t, srun ([], empty_tree) story = Some (cur, t, [None; None; None; None; None; None; None; Some (VNum 7)])
    /\ cur = ["a"%string] /\ t ["a"; "b"; "c"; "x"]%string = Some (Val (VVec [1; 2]%Z)).
Proof. eexists. eexists. split; [reflexivity|]. split; reflexivity. Qed.

(** The same for the document that was written, opened again for reading. *)
Theorem C15_reopened : forall (T : Type) (ops : list (op T)) s l cur t l' ops2,
  (forall o, In o ops -> good_op o) -> (forall o, In o ops2 -> good_op o) ->
  run open_write ops = Ok (s, l) -> srun ([], empty_tree) ops = Some (cur, t, l') ->
  match srun ([], t) ops2 with
  | Some (cur2, t2, l2) => exists s2, run (open_read (root s)) ops2 = Ok (s2, l2)
  | None => run (open_read (root s)) ops2 = Abort
  end.
Proof. exact reopen_all. Qed.
Print Assumptions C15_reopened.

(** Creating a path and going to it makes it current. *)
Theorem C15_create_and_go : forall (T : Type) (ops : list (op T)) s l cur t l' p,
  (forall o, In o ops -> good_op o) -> (forall n, In n (path_names p) -> good_name n = true) ->
  run open_write ops = Ok (s, l) -> srun ([], empty_tree) ops = Some (cur, t, l') ->
  blocked t (resolve cur p) = false ->
  exists s1 s2, CreatePath s (text p) = Ok s1 /\ GetCurrentPath s1 = GetCurrentPath s /\
    GoToPath s1 (text p) = Ok s2 /\ GetCurrentPath s2 = slashes (resolve cur p).
Proof. exact create_goto_all. Qed.
Print Assumptions C15_create_and_go.

(** Going to the path reported as current changes nothing at all. *)
Theorem C15_go_to_current : forall (T : Type) (ops : list (op T)) s l cur t l',
  (forall o, In o ops -> good_op o) ->
  run open_write ops = Ok (s, l) -> srun ([], empty_tree) ops = Some (cur, t, l') ->
  t cur = Some Dir -> GoToPath s (GetCurrentPath s) = Ok s.
Proof. exact goto_current_all. Qed.
Print Assumptions C15_go_to_current.

(** Going anywhere and back to the saved path restores the serializer. *)
Theorem C15_go_and_back : forall (T : Type) (ops : list (op T)) s l cur t l' p s1,
  (forall o, In o ops -> good_op o) -> (forall n, In n (path_names p) -> good_name n = true) ->
  run open_write ops = Ok (s, l) -> srun ([], empty_tree) ops = Some (cur, t, l') ->
  t cur = Some Dir -> GoToPath s (text p) = Ok s1 -> GoToPath s1 (GetCurrentPath s) = Ok s.
Proof. exact goto_back_all. Qed.
Print Assumptions C15_go_and_back.

(** A value written under a name is read back under that name at that path,
    whatever is created, written and visited elsewhere in between. *)
Theorem C15_read_what_was_written : forall (T : Type) (ops : list (op T)) s l cur t l' n v s1 ops2 s2 l2,
  (forall o, In o ops -> good_op o) -> (forall o, In o ops2 -> good_op o) -> good_name n = true ->
  run open_write ops = Ok (s, l) -> srun ([], empty_tree) ops = Some (cur, t, l') ->
  write s n (json_of v) = Ok s1 ->
  untouched cur ops2 (cur ++ [n]) = true ->
  run s1 ops2 = Ok (s2, l2) ->
  exists s3, GoToPath s2 (GetCurrentPath s) = Ok s3 /\ GetCurrentPath s3 = GetCurrentPath s /\
    step s3 (Get (kind_of v) n) = Ok (s3, Some v).
Proof. exact write_read_all. Qed.
Print Assumptions C15_read_what_was_written.
(** the hypotheses of the last five theorems, together *)
Example C15_hypotheses_example :
  exists s l cur t s1 s2 l2,
    run (T:=Z) open_write [Create (Rel "a" []); GoTo (Rel "a" [])] = Ok (s, l) /\
    srun ([], empty_tree) [Create (Rel "a" []); GoTo (Rel "a" [])] = Some (cur, t, l) /\
    t cur = Some Dir /\ cur = ["a"%string] /\ blocked t (resolve cur (Rel "b" [])) = false /\
    write s "x" (json_of (VNum 5)) = Ok s1 /\
    untouched (T:=Z) cur [Put "y" (VNum 6); Create (Abs ["d"%string]); GoTo (Abs ["d"%string]); Put "x" (VNum 9)] (cur ++ ["x"%string]) = true /\
    run s1 [Put "y" (VNum 6); Create (Abs ["d"%string]); GoTo (Abs ["d"%string]); Put "x" (VNum 9)] = Ok (s2, l2).
Proof.
  do 7 eexists. split; [reflexivity|]. split; [reflexivity|]. split; [reflexivity|].
  split; [reflexivity|]. split; [reflexivity|]. split; [reflexivity|]. split; reflexivity.
Qed.

(** Not for every non-empty slash-free name: a tilde is taken as the start of an
    escape sequence. *)
Theorem C15_tilde_name_refuted : forall T : Type, exists n : string,
  n <> ""%string /\ free_of "/"%char n = true /\ CreatePath (@open_write T) n = Abort.
Proof. exact tilde. Qed.
Print Assumptions C15_tilde_name_refuted.
