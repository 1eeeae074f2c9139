(** C38: faces pair up the sides of cells, and one rank owns each face. *)
From Coq Require Import List ZArith.
From Verif Require Import Base.Prelude DNDS.IndexMappingModel DNDS.IndexMappingSpec DNDS.ExchangeSpec.
From Verif Require Import Geom.ElemModel Geom.AdjModel Geom.AdjSpec Geom.FaceModel Geom.FaceSpec Geom.FaceProofs.
Import ListNotations.
Local Open Scope Z_scope.

(** The sides of the cells are the [css]; if no three of them belong together, every side
    gets a face, two sides get the same face exactly when they belong together, and each
    face knows the one or two cells that have it. *)
Theorem C38_sides_pair per nNode cells css :
  mapM (sides_of per) cells = Ok css -> sides_ok per nNode css -> two_at_most per css ->
  exists fs rows, InterpolateFaces per nNode cells = Ok (fs, rows) /\ faces_spec per css fs rows.
Proof. exact (interpolate_spec per nNode cells css). Qed.
Print Assumptions C38_sides_pair.

(** A quadrangle 0 1 2 3 and a triangle 1 4 2 share the side 1 2. *)
Definition ex_cells := [{| c_type := Quad4; c_nodes := [0; 1; 2; 3]; c_bits := [] |};
                        {| c_type := Tri3; c_nodes := [1; 4; 2]; c_bits := [] |}].
Example C38_sides_pair_example :
  match InterpolateFaces false 5 ex_cells with
  | Ok (fs, rows) => rows = [[0; 1; 2; 3]; [4; 5; 1]] /\
      map (fun f => (s_nodes (f_side f), f_first f, f_second f)) fs
      = [([0; 1], 0, UnInitIndex); ([1; 2], 0, 1); ([2; 3], 0, UnInitIndex); ([3; 0], 0, UnInitIndex);
         ([1; 4], 1, UnInitIndex); ([4; 2], 1, UnInitIndex)]
  | _ => False
  end.
Proof. vm_compute. split; reflexivity. Qed.

(** Two quadrangles in a periodic row: nodes 0 and 1 stand at both ends, with bit 1 on the
    right.  The outer sides 0 1 are one face; the sides 0 2 and 2 0 have the same nodes but
    are two faces. *)
Example C38_periodic_example :
  match mapM (sides_of true) [{| c_type := Quad4; c_nodes := [0; 2; 3; 1]; c_bits := [0; 0; 0; 0] |};
                              {| c_type := Quad4; c_nodes := [2; 0; 1; 3]; c_bits := [0; 1; 1; 0] |}] with
  | Ok css => match all_cells true 4 css with
              | Ok (st, rows) => rows = [[0; 1; 2; 3]; [4; 3; 5; 1]]
              | _ => False end
  | _ => False
  end.
Proof. vm_compute. reflexivity. Qed.

(** If three sides belong together the program stops: it never returns wrong faces. *)
Theorem C38_three_sides_stop per nNode cells css :
  mapM (sides_of per) cells = Ok css -> sides_ok per nNode css -> ~ two_at_most per css ->
  InterpolateFaces per nNode cells = Abort.
Proof. exact (interpolate_three per nNode cells css). Qed.
Print Assumptions C38_three_sides_stop.

Example C38_three_sides_example :
  InterpolateFaces false 5 (map (fun n => {| c_type := Tri3; c_nodes := [0; 1; n]; c_bits := [] |}) [2; 3; 4]) = Abort.
Proof. vm_compute. reflexivity. Qed.

(** On any rank, whatever the owners of the ghost cells, the numbering succeeds and follows
    [numbers_spec]. *)
Theorem C38_numbering lens g ms r m per css fs rows :
  setMPIAlignBcast (map Z.of_nat lens) = Ok g -> mapped lens ms -> nth_error ms r = Some m ->
  (forall q, In q (ghostIndex m) -> exists s i, item_at lens q = Some (s, i) /\ s <> r) ->
  faces_spec per css fs rows -> length css = (nth r lens 0 + length (ghostIndex m))%nat ->
  exists nums send n,
    collect g m (length lens) (Z.of_nat r) (Z.of_nat (nth r lens 0%nat)) fs = Ok (nums, send, Z.of_nat n) /\
    numbers_spec lens r m fs nums send n.
Proof. exact (numbers lens g ms r m per css fs rows). Qed.
Print Assumptions C38_numbering.

(** The two cells on two ranks. *)
Definition ex_two (r : nat) (cs : list cell) :=
  match setup_pull [1; 1] [[1]; [0]] with
  | Ok (g, ms) => match nth_error ms r, InterpolateFaces false 5 cs with
                  | Some m, Ok (fs, _) => Some (collect g m 2 (Z.of_nat r) 1 fs)
                  | _, _ => None end
  | _ => None
  end.
Example C38_numbering_example :
  ex_two 0 ex_cells
  = Some (Ok ([0; 1; 2; 3; UnInitIndex; UnInitIndex], [[]; [1]], 4)) /\
  ex_two 1 (rev ex_cells)
  = Some (Ok ([0; 1; -1; UnInitIndex; UnInitIndex; UnInitIndex], [[]; []], 2)).
Proof. vm_compute. split; reflexivity. Qed.

(** A face between two ranks is numbered by the lower and by it alone. *)
Theorem C38_lower_rank_owns lens r r' m m' fs fs' nums nums' send send' n n' i j f f' k k' :
  numbers_spec lens r m fs nums send n -> numbers_spec lens r' m' fs' nums' send' n' -> (r < r')%nat ->
  nth_error fs i = Some f -> nth_error nums i = Some k -> between lens r m r' f ->
  nth_error fs' j = Some f' -> nth_error nums' j = Some k' -> between lens r' m' r f' ->
  0 <= k /\ k' = -1.
Proof. exact (one_owner lens r r' m m' fs fs' nums nums' send send' n n' i j f f' k k'). Qed.
Print Assumptions C38_lower_rank_owns.

(** The faces that have a number are kept, each at the place of its number, and the cells
    then name the faces by these numbers. *)
Theorem C38_numbered_faces_kept lens r m fs nums send n : numbers_spec lens r m fs nums send n ->
  length (kept_faces nums fs) = n /\
  forall i f k, nth_error fs i = Some f -> nth_error nums i = Some k -> 0 <= k ->
    nth_error (kept_faces nums fs) (Z.to_nat k) = Some f.
Proof. exact (kept_spec lens r m fs nums send n). Qed.
Print Assumptions C38_numbered_faces_kept.

Theorem C38_cells_renumbered per css fs rows lens r m nums send n :
  faces_spec per css fs rows -> numbers_spec lens r m fs nums send n ->
  exists rows', renumber nums rows = Ok rows' /\ map (@length Z) rows' = map (@length Z) rows /\
    forall c k f, at_ rows c k f -> exists f', at_ rows' c k f' /\ nth_error nums (Z.to_nat f) = Some f'.
Proof. exact (renumber_spec per css fs rows lens r m nums send n). Qed.
Print Assumptions C38_cells_renumbered.

Example C38_kept_example :
  match InterpolateFaces false 5 (rev ex_cells) with
  | Ok (fs, rows) =>
      map (fun f => s_nodes (f_side f)) (kept_faces [0; 1; -1; UnInitIndex; UnInitIndex; UnInitIndex] fs) = [[1; 4]; [4; 2]] /\
      renumber [0; 1; -1; UnInitIndex; UnInitIndex; UnInitIndex] rows
      = Ok [[0; 1; -1]; [UnInitIndex; -1; UnInitIndex; UnInitIndex]]
  | _ => False end.
Proof. vm_compute. split; reflexivity. Qed.
