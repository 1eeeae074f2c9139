(** C71: the text files of an OpenFOAM mesh are read as written. *)

From Coq Require Import List ZArith Bool Ascii String Lia.
From Verif Require Import Geom.FoamTextModel Geom.FoamTextSpec Geom.FoamTextProofs Geom.FoamTextBoundary Geom.FoamTextOver Geom.FoamTextExample Geom.FoamTextRefute.
Import ListNotations.
Local Open Scope Z_scope.

(** The owner and neighbour files: where the count is right, the labels. *)
Theorem C71_labels : forall n l text, label_file n l text -> Z.of_nat (List.length l) = n ->
  ReadLabels text = Got l.
Proof. exact labels_all. Qed.
Print Assumptions C71_labels.

Example C71_labels_case : label_file 3 [10; 20; 30] (labels_text "3").
Proof. apply (labels_file "3"); try reflexivity; discriminate. Qed.

(** The faces. *)
Theorem C71_faces : forall n l text, face_file n l text -> Z.of_nat (List.length l) = n ->
  ReadFaces text = Got l.
Proof. exact faces_all. Qed.
Print Assumptions C71_faces.

Example C71_faces_case : face_file 2 [[0; 1; 2]; [3; 4; 5; 6]] (faces_text "3").
Proof. apply (faces_file "3"); try reflexivity; discriminate. Qed.

(** The points, given that the library reads numbers as written. *)
Theorem C71_points : forall real (zero : real) readReal real_text real_delim,
  reads_real real readReal real_text real_delim ->
  forall n l text, point_file real real_text real_delim n l text -> Z.of_nat (List.length l) = n ->
  ReadPoints real zero readReal text = Got l.
Proof. exact points_all. Qed.
Print Assumptions C71_points.

Example C71_points_case : reads_real Z readIndex (numeral INT64_MAX) nondigit
  /\ point_file Z (numeral INT64_MAX) nondigit 1 [Some (0, 1, 2)] points_text.
Proof. split; [exact whole_reads | exact points_file]. Qed.

(** A negative count is refused. *)
Theorem C71_negative : forall text, negative_file text ->
  ReadLabels text = Stop /\ ReadFaces text = Stop
  /\ forall real (zero : real) readReal, ReadPoints real zero readReal text = Stop.
Proof. exact negative_all. Qed.
Print Assumptions C71_negative.

Example C71_negative_case : negative_file (labels_text "-3").
Proof. exact negative_example. Qed.

(** The boundary: each patch gets the type, the number of faces and the first
    face its entries say, and no other patch appears. *)
Theorem C71_boundary : forall n l text, patch_file n l text -> NoDup (map fst l) ->
  Forall (fun p => exists c, describes (snd p) c) l ->
  exists m, ReadBoundary text = Got m
    /\ (forall name ls c, In (name, ls) l -> describes ls c -> lookup name m = Some c)
    /\ (forall name, ~ In name (map fst l) -> lookup name m = None).
Proof. exact read_boundary. Qed.
Print Assumptions C71_boundary.

Example C71_boundary_case : patch_file 1 [(str "inlet", inlet_lines)] boundary_text /\ describes inlet_lines inlet.
Proof. split; [exact boundary_file | exact inlet_described]. Qed.

(** A list longer than its count is refused. *)
Theorem C71_surplus : forall n,
  (forall l text, label_file n l text -> n < Z.of_nat (List.length l) -> ReadLabels text = Stop)
  /\ (forall l text, face_file n l text -> n < Z.of_nat (List.length l) -> ReadFaces text = Stop)
  /\ (forall real (zero : real) readReal real_text real_delim, reads_real real readReal real_text real_delim ->
      forall l text, point_file real real_text real_delim n l text -> n < Z.of_nat (List.length l) ->
      ReadPoints real zero readReal text = Stop).
Proof. exact surplus. Qed.
Print Assumptions C71_surplus.

Example C71_surplus_case : label_file 2 [10; 20; 30] (labels_text "2").
Proof. apply (labels_file "2"); try reflexivity; discriminate. Qed.

(** A list shorter than its count is not: the rest is zero. *)
Theorem C71_count_refuted :
  (forall n l text, label_file n l text -> Z.of_nat (List.length l) < n ->
     ReadLabels text = Got (l ++ repeat 0 (Z.to_nat n - List.length l)))
  /\ label_file 4 [10; 20; 30] (labels_text "4").
Proof. exact count_refuted. Qed.
Print Assumptions C71_count_refuted.

(** A file cut short is taken for a whole one, its last label wrong. *)
Theorem C71_cut_refuted : exists k, label_file 3 [10; 20; 30] (labels_text "3")
  /\ ReadLabels (firstn k (labels_text "3")) = Got [10; 20; 3].
Proof. exact cut. Qed.
Print Assumptions C71_cut_refuted.

(** A comment put before a good file: one whose end mark follows a star never
    ends, and one that begins with a slash ends at once. *)
Theorem C71_comment_refuted :
  ReadLabels (str "FoamFile{}1(5)") = Got [5]
  /\ (exists body, c_comment body /\ body = str " a *"
      /\ ReadLabels ((str "/*" ++ body ++ str "*/") ++ str "FoamFile{}1(5)") = Stop)
  /\ (exists body, c_comment body /\ body = str "/ {"
      /\ ReadLabels ((str "/*" ++ body ++ str "*/") ++ str "FoamFile{}1(5)") = Stop).
Proof. exact comment_refuted. Qed.
Print Assumptions C71_comment_refuted.

(** A space in an empty list, or a comment before the first item, breaks the
    reading. *)
Theorem C71_blanks_refuted :
  (ReadLabels (with_list "0()") = Got [] /\ ReadLabels (with_list "0( )") = Stop)
  /\ (ReadLabels (with_list "2(7 /*a*/ 8)") = Got [7; 8] /\ ReadLabels (with_list "2(/*a*/ 7 8)") = Undef).
Proof. exact (conj empty_list comment_first). Qed.
Print Assumptions C71_blanks_refuted.

(** The size before a face is not compared with its nodes: here it says four. *)
Theorem C71_size_refuted : ReadFaces (faces_text "4") = Got [[0; 1; 2]; [3; 4; 5; 6]].
Proof. exact face_sizes. Qed.
Print Assumptions C71_size_refuted.

(** A point with a coordinate that is no number is read without end. *)
Theorem C71_stuck_refuted : forall turns,
  items turns (coordinate Z 0 readIndex) [] (open (str "x 1 2)")) = Spin.
Proof. exact stuck. Qed.
Print Assumptions C71_stuck_refuted.
