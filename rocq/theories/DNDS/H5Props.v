(** C17: the parts of a distributed vector tile its dataset. *)
From Coq Require Import List ZArith String Permutation.
From Verif Require Import Base.Prelude DNDS.H5Model DNDS.H5Spec DNDS.H5Proofs.
Import ListNotations.
Local Open Scope Z_scope.

(** Writing parts succeeds for every size vector, empty parts included, and
    whatever the order in which the ranks' writes reach the file the dataset
    holds the parts one after the other in rank order and nothing else. *)
Theorem C17_parts_tile f name parts s1 s2 :
  parts <> [] -> total parts <= int64_max ->
  dset f name = None -> dset f (offsets_name name) = None ->
  any_order (List.length parts) s1 -> any_order (List.length parts) s2 ->
  exists f' d,
    write_vector f name parts (map (fun _ => off_parts) parts) s1 s2 = Ok f' /\
    dset f' name = Some d /\ tiled parts d /\
    forall other, other <> name -> other <> offsets_name name -> dset f' other = dset f other.
Proof. exact (parts_tile f name parts s1 s2). Qed.
Print Assumptions C17_parts_tile.

(** [tiled] leaves no freedom: it determines the dataset. *)
Theorem C17_tiled_unique parts d : tiled parts d -> d = List.concat parts.
Proof. exact (tiled_unique parts d). Qed.
Print Assumptions C17_tiled_unique.

(** After any further writes, the same number of ranks read back each its own
    part, together with its place. *)
Theorem C17_read_back f name parts s1 s2 f' g coll fresh :
  parts <> [] -> total parts <= int64_max ->
  dset f name = None -> dset f (offsets_name name) = None ->
  any_order (List.length parts) s1 -> any_order (List.length parts) s2 ->
  write_vector f name parts (map (fun _ => off_parts) parts) s1 s2 = Ok f' ->
  later f' g ->
  List.length fresh = List.length parts ->
  (coll = true -> Forall (fun p => p <> []) parts \/ Forall (fun b => b = false) fresh) ->
  read_vector g coll name (ask fresh) = Ok (combine parts (places parts)).
Proof. exact (read_back f name parts s1 s2 f' g coll fresh). Qed.
Print Assumptions C17_read_back.

(** Another number of ranks is refused. *)
Theorem C17_other_rank_count f name parts s1 s2 f' g coll fresh :
  parts <> [] -> total parts <= int64_max ->
  dset f name = None -> dset f (offsets_name name) = None ->
  any_order (List.length parts) s1 -> any_order (List.length parts) s2 ->
  write_vector f name parts (map (fun _ => off_parts) parts) s1 s2 = Ok f' ->
  later f' g ->
  fresh <> [] -> List.length fresh <> List.length parts ->
  read_vector g coll name (ask fresh) = Abort.
Proof. exact (other_rank_count_aborts f name parts s1 s2 f' g coll fresh). Qed.
Print Assumptions C17_other_rank_count.

(** Writing what was read at the places the read reported is the same as
    writing parts. *)
Theorem C17_rewrite_at_places f g name name' parts s1 s2 f' fresh coll out s3 s4 :
  parts <> [] -> total parts <= int64_max ->
  dset f name = None -> dset f (offsets_name name) = None ->
  any_order (List.length parts) s1 -> any_order (List.length parts) s2 ->
  any_order (List.length parts) s3 -> any_order (List.length parts) s4 ->
  write_vector f name parts (map (fun _ => off_parts) parts) s1 s2 = Ok f' ->
  List.length fresh = List.length parts ->
  read_vector f' coll name (ask fresh) = Ok out ->
  dset g name' = None -> dset g (offsets_name name') = None ->
  write_vector g name' (map fst out) (map snd out) s3 s4 =
  write_vector g name' parts (map (fun _ => off_parts) parts) s3 s4.
Proof. exact (rewrite_at_places f g name name' parts s1 s2 f' fresh coll out s3 s4). Qed.
Print Assumptions C17_rewrite_at_places.

(** A vector written as one, by all ranks, is read back whole by every rank of
    any number of ranks. *)
Theorem C17_one f name v n s1 s2 f' g coll fresh :
  (0 < n)%nat -> any_order n s1 ->
  dset f name = None ->
  write_vector f name (repeat v n) (repeat off_one n) s1 s2 = Ok f' ->
  later f' g -> v <> [] ->
  read_vector g coll name (map (fun b => (off_one, b)) fresh)
  = Ok (map (fun _ => (v, off_one)) fresh).
Proof. exact (one_round_trip f name v n s1 s2 f' g coll fresh). Qed.
Print Assumptions C17_one.

(** With collective transfers the read fails when some part is empty, and not
    all, if the rank with the empty part passes a vector that never held
    anything: that rank does not take part in the transfer. *)
Theorem C17_collective_empty_part_refuted f name parts s1 s2 f' g fresh p q :
  parts <> [] -> total parts <= int64_max ->
  dset f name = None -> dset f (offsets_name name) = None ->
  any_order (List.length parts) s1 -> any_order (List.length parts) s2 ->
  write_vector f name parts (map (fun _ => off_parts) parts) s1 s2 = Ok f' ->
  later f' g -> List.length fresh = List.length parts ->
  nth_error parts p = Some [] -> nth_error fresh p = Some true ->
  (exists x t, nth_error parts q = Some (x :: t)) ->
  read_vector g true name (ask fresh) = UB.
Proof. exact (collective_stuck f name parts s1 s2 f' g fresh p q). Qed.
Print Assumptions C17_collective_empty_part_refuted.

(** A rank that already knows the place of its part, and passes it, reads an
    empty vector. *)
Theorem C17_known_place_refuted f name parts s1 s2 f' g fresh :
  parts <> [] -> total parts <= int64_max ->
  dset f name = None -> dset f (offsets_name name) = None ->
  any_order (List.length parts) s1 -> any_order (List.length parts) s2 ->
  write_vector f name parts (map (fun _ => off_parts) parts) s1 s2 = Ok f' ->
  later f' g -> List.length fresh = List.length parts ->
  read_vector g false name (combine (places parts) fresh) =
  Ok (combine (map (fun _ => []) parts) (places parts)).
Proof. exact (explicit_offset f name parts s1 s2 f' g fresh). Qed.
Print Assumptions C17_known_place_refuted.

(** Three ranks, the middle one empty, writing last rank first; then another
    vector is written, and the first is read. *)
Example three_ranks :
  exists f' g,
    write_vector [] "a" [[7; 8]; []; [9]] [off_parts; off_parts; off_parts]
      [2; 0; 1]%nat [1; 2; 0]%nat = Ok f' /\
    write_vector f' "b" [[1]; [2]; [3]] [off_parts; off_parts; off_parts]
      [0; 1; 2]%nat [0; 1; 2]%nat = Ok g /\
    dset g "a" = Some [7; 8; 9] /\ dset g "a::rank_offsets" = Some [0; 2; 2; 3] /\
    read_vector g false "a" (ask [true; true; true]) =
      Ok [([7; 8], {| g_size := 3; g_off := 0 |}); ([], {| g_size := 3; g_off := 2 |});
          ([9], {| g_size := 3; g_off := 2 |})] /\
    read_vector g true "a" (ask [true; true; true]) = UB.
Proof. do 2 eexists. repeat split; vm_compute; reflexivity. Qed.
Example any_order_three : any_order 3 [2; 0; 1]%nat.
Proof.
  unfold any_order. cbn.
  apply Permutation_trans with [0; 2; 1]%nat; [constructor|]. apply perm_skip. constructor.
Qed.
Example one_two_ranks :
  write_vector [] "a" [[7; 8]; [7; 8]] [off_one; off_one] [1; 0]%nat [] = Ok [("a"%string, [7; 8])].
Proof. vm_compute. reflexivity. Qed.
