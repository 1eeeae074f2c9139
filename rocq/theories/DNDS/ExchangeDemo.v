(** A small exchange: three ranks with 2, 3 and 0 rows of different sizes. *)
From Coq Require Import List ZArith Bool Arith Permutation Lia.
From Verif Require Import Base.Prelude Base.PreludeFacts Base.MPIModel DNDS.IndexMappingModel DNDS.IndexMappingSpec
  DNDS.ArrayModel DNDS.ArraySpec DNDS.ArrayCases DNDS.ExchangeModel DNDS.ExchangeSpec.
Import ListNotations.
Local Open Scope Z_scope.

Definition demo_lens : list nat := [2; 3; 0]%nat.
Definition demo_ms (pulls : list (list Z)) : list ghostmap :=
  match setup_pull (map Z.of_nat demo_lens) pulls with Ok (_, ms) => ms | _ => [] end.
(** Row 3 has two ghosts. *)
Definition demo_pulls : list (list Z) := [[4; 3]; [0]; [3; 1; 3]].
(** No row has two. *)
Definition demo_pulls1 : list (list Z) := [[4; 3]; [0]; [1]].

Definition demo_calls : list (list (nat * call Z)) :=
  [ [(0%nat, CResize 2); (0%nat, CResizeRow 0 2); (0%nat, CSet 0 0 10); (0%nat, CSet 0 1 11);
     (0%nat, CResizeRow 1 1); (0%nat, CSet 1 0 12)];
    [(0%nat, CResize 3); (0%nat, CResizeRow 1 3); (0%nat, CSet 1 0 20); (0%nat, CSet 1 1 21);
     (0%nat, CSet 1 2 22); (0%nat, CResizeRow 2 1); (0%nat, CSet 2 0 23)];
    [(0%nat, CResize 0)] ].
Definition demo_start : world Z := {| hp := []; arrs := map new_arr [CSR; CSR] |}.
Definition demo_ws : list (world Z) :=
  map (fun cs => match run 0 demo_start cs with Ok w => w | _ => demo_start end) demo_calls.
Definition demo_ts (pulls : list (list Z)) : list (trans Z) :=
  match createMPITypes 0 HIndexed demo_ws (demo_ms pulls) with Ok ts => ts | _ => [] end.
Definition demo_pull (pulls : list (list Z)) : list message :=
  match pull_messages (demo_ts pulls) with Ok (Some l) => l | _ => [] end.
Definition demo_push (pulls : list (list Z)) : list message :=
  match push_messages (demo_ts pulls) with Ok (Some l) => l | _ => [] end.

Ltac pick r := destruct r as [|[|[|r]]].

Lemma demo_mapped : forall pulls, pulls = demo_pulls \/ pulls = demo_pulls1 -> mapped demo_lens (demo_ms pulls).
Proof.
  intros pulls H. left. exists pulls. unfold demo_ms.
  destruct H as [-> | ->]; eexists; (split; [reflexivity|]); vm_compute; reflexivity.
Qed.

Lemma demo_ready : forall pulls, pulls = demo_pulls \/ pulls = demo_pulls1 ->
  ready 0 demo_lens (demo_ms pulls) CSR demo_ws.
Proof.
  intros pulls H. constructor.
  - reflexivity.
  - intros r w Hw. pick r; cbn in Hw; try (destruct r; discriminate); injection Hw as <-;
      [exists (nth 0 demo_calls [])|exists (nth 1 demo_calls [])|exists (nth 2 demo_calls [])];
      (split; [cbn [nth demo_calls map]; cov|vm_compute; reflexivity]).
  - intros r h f [w [Hw [-> Hf]]]. pick r; cbn in Hw; try (destruct r; discriminate); injection Hw as <-;
      vm_compute in Hf; injection Hf as <-; reflexivity.
  - exists 0. intros. exact I.
  - intros r m Hm. destruct H as [-> | ->]; pick r; vm_compute in Hm; try (destruct r; discriminate);
      injection Hm as <-; cbn [ghostIndex].
    1,4: exists [3; 1]. 3,5: exists [2]. 5: exists [1; 3]. 6: exists [1].
    all: split; [|reflexivity].
    all: repeat constructor; do 4 eexists; (split; [vm_compute; reflexivity|]);
         (split; [eexists; split; [vm_compute; reflexivity|split; [reflexivity|vm_compute; reflexivity]]|vm_compute; reflexivity]).
Qed.

Lemma demo_created : forall pulls, pulls = demo_pulls \/ pulls = demo_pulls1 ->
  created_with 0 demo_lens (demo_ms pulls) CSR demo_ws (demo_ts pulls) (demo_pull pulls) (demo_push pulls).
Proof.
  intros pulls H. split; [apply demo_mapped; auto|]. split; [apply demo_ready; auto|].
  destruct H as [-> | ->]; (split; [vm_compute; reflexivity|]); (split; vm_compute; reflexivity).
Qed.

Lemma demo_unique : unique_ghosts demo_lens (demo_ms demo_pulls1).
Proof.
  intros r k r' k' s i [m [q [Hm [Hq Hi]]]] [m' [q' [Hm' [Hq' Hi']]]].
  pick r; vm_compute in Hm; try (destruct r; discriminate); injection Hm as <-;
  pick r'; vm_compute in Hm'; try (destruct r'; discriminate); injection Hm' as <-;
  cbn [ghostIndex] in Hq, Hq';
  destruct k as [|[|k]]; cbn in Hq; try (destruct k; discriminate); try discriminate; injection Hq as <-;
  destruct k' as [|[|k']]; cbn in Hq'; try (destruct k'; discriminate); try discriminate; injection Hq' as <-;
  vm_compute in Hi, Hi'; try discriminate; injection Hi as <- <-; try discriminate; auto.
Qed.

(** After a write by rank 1 and a pull. *)
Definition demo_ops (pulls : list (list Z)) : list (op Z) :=
  [OWrite 1 false 1 2 99; OPull (rev (all_moves (demo_pull pulls))); OWrite 0 true 0 0 55; OWrite 2 true 0 0 66].
Definition demo_reached (pulls : list (list Z)) : list (world Z) :=
  match steps 0 (map tw (demo_ts pulls)) (demo_ops pulls) with Ok ws => ws | _ => [] end.

Lemma demo_reached_ok : forall pulls, pulls = demo_pulls \/ pulls = demo_pulls1 ->
  reached 0 (demo_ts pulls) (demo_pull pulls) (demo_push pulls) (demo_reached pulls).
Proof.
  intros pulls H. exists (demo_ops pulls). split.
  - repeat constructor. symmetry. apply Permutation_rev.
  - destruct H as [-> | ->]; vm_compute; reflexivity.
Qed.

(** What each rank's ghosts / own rows contain. *)
Definition shown (id : nat) (ws : list (world Z)) : list (list (list Z)) :=
  map (fun w => match nth_error (arrs w) id with
                | Some a => map (fun i => match RowSize (hp w) a i with
                                          | Ok n => flat_map (fun j => match at_ (hp w) a i j with Ok x => [x] | _ => [] end)
                                                             (ranks (Z.to_nat n))
                                          | _ => [] end) (ranks (Z.to_nat (size a)))
                | None => [] end) ws.
