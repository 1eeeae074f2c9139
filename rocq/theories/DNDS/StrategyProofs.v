(** Requests and packing strategies (C07). *)
From Coq Require Import List ZArith Lia Bool Arith Permutation.
From Verif Require Import Base.Prelude Base.PreludeFacts Base.MPIModel Base.MPIFacts
  DNDS.IndexMappingModel DNDS.IndexMappingSpec
  DNDS.ArrayModel DNDS.ArraySpec DNDS.ArrayProofs DNDS.ArrayCases DNDS.ExchangeModel DNDS.ExchangeSpec
  DNDS.ExchangePlanProofs DNDS.TransferProofs DNDS.MessageProofs DNDS.ExchangeProofs
  DNDS.CreateTypesProofs DNDS.CreateProofs DNDS.CreateLiveProofs DNDS.ExchangeFinalProofs DNDS.ExchangeDemo
  DNDS.RequestModel DNDS.RequestProofs.
Import ListNotations.
Local Open Scope Z_scope.

(** ** Requests of created types *)
Lemma types_of_peers : forall P b t, map (fun x => Z.to_nat (fst x)) (types_of P b t) = filter b (seq 0 P).
Proof.
  intros P b t. unfold types_of. generalize 0%nat. induction P as [|P IH]; intro a; auto.
  cbn [seq map concat filter]. rewrite map_app, IH. destruct (b a); cbn; auto. rewrite Nat2Z.id. auto.
Qed.

Section Paired.
Variables (P : nat) (X : nat -> nat -> bool).   (* s has elements for r *)
Definition reqs_pull := map (fun r => map Recv (filter (fun s => X s r) (seq 0 P)) ++ map Send (filter (fun s => X r s) (seq 0 P))) (seq 0 P).
Definition reqs_push := map (fun r => map Send (filter (fun s => X s r) (seq 0 P)) ++ map Recv (filter (fun s => X r s) (seq 0 P))) (seq 0 P).

Lemma nth_reqs : forall (f : nat -> list req) r, nth r (map f (seq 0 P)) [] = if (r <? P)%nat then f r else [].
Proof.
  intros f r. destruct (r <? P)%nat eqn:E.
  - apply Nat.ltb_lt in E. apply nth_error_nth. rewrite nth_error_map_, nth_error_seq.
    apply Nat.ltb_lt in E. rewrite E. auto.
  - apply Nat.ltb_ge in E. apply nth_overflow. rewrite map_length, seq_length. auto.
Qed.

Lemma nodup_reqs : forall a b, NoDup a -> NoDup b -> NoDup (map Recv a ++ map Send b) /\ NoDup (map Send a ++ map Recv b).
Proof.
  intros a b Ha Hb. split; apply NoDup_app_intro.
  1,2,4,5: apply FinFun.Injective_map_NoDup; auto; intros x y E; injection E; auto.
  all: intros x H1 H2; apply in_map_iff in H1; apply in_map_iff in H2;
    destruct H1 as [y [<- _]], H2 as [z [E _]]; discriminate.
Qed.

Lemma in_reqs : forall a b x, (In (Recv x) (map Recv a ++ map Send b) <-> In x a) /\ (In (Send x) (map Recv a ++ map Send b) <-> In x b) /\
   (In (Recv x) (map Send a ++ map Recv b) <-> In x b) /\ (In (Send x) (map Send a ++ map Recv b) <-> In x a).
Proof.
  intros a b x. rewrite !in_app_iff, !in_map_iff.
  repeat split; try (intros [[y [E H]]|[y [E H]]]; try discriminate; injection E as ->; auto); eauto.
Qed.

Lemma paired_pull : paired reqs_pull.
Proof.
  split.
  - apply Forall_forall. intros l H. apply in_map_iff in H. destruct H as [r [<- _]].
    apply nodup_reqs; apply NoDup_filter; apply seq_NoDup.
  - intros s r. unfold reqs_pull. rewrite !nth_reqs. destruct (Nat.ltb_spec s P), (Nat.ltb_spec r P);
      rewrite ?(proj1 (proj2 (in_reqs _ _ _))), ?(proj1 (in_reqs _ _ _)), ?filter_In, ?in_seq; cbv beta; cbn [In]; intuition lia.
Qed.
Lemma paired_push : paired reqs_push.
Proof.
  split.
  - apply Forall_forall. intros l H. apply in_map_iff in H. destruct H as [r [<- _]].
    apply nodup_reqs; apply NoDup_filter; apply seq_NoDup.
  - intros s r. unfold reqs_push. rewrite !nth_reqs. destruct (Nat.ltb_spec s P), (Nat.ltb_spec r P);
      rewrite ?(proj1 (proj2 (proj2 (in_reqs _ _ _)))), ?(proj2 (proj2 (proj2 (in_reqs _ _ _)))), ?filter_In, ?in_seq; cbv beta; cbn [In]; intuition lia.
Qed.
Lemma pull_recvs_first : forall r, recvs_first (nth r reqs_pull []).
Proof.
  intro r. unfold reqs_pull. rewrite nth_reqs. destruct (r <? P)%nat.
  - eexists _, _. split; [reflexivity|]. split; apply Forall_forall; intros x H; apply in_map_iff in H; destruct H as [y [<- _]]; auto.
  - exists [], []. auto.
Qed.
End Paired.

Lemma created_reqs : forall T (dflt : T) lens ms l ws ts pull push, created_with dflt lens ms l ws ts pull push ->
  exists X, map pull_reqs ts = reqs_pull (length lens) X /\ map push_reqs ts = reqs_push (length lens) X.
Proof.
  intros T dflt lens ms l ws ts pull push [M [R [E1 _]]]. destruct (plan_exists _ _ M) as [G HP].
  destruct (ready_prep T dflt lens ms G HP l ws R) as [SF [SS Pp]].
  destruct (create_ok T dflt lens ms G HP HIndexed l SF SS ws Pp) as [SS3 [W3 [E _]]].
  rewrite E in E1. injection E1 as <-.
  exists (some_elems T (length lens) G (cellsF T SS3)). split; unfold reqs_pull, reqs_push; rewrite map_map; apply map_ext; intro r;
    unfold pull_reqs, push_reqs; cbn [made pushTypes pullTypes]; unfold pull_types_of, push_types_of;
    rewrite <- (map_map (fun x : Z * dtype => Z.to_nat (fst x)) Recv), <- (map_map (fun x : Z * dtype => Z.to_nat (fst x)) Send),
      !types_of_peers; reflexivity.
Qed.

(** What a cycle guarantees. *)
Lemma cycle_completes : forall eager reqs progs n st, paired reqs -> length progs = length reqs ->
  (forall r, (r < length reqs)%nat -> wf (nth r reqs []) (nth r progs [])) ->
  rsteps eager reqs n (begin progs) st ->
  ~ stuck eager reqs st /\ (n <= list_sum (map (@length _) progs) + length (transfers reqs))%nat /\
  (finished st -> Permutation (log st) (transfers reqs)).
Proof.
  intros eager reqs progs n st H1 H2 H3 H4.
  pose proof (inv_steps eager reqs progs H1 H2 H3 n st H4) as IV. split; [|split].
  - eapply not_stuck; eauto.
  - pose proof (steps_count eager reqs progs H1 H2 H3 n st H4) as C. pose proof (log_bound reqs progs H2 st IV).
    assert (EW : weight reqs (begin progs) = list_sum (map (@length _) progs)).
    { unfold weight. f_equal. cbn [todo begin]. rewrite <- H2. apply nth_error_ext. intro i.
      rewrite !nth_error_map_, nth_error_seq. destruct (i <? length progs)%nat eqn:E.
      - apply Nat.ltb_lt in E. destruct (nth_error_lt_Some _ _ _ E) as [x Hx]. rewrite Hx. cbn.
        rewrite (nth_error_nth _ _ _ Hx). auto.
      - apply Nat.ltb_ge in E. apply nth_error_None in E. rewrite E. auto. }
    rewrite <- EW. lia.
  - intro F. eapply finished_log; eauto.
Qed.

Lemma nth_map_nil : forall A B (f : list A -> list B) l r, f [] = [] -> nth r (map f l) [] = f (nth r l []).
Proof. intros A B f l r H. rewrite <- H at 1. apply map_nth. Qed.

Lemma pull_completes : forall T (dflt : T) lens ms l ws ts pull push one_by_one eager n st,
  created_with dflt lens ms l ws ts pull push ->
  let reqs := map pull_reqs ts in let progs := map (cycle one_by_one) reqs in
  rsteps eager reqs n (begin progs) st ->
  ~ stuck eager reqs st /\ (n <= list_sum (map (@length _) progs) + length (transfers reqs))%nat /\
  (finished st -> Permutation (log st) (transfers reqs)).
Proof.
  intros T dflt lens ms l ws ts pull push ob eager n st H reqs progs Hs.
  destruct (created_reqs _ _ _ _ _ _ _ _ _ H) as [X [E _]]. fold reqs in E.
  apply cycle_completes; auto.
  - rewrite E. apply paired_pull.
  - unfold progs. rewrite map_length. auto.
  - intros r Hr. unfold progs. rewrite nth_map_nil by (destruct ob; reflexivity). destruct ob; [|apply wf_all].
    apply wf_one. rewrite E. apply pull_recvs_first.
Qed.

Lemma push_completes : forall T (dflt : T) lens ms l ws ts pull push eager n st,
  created_with dflt lens ms l ws ts pull push ->
  let reqs := map push_reqs ts in let progs := map (cycle false) reqs in
  rsteps eager reqs n (begin progs) st ->
  ~ stuck eager reqs st /\ (n <= list_sum (map (@length _) progs) + length (transfers reqs))%nat /\
  (finished st -> Permutation (log st) (transfers reqs)).
Proof.
  intros T dflt lens ms l ws ts pull push eager n st H reqs progs Hs.
  destruct (created_reqs _ _ _ _ _ _ _ _ _ H) as [X [_ E]]. fold reqs in E.
  apply cycle_completes; auto.
  - rewrite E. apply paired_push.
  - unfold progs. rewrite map_length. auto.
  - intros r Hr. unfold progs. rewrite nth_map_nil by reflexivity. apply wf_all.
Qed.

(** ** In-situ pushes *)
Lemma insitu_push_never : forall T P (t : trans T) bufs w w', (0 < P)%nat -> insitu_push_once P t bufs w <> Ok w'.
Proof.
  intros T P t bufs w w' HP. unfold insitu_push_once. destruct (unpack_loop t (ranks P) bufs w) as [w1| |]; cbn [bind]; try discriminate.
  destruct P; [lia|]. cbn. discriminate.
Qed.

(** ** One row per rank: ranks 1 and 2 have each other's row and rank 0's *)
Definition ring_lens : list nat := [1; 1; 1]%nat.
Definition ring_pulls : list (list Z) := [[]; [0; 2]; [0; 1]].
Definition ring_ms : list ghostmap :=
  match setup_pull (map Z.of_nat ring_lens) ring_pulls with Ok (_, ms) => ms | _ => [] end.
Definition ring_ws : list (world Z) :=
  map (fun cs => match run 0 {| hp := []; arrs := map new_arr [StaticFixed 1; StaticFixed 1] |} cs with
                 | Ok w => w | _ => demo_start end) (repeat [(0%nat, CResize 1)] 3).
Definition ring_ts : list (trans Z) :=
  match createMPITypes 0 HIndexed ring_ws ring_ms with Ok ts => ts | _ => [] end.
Definition ring_msgs f : list message := match f ring_ts with Ok (Some l) => l | _ => [] end.

Lemma ring_created : created_with 0 ring_lens ring_ms (StaticFixed 1) ring_ws ring_ts
  (ring_msgs pull_messages) (ring_msgs push_messages).
Proof.
  split; [|split; [|split; [|split]]].
  - left. exists ring_pulls. eexists. split; [reflexivity|]. vm_compute. reflexivity.
  - constructor.
    + reflexivity.
    + intros r w Hw. exists [(0%nat, CResize 1)]. split; [cov|].
      pick r; cbn in Hw; try (destruct r; discriminate); injection Hw as <-; vm_compute; reflexivity.
    + intros r h f [w [Hw [-> Hf]]]. pick r; cbn in Hw; try (destruct r; discriminate); injection Hw as <-;
        vm_compute in Hf; injection Hf as <-; reflexivity.
    + exists 0. intros. exact I.
    + intros r m Hm. pick r; vm_compute in Hm; try (destruct r; discriminate); injection Hm as <-; cbn [ghostIndex].
      1: exists []. 2,3: exists [1; 1].
      all: split; [|reflexivity].
      all: repeat constructor; do 4 eexists; (split; [vm_compute; reflexivity|]);
         (split; [eexists; split; [vm_compute; reflexivity|split; [reflexivity|vm_compute; reflexivity]]|vm_compute; reflexivity]).
  - vm_compute; reflexivity.
  - vm_compute; reflexivity.
  - vm_compute; reflexivity.
Qed.

Definition ring_reqs : list (list req) :=
  [[Recv 1; Recv 2]; [Send 0; Send 2; Recv 2]; [Send 0; Send 1; Recv 1]]%nat.
Lemma ring_reqs_ok : map push_reqs ring_ts = ring_reqs.
Proof. vm_compute. reflexivity. Qed.

(** Executions, forwards. *)
Lemma rsteps_app : forall eager reqs n m a b c, rsteps eager reqs n a b -> rsteps eager reqs m b c ->
  rsteps eager reqs (m + n) a c.
Proof. intros eager reqs n m a b c H1 H2. induction H2; cbn; auto. eapply rs_cons; eauto. Qed.
Lemma rsteps_first : forall eager reqs n a b c, rstep eager reqs a b -> rsteps eager reqs n b c ->
  rsteps eager reqs (n + 1) a c.
Proof. intros. eapply rsteps_app; eauto. eapply rs_cons; [apply rs_nil|auto]. Qed.


Inductive action := AStart (r : nat) | AWait (r : nat) | AXfer (s k r j : nat).
Definition act (reqs : list (list req)) (a : action) (st : state) : option state :=
  match a with
  | AStart r => match todo st r with
      | Start k :: t => Some {| todo := set (todo st) r t; active := set (active st) r (k :: active st r); log := log st |}
      | _ => None end
  | AWait r => match todo st r with
      | Wait k :: t => if existsb (Nat.eqb k) (active st r) then None
                       else Some {| todo := set (todo st) r t; active := active st; log := log st |}
      | _ => None end
  | AXfer s k r j => match request reqs s k, request reqs r j with
      | Some (Send r'), Some (Recv s') =>
          if ((r' =? r) && (s' =? s) && existsb (Nat.eqb k) (active st s) && existsb (Nat.eqb j) (active st r))%nat
          then Some {| todo := todo st;
                active := let a := set (active st) s (drop k (active st s)) in set a r (drop j (a r));
                log := (s, r) :: log st |}
          else None
      | _, _ => None end
  end.
Fixpoint acts (reqs : list (list req)) (l : list action) (st : state) : option state :=
  match l with [] => Some st | a :: t => match act reqs a st with Some st' => acts reqs t st' | None => None end end.

Lemma existsb_In : forall k l, existsb (Nat.eqb k) l = true <-> In k l.
Proof.
  intros k l. rewrite existsb_exists. split; [intros [x [H E]]; apply Nat.eqb_eq in E; subst; auto|].
  intro H. exists k. split; auto. apply Nat.eqb_refl.
Qed.
Lemma act_step : forall eager reqs a st st', act reqs a st = Some st' -> rstep eager reqs st st'.
Proof.
  intros eager reqs a st st' H. destruct a as [r|r|s k r j]; cbn in H.
  - destruct (todo st r) as [|[k|k] t] eqn:E; try discriminate. injection H as <-. eapply st_start; eauto.
  - destruct (todo st r) as [|[k|k] t] eqn:E; try discriminate.
    destruct (existsb (Nat.eqb k) (active st r)) eqn:X; try discriminate. injection H as <-. eapply st_wait; eauto.
    left. rewrite <- existsb_In. congruence.
  - destruct (request reqs s k) as [[r'|]|] eqn:E1; try discriminate.
    destruct (request reqs r j) as [[|s']|] eqn:E2; try discriminate.
    destruct ((r' =? r)%nat && (s' =? s)%nat && existsb (Nat.eqb k) (active st s) && existsb (Nat.eqb j) (active st r)) eqn:C; try discriminate.
    injection H as <-. rewrite !andb_true_iff, !Nat.eqb_eq, !existsb_In in C. destruct C as [[[-> ->] A1] A2].
    apply st_transfer; auto.
Qed.
Lemma acts_steps : forall eager reqs l st st', acts reqs l st = Some st' -> exists n, rsteps eager reqs n st st'.
Proof.
  induction l as [|a l IH]; intros st st' H; cbn in H.
  - injection H as <-. exists 0%nat. constructor.
  - destruct (act reqs a st) as [st1|] eqn:E; [|discriminate]. destruct (IH _ _ H) as [n Hn].
    eexists. eapply rsteps_first; eauto. eapply act_step; eauto.
Qed.

Definition ring_acts : list action :=
  [AStart 0; AStart 0; AStart 1; AStart 2; AXfer 1 0 0 0; AXfer 2 0 0 1; AWait 0; AWait 0; AStart 1; AStart 2]%nat.

Lemma ring_stuck : exists n st, rsteps false ring_reqs n (begin (map (cycle true) ring_reqs)) st /\ stuck false ring_reqs st.
Proof.
  destruct (acts ring_reqs ring_acts (begin (map (cycle true) ring_reqs))) as [st|] eqn:E; [|vm_compute in E; discriminate].
  destruct (acts_steps false _ _ _ _ E) as [n Hn]. exists n, st. split; auto.
  assert (TD : forall r, todo st r = match r with 1%nat | 2%nat => [Wait 1; Start 2; Wait 2; Wait 0]%nat | _ => [] end).
  { vm_compute in E. injection E as <-. intros [|[|[|r]]]; vm_compute; auto. destruct r; auto. }
  assert (AC : forall r, active st r = match r with 1%nat | 2%nat => [1]%nat | _ => [] end).
  { vm_compute in E. injection E as <-. intros [|[|[|r]]]; vm_compute; auto. }
  clear E Hn. split.
  - intro F. specialize (F 1%nat). rewrite TD in F. discriminate.
  - intros st' S. inversion S as [? r k t E|? r k t E C|? s k r j E1 E2 A1 A2]; subst; clear S.
    + rewrite TD in E. destruct r as [|[|[|r]]]; discriminate.
    + rewrite TD in E. rewrite AC in C. destruct C as [C|[C _]]; [|discriminate].
      destruct r as [|[|[|r]]]; try discriminate; injection E as <- <-; apply C; left; auto.
    + rewrite AC in A2. destruct r as [|[|[|r]]]; try (destruct A2; fail); destruct A2 as [<-|[]]; cbn in E2; discriminate.
Qed.

(** ** Two ranks: pullOnce one by one *)
Definition duo_reqs : list (list req) := [[Send 1]; [Recv 0]]%nat.
Lemma duo_twice : exists n st, rsteps false duo_reqs n (begin (map (once true) duo_reqs)) st /\ finished st /\
  log st = [(0, 1); (0, 1)]%nat.
Proof.
  set (l := [AStart 0; AStart 1; AXfer 0 0 1 0; AWait 0; AWait 1]%nat).
  destruct (acts duo_reqs (l ++ l) (begin (map (once true) duo_reqs))) as [st|] eqn:E; [|vm_compute in E; discriminate].
  destruct (acts_steps false _ _ _ _ E) as [n Hn]. exists n, st. split; auto.
  vm_compute in E. injection E as <-. split; [|reflexivity].
  intros [|[|[|r]]]; vm_compute; auto.
Qed.

(** ** Rank 1 has ghosts of both rows of rank 0 *)
Definition two_lens : list nat := [2; 1]%nat.
Definition two_pulls : list (list Z) := [[]; [0; 1]].
Definition two_ms : list ghostmap :=
  match setup_pull (map Z.of_nat two_lens) two_pulls with Ok (_, ms) => ms | _ => [] end.
Definition two_ws (l : layout) (cs : list (list (nat * call Z))) : list (world Z) :=
  map (fun c => match run 0 {| hp := []; arrs := map new_arr [l; l] |} c with Ok w => w | _ => demo_start end) cs.
Definition max_calls : list (list (nat * call Z)) :=
  [[(0%nat, CResize2 2 2); (0%nat, CResizeRow 0 1); (0%nat, CSet 0 0 1); (0%nat, CResizeRow 1 2);
    (0%nat, CSet 1 0 2); (0%nat, CSet 1 1 3)]; [(0%nat, CResize2 1 2)]].
Definition empty_calls : list (list (nat * call Z)) := [[(0%nat, CResize 2)]; [(0%nat, CResize 1)]].

Lemma two_mapped : mapped two_lens two_ms.
Proof. left. exists two_pulls. eexists. split; [reflexivity|]. vm_compute. reflexivity. Qed.

Lemma max_ready : ready 0 two_lens two_ms Max (two_ws Max max_calls).
Proof.
  constructor.
  - reflexivity.
  - intros r w Hw. destruct r as [|[|r]]; cbn in Hw; try (destruct r; discriminate); injection Hw as <-;
      [exists (nth 0 max_calls [])|exists (nth 1 max_calls [])];
      (split; [cbn [nth max_calls map]; cov|vm_compute; reflexivity]).
  - intros r h f [w [Hw [-> Hf]]]. destruct r as [|[|r]]; cbn in Hw; try (destruct r; discriminate); injection Hw as <-;
      vm_compute in Hf; injection Hf as <-; reflexivity.
  - exists 2. intros r h f s [w [Hw [-> Hf]]] [w' [Hw' [_ Hs]]]. rewrite Hw in Hw'. injection Hw' as <-.
    destruct r as [|[|r]]; cbn in Hw; try (destruct r; discriminate); injection Hw as <-;
      vm_compute in Hf; injection Hf as <-; vm_compute in Hs; injection Hs as <-; (split; [reflexivity|]);
      intros i n H; exfalso; destruct i as [|p|p]; cbn in H; try discriminate; destruct p; discriminate.
  - intros r m Hm. destruct r as [|[|r]]; vm_compute in Hm; try (destruct r; discriminate); injection Hm as <-; cbn [ghostIndex].
    1: exists []. 2: exists [2; 2].
    all: split; [|reflexivity].
    all: repeat constructor; do 4 eexists; (split; [vm_compute; reflexivity|]);
         (split; [eexists; split; [vm_compute; reflexivity|split; [reflexivity|vm_compute; reflexivity]]|vm_compute; reflexivity]).
Qed.

Lemma empty_ready : ready 0 two_lens two_ms CSR (two_ws CSR empty_calls).
Proof.
  constructor.
  - reflexivity.
  - intros r w Hw. destruct r as [|[|r]]; cbn in Hw; try (destruct r; discriminate); injection Hw as <-;
      [exists (nth 0 empty_calls [])|exists (nth 1 empty_calls [])];
      (split; [cbn [nth empty_calls map]; cov|vm_compute; reflexivity]).
  - intros r h f [w [Hw [-> Hf]]]. destruct r as [|[|r]]; cbn in Hw; try (destruct r; discriminate); injection Hw as <-;
      vm_compute in Hf; injection Hf as <-; reflexivity.
  - exists 0. intros. exact I.
  - intros r m Hm. destruct r as [|[|r]]; vm_compute in Hm; try (destruct r; discriminate); injection Hm as <-; cbn [ghostIndex].
    1: exists []. 2: exists [0; 0].
    all: split; [|reflexivity].
    all: repeat constructor; do 4 eexists; (split; [vm_compute; reflexivity|]);
         (split; [eexists; split; [vm_compute; reflexivity|split; [reflexivity|vm_compute; reflexivity]]|vm_compute; reflexivity]).
Qed.

Lemma insitu_max_wrong : exists lens ms ws ts order ws', mapped lens ms /\ ready 0 lens ms Max ws /\
  createMPITypes 0 InSituPack ws ms = Ok ts /\
  Permutation order (list_prod (ranks (length ts)) (ranks (length ts))) /\
  insitu_pull ts order = Ok (Some ws') /\ ~ ghosts_current lens ms ws'.
Proof.
  exists two_lens, two_ms, (two_ws Max max_calls).
  destruct (createMPITypes 0 InSituPack (two_ws Max max_calls) two_ms) as [ts| |] eqn:E;
    try (vm_compute in E; discriminate).
  vm_compute in E. injection E as <-.
  eexists _, (list_prod (ranks 2) (ranks 2)), _. split; [exact two_mapped|]. split; [exact max_ready|].
  split; [reflexivity|]. split; [apply Permutation_refl|]. split; [vm_compute; reflexivity|].
  intro C. destruct (nth_error two_ms 1) as [m|] eqn:Em; [|vm_compute in Em; discriminate].
  destruct (C 1%nat m Em) as [h [a [[w [Hw [-> Ha]]] [_ H]]]]. vm_compute in Em. injection Em as <-.
  cbn in Hw. injection Hw as <-. cbn in Ha. injection Ha as <-.
  destruct (H 1%nat) as [s [i [h' [f [[m' [q [Hm' [Hq Hi]]]] [[w [Hw [-> Hf]]] [_ HR]]]]]]]; [cbn; lia|].
  vm_compute in Hm'. injection Hm' as <-. cbn in Hq. injection Hq as <-. vm_compute in Hi. injection Hi as <- <-.
  cbn in Hw. injection Hw as <-. cbn in Hf. injection Hf as <-. specialize (HR 0). vm_compute in HR. discriminate.
Qed.

Lemma insitu_hangs : exists lens ms ws ts ts' pull push order, mapped lens ms /\ ready 0 lens ms CSR ws /\
  created_with 0 lens ms CSR ws ts pull push /\
  createMPITypes 0 InSituPack ws ms = Ok ts' /\
  Permutation order (list_prod (ranks (length ts')) (ranks (length ts'))) /\
  insitu_pull ts' order = Ok None.
Proof.
  destruct (create_succeeds Z 0 two_lens two_ms CSR (two_ws CSR empty_calls) two_mapped empty_ready)
    as [ts [pull [push [H _]]]].
  exists two_lens, two_ms, (two_ws CSR empty_calls), ts.
  destruct (createMPITypes 0 InSituPack (two_ws CSR empty_calls) two_ms) as [ts'| |] eqn:E;
    try (vm_compute in E; discriminate).
  exists ts', pull, push, (list_prod (ranks (length ts')) (ranks (length ts'))).
  split; [exact two_mapped|]. split; [exact empty_ready|]. split; [exact H|]. split; [exact eq_refl|].
  split; [apply Permutation_refl|]. vm_compute in E. injection E as <-. vm_compute. reflexivity.
Qed.

Lemma ring_push_deadlocks : exists lens ms l ws ts pull push n st,
  created_with 0 lens ms l ws ts pull push /\
  rsteps false (map push_reqs ts) n (begin (map (cycle true) (map push_reqs ts))) st /\
  stuck false (map push_reqs ts) st.
Proof.
  exists ring_lens, ring_ms, (StaticFixed 1), ring_ws, ring_ts, (ring_msgs pull_messages), (ring_msgs push_messages).
  rewrite ring_reqs_ok. destruct ring_stuck as [n [st H]]. exists n, st. split; [exact ring_created|exact H].
Qed.

Lemma pull_once_twice : exists lens ms l ws ts pull push n st,
  created_with 0 lens ms l ws ts pull push /\
  rsteps false (map pull_reqs ts) n (begin (map (once true) (map pull_reqs ts))) st /\ finished st /\
  ~ NoDup (log st).
Proof.
  destruct (create_succeeds Z 0 two_lens two_ms Max (two_ws Max max_calls) two_mapped max_ready)
    as [ts [pull [push [H _]]]].
  destruct duo_twice as [n [st [H1 [H2 H3]]]].
  exists two_lens, two_ms, Max, (two_ws Max max_calls), ts, pull, push, n, st.
  split; [exact H|]. assert (E : map pull_reqs ts = duo_reqs).
  { destruct H as [_ [_ [E _]]]. vm_compute in E. injection E as <-. vm_compute. reflexivity. }
  rewrite E. split; auto. split; auto. rewrite H3. intro N. inversion N; subst. cbn in *. tauto.
Qed.
