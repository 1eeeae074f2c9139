(** Settings and flows for the inner iterations, and what goes wrong. *)

From Coq Require Import List ZArith Bool Reals Sorted Lia Lra.
From Verif Require Import Base.Prelude Base.PreludeFacts Euler.InnerModel Euler.InnerSpec Euler.InnerProofs.
Import ListNotations.
Local Open Scope Z_scope.

(** ** The statements *)

Lemma stops : forall c k f s, sound c -> skips k = false ->
  exists s' tr m, stage c k f s = Ok (s', tr) /\ ends_at c k f m /\ exactly (iterations tr) m (fun _ => True).
Proof.
  intros c k f s Hs Hk. destruct (stage_ok c k f s Hs Hk) as (s' & tr & m & last & E & A & B & C & _).
  exists s', tr, m. split; [exact E | split; [exact A | exact C]].
Qed.

Lemma written : forall c k f s s' tr, sound c -> skips k = false -> stage c k f s = Ok (s', tr) ->
  exists m last, ends_at c k f m
    /\ (last = m \/ (last = m + 1 /\ closes k = true /\ m = Z.max 0 (nMax c)))
    /\ exactly (lines tr) last (fun i => multiple i (nConsole c) \/ met c f i \/ nMax c < i)
    /\ exactly (datas tr) last (fun i => multiple i (nData c))
    /\ exactly (dataCs tr) last (fun i => multiple i (nDataC c) /\ ~ (lazyCover c = true /\ multiple i (nData c)))
    /\ exactly (restarts tr) last (fun i => multiple i (nRestart c))
    /\ exactly (restartCs tr) last (fun i => multiple i (nRestartC c) /\ ~ (lazyCover c = true /\ multiple i (nRestart c)))
    /\ iterAll s' = iterAll s + last.
Proof.
  intros c k f s s' tr Hs Hk Heq. destruct (stage_ok c k f s Hs Hk) as (s0 & tr0 & m & last & E & A & B & C & D & F & _).
  rewrite Heq in E. injection E as <- <-. exists m, last. split; [exact A|]. split.
  { destruct B as [[B _]|(B1 & B2 & B3 & _)]; [left; exact B | right; auto]. }
  destruct D as (D1 & D2 & D3 & D4 & D5). repeat (split; [assumption|]). exact F.
Qed.

Lemma ramps : forall c l s, sound c -> 1 <= nMax c ->
  Forall (fun p => closes (fst p) = true) l \/ (List.length l <= 1)%nat ->
  exists s' trs, step c l s = Ok (s', trs)
    /\ Forall2 (fun p tr => skips (fst p) = false -> nStart (fst p) <= Z.max 1 (nMin c) ->
         forall i v, In (Iterate i v) tr \/ In (Line i v) tr -> v = Some (ramp_value c i)) l trs.
Proof.
  intros c l s Hs Hn Hl. unfold step.
  destruct (stages_ok c l {| base := base s; cflNow := Some (CFL c); iterAll := iterAll s |} Hs Hn eq_refl Hl) as (s' & trs & E & _ & F).
  exists s', trs. split; [exact E|]. clear - F. induction F as [|p tr l trs H F IH]; constructor; [|exact IH].
  intros Hk Hst. rewrite Hk in H. destruct H as (m & last & _ & _ & _ & _ & H). exact (H Hst).
Qed.

Lemma restarts_cfl : forall c k f s s' tr, sound c -> skips k = false -> closes k = true ->
  stage c k f s = Ok (s', tr) -> cflNow s' = Some (CFL c).
Proof.
  intros c k f s s' tr Hs Hk Hc Heq. destruct (stage_ok c k f s Hs Hk) as (s0 & tr0 & m & last & E & _ & _ & _ & _ & _ & G & _).
  rewrite Heq in E. injection E as <- <-. apply G. left. exact Hc.
Qed.

(** The ramp goes up from one end to the other. *)
Lemma ramp_bounds : forall c i j, sound c -> rampStart c <= nMax c -> (CFL c <= rampEnd c)%R -> i <= j ->
  (CFL c <= ramp_value c i <= ramp_value c j)%R /\ (ramp_value c j <= rampEnd c)%R
  /\ (rampStart c + rampLength c < j -> ramp_value c j = rampEnd c).
Proof.
  intros c i j (_ & _ & _ & _ & _ & _ & Hc & H0 & Hr) Hon Hle Hij.
  destruct Hr as [Hr|(HL & HS & HE)]; [lia|].
  assert (L : (0 < IZR (rampLength c))%R) by (apply IZR_lt; exact HL).
  set (e := (rampEnd c / CFL c)%R).
  assert (He : (1 <= e)%R).
  { unfold e. apply Rmult_le_reg_r with (CFL c); [exact Hc|]. unfold Rdiv. rewrite Rmult_assoc, Rinv_l by lra. lra. }
  assert (Hln : (0 <= ln e)%R).
  { destruct (Req_dec e 1) as [->|N]; [rewrite ln_1; lra|]. rewrite <- ln_1. left. apply ln_increasing; lra. }
  assert (P : forall x y, (x <= y)%R -> (Rpower e x <= Rpower e y)%R).
  { intros x y Hxy. unfold Rpower. destruct (Req_dec (x * ln e) (y * ln e)) as [->|N]; [apply Rle_refl|]. left. apply exp_increasing.
    assert (x * ln e <= y * ln e)%R by (apply Rmult_le_compat_r; assumption). lra. }
  assert (P0 : Rpower e 0 = 1%R) by (unfold Rpower; rewrite Rmult_0_l, exp_0; reflexivity).
  assert (P1 : (CFL c * Rpower e 1 = rampEnd c)%R) by (rewrite Rpower_1 by lra; unfold e; field; lra).
  assert (Q : forall x y, x <= y -> (IZR x / IZR (rampLength c) <= IZR y / IZR (rampLength c))%R).
  { intros x y Hxy. unfold Rdiv. apply Rmult_le_compat_r; [left; apply Rinv_0_lt_compat; exact L | apply IZR_le; exact Hxy]. }
  assert (Z0 : forall x, 0 <= x -> (0 <= Rmin 1 (IZR x / IZR (rampLength c)))%R).
  { intros x Hx. apply Rmin_glb; [lra|]. replace 0%R with (IZR 0 / IZR (rampLength c))%R by (unfold Rdiv; ring). apply Q, Hx. }
  assert (V : forall x, rampStart c <= x - 1 -> ramp_value c x = (CFL c * Rpower e (Rmin 1 (IZR (x - 1 - rampStart c) / IZR (rampLength c))))%R).
  { intros x Hx. unfold ramp_value. destruct (Z.ltb_spec (x - 1) (rampStart c)); [lia | reflexivity]. }
  assert (W : forall x, x - 1 < rampStart c -> ramp_value c x = CFL c).
  { intros x Hx. unfold ramp_value. destruct (Z.ltb_spec (x - 1) (rampStart c)); [reflexivity | lia]. }
  assert (Low : forall x, (CFL c <= ramp_value c x)%R).
  { intros x. destruct (Z_lt_le_dec (x - 1) (rampStart c)) as [H|H]; [rewrite W by exact H; lra|]. rewrite V by exact H.
    rewrite <- (Rmult_1_r (CFL c)) at 1. apply Rmult_le_compat_l; [lra|].
    apply Rle_trans with (Rpower e 0); [rewrite P0; lra | apply P, Z0; lia]. }
  split; [split; [apply Low|]|split].
  - destruct (Z_lt_le_dec (i - 1) (rampStart c)) as [H|H]; [rewrite (W i H); apply Low|].
    rewrite (V i), (V j) by lia. apply Rmult_le_compat_l; [lra|]. apply P. apply Rle_min_compat_l. apply Q. lia.
  - destruct (Z_lt_le_dec (j - 1) (rampStart c)) as [H|H]; [rewrite (W j H); exact Hle|]. rewrite V by exact H. rewrite <- P1.
    apply Rmult_le_compat_l; [lra|]. apply P, Rmin_l.
  - intros H. rewrite V by lia. rewrite Rmin_left; [exact P1|].
    apply Rmult_le_reg_r with (IZR (rampLength c)); [exact L|]. unfold Rdiv. rewrite Rmult_assoc, Rinv_l by lra. rewrite Rmult_1_l, Rmult_1_r.
    apply IZR_le. lia.
Qed.

(** ** Examples *)

Definition usual : settings :=
  {| nConsole := 1; nData := 10000; nDataC := 5; nRestart := int32_max; nRestartC := int32_max; lazyCover := false;
     CFL := 1; rampStart := 2; rampLength := 10; rampEnd := 100;
     nMax := 20; nMin := 2; threshold := 1 / 2; useCL := false |}.
Definition dirk : scheme := {| closes := true; nStart := 1; skips := false |}.
Definition quick : flow := {| residual := fun i => if i =? 1 then 1%R else 0%R; atTarget := fun _ => false |}.
Definition begin : state := {| base := 0; cflNow := Some 1%R; iterAll := 0 |}.

Lemma usual_sound : sound usual.
Proof. unfold sound, usual, int32_max; cbn. repeat split; try lia; try lra. right. repeat split; try lia; lra. Qed.

Lemma small_pos : (0 < verySmall)%R.
Proof. unfold verySmall. apply Rinv_0_lt_compat, IZR_lt. reflexivity. Qed.

Lemma quick_ends : ends_at usual dirk quick 2.
Proof.
  unfold ends_at. cbn [nMax usual nStart dirk]. split; [lia|]. split; [intros i Hi (M & _); cbn in M; lia|].
  intros _. split; [lia|]. split; [|lia]. split; [cbn; lia|]. split; [discriminate|].
  exists 1%R. split.
  - split; [exists 1; split; [lia | reflexivity]|]. intros j Hj. cbn. destruct (j =? 1); lra.
  - cbn. unfold Rdiv. rewrite Rmult_0_l. lra.
Qed.

(** ** What goes wrong *)

(** Where nothing stops the iterations, a line is written for one more. *)
Lemma extra : forall c k f s, sound c -> skips k = false -> closes k = true -> 0 <= nMax c ->
  (forall i, ~ met c f i) ->
  exists s' tr, stage c k f s = Ok (s', tr)
    /\ In (nMax c + 1) (lines tr) /\ ~ In (nMax c + 1) (iterations tr) /\ iterAll s' = iterAll s + (nMax c + 1)
    /\ (multiple (nMax c + 1) (nRestart c) -> In (nMax c + 1) (restarts tr)).
Proof.
  intros c k f s Hs Hk Hc Hn Hno. destruct (stage_ok c k f s Hs Hk) as (s' & tr & m & last & E & A & B & C & D & F & _).
  exists s', tr. split; [exact E|].
  destruct B as [[B [B'|[B' _]]]|(B1 & _ & B2 & _)]; [congruence | destruct (Hno _ B') |].
  assert (El : last = nMax c + 1) by lia. subst last.
  split; [apply D; split; [lia | right; right; lia]|].
  split; [intros H9; apply C in H9; lia|]. split; [lia|]. intros Hm. apply D. split; [lia | exact Hm].
Qed.

(** The default length of the ramp with a start: an overflow. *)
Definition long : settings :=
  {| nConsole := 1; nData := 1; nDataC := 1; nRestart := 1; nRestartC := 1; lazyCover := false;
     CFL := 1; rampStart := 1; rampLength := int32_max; rampEnd := 100;
     nMax := 3; nMin := 5; threshold := 1 / 2; useCL := false |}.
Definition short : settings :=
  {| nConsole := 1; nData := 7; nDataC := 7; nRestart := 7; nRestartC := 7; lazyCover := false;
     CFL := 1; rampStart := 1; rampLength := 0; rampEnd := 100;
     nMax := 2; nMin := 5; threshold := 1 / 2; useCL := false |}.

Lemma overflow : stage long dirk quick begin = UB.
Proof. reflexivity. Qed.

Lemma no_number : exists s' tr, stage short dirk quick begin = Ok (s', tr) /\ In (Iterate 2 None) tr.
Proof. eexists. eexists. split; [reflexivity|]. right. right. left. reflexivity. Qed.

(** A Hermite scheme that goes on after a stop: the CFL number falls back. *)
Definition early : settings :=
  {| nConsole := 1; nData := 7; nDataC := 7; nRestart := 7; nRestartC := 7; lazyCover := false;
     CFL := 1; rampStart := 0; rampLength := 2; rampEnd := 4;
     nMax := 2; nMin := 1; threshold := 1 / 2; useCL := false |}.
Definition hermite : scheme := {| closes := true; nStart := 2; skips := false |}.
Definition still : flow := {| residual := fun _ => 0%R; atTarget := fun _ => false |}.

Lemma early_sound : sound early.
Proof. unfold sound, early, int32_max; cbn. repeat split; try lia; try lra. right. repeat split; try lia; lra. Qed.

Lemma falls_back : sound early /\ exists s' tr, stage early hermite still begin = Ok (s', tr)
  /\ In (Iterate 2 (Some 1%R)) tr /\ (1 < ramp_value early 2)%R.
Proof.
  split; [exact early_sound|].
  assert (S : forall i b, 1 <= i -> (0 <= b)%R -> ifStop early i 0 b false = true).
  { intros i b Hi Hb. unfold ifStop. cbn [useCL early nMin threshold]. destruct (Z.ltb_spec i 1); [lia|].
    destruct (Rlt_dec (0 / (b + verySmall)) (1 / 2)) as [_|N]; [reflexivity|]. exfalso. apply N. unfold Rdiv. rewrite Rmult_0_l. lra. }
  assert (F1 : fstop early 1 0 false begin = Ok (true, {| base := 0; cflNow := Some 1%R; iterAll := 1 |}, [Line 1 (Some 1%R)])).
  { unfold fstop. replace (ifStop early 1 0 (largest 1 0 (base begin)) false) with true by (symmetry; apply S; [lia | cbn; lra]). reflexivity. }
  assert (F2 : fstop early 2 0 false {| base := 0; cflNow := Some 1%R; iterAll := 1 |}
               = Ok (true, {| base := Rmax 0 0; cflNow := Some 1%R; iterAll := 2 |}, [Line 2 (Some 1%R)])).
  { unfold fstop. cbn [base]. replace (ifStop early 2 0 (largest 2 0 0) false) with true by (symmetry; apply S; [lia | cbn; apply Rmax_l]). reflexivity. }
  exists {| base := Rmax 0 0; cflNow := Some 1%R; iterAll := 2 |}, [Iterate 1 (Some 1%R); Line 1 (Some 1%R); Iterate 2 (Some 1%R); Line 2 (Some 1%R)].
  split; [|split; [right; right; left; reflexivity|]].
  - unfold stage. change (Z.to_nat (nMax early)) with 2%nat. cbn [turns skips hermite residual still atTarget].
    rewrite F1. cbn [bind nStart andb]. change (2 <=? 1) with false. change (1 =? int32_max) with false. cbv iota. change (1 + 1) with 2.
    rewrite F2. reflexivity.
  - unfold ramp_value. cbn [rampStart early rampLength rampEnd CFL]. change (2 - 1 <? 0) with false. change (2 - 1 - 0) with 1. cbv iota.
    rewrite Rmin_right by lra. unfold Rpower. rewrite Rmult_1_l. rewrite <- exp_0 at 1. apply exp_increasing.
    assert (0 < ln (4 / 1))%R by (rewrite <- ln_1; apply ln_increasing; lra). lra.
Qed.

(** A flow whose residual never falls. *)
Definition constant : flow := {| residual := fun _ => 1%R; atTarget := fun _ => false |}.
Definition long_run : settings :=
  {| nConsole := 10; nData := 10000; nDataC := 5; nRestart := 21; nRestartC := int32_max; lazyCover := false;
     CFL := 1; rampStart := 2; rampLength := 10; rampEnd := 100;
     nMax := 20; nMin := 2; threshold := 1 / 2; useCL := false |}.

Lemma long_run_sound : sound long_run.
Proof. unfold sound, long_run, int32_max; cbn. repeat split; try lia; try lra. right. repeat split; try lia; lra. Qed.

Lemma constant_never : forall i, ~ met long_run constant i.
Proof.
  intros i (_ & _ & m & [(j & _ & E) _] & H). cbn in E, H. subst m.
  assert (V : (verySmall < 1)%R).
  { unfold verySmall. rewrite <- Rinv_1. apply Rinv_lt_contravar; [rewrite Rmult_1_l; apply IZR_lt; reflexivity | apply IZR_lt; reflexivity]. }
  pose proof small_pos as P. assert (X : (1 / 2 < 1 / (1 + verySmall))%R).
  { unfold Rdiv. apply Rmult_lt_compat_l; [lra|]. apply Rinv_lt_contravar; [|lra]. apply Rmult_lt_0_compat; lra. }
  lra.
Qed.
