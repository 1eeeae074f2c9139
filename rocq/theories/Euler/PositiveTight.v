(** What the increment fix-up does to the turbulence variables. *)
From Coq Require Import Reals List Arith Bool Lra.
From Verif Require Import Base.Prelude Base.PreludeFacts Euler.GasModel Euler.CompressModel Euler.PositiveModel Euler.PositiveSpec.
Import ListNotations.
Local Open Scope R_scope.

Definition all_multiple (t : R) (y x : state) : Prop := flow_multiple t y x /\ forall i, extra y i = t * extra x i.
Lemma all_one x : all_multiple 1 x x.
Proof. split; [split; [|split]|]; intros; ring. Qed.
Lemma all_scale a x : all_multiple a (sscale a x) x.
Proof. split; [split; [|split]|]; reflexivity. Qed.
Lemma all_trans a b x y z : all_multiple a y x -> all_multiple b z y -> all_multiple (b * a) z x.
Proof.
  intros ((A & B & C) & D) ((E & F & G) & H). split; [split; [|split]|]; intros; rewrite ?E, ?F, ?G, ?H, ?A, ?B, ?C, ?D; ring.
Qed.
Lemma density_multiple st u x y : fix_density st u x = Ok y -> exists t, all_multiple t y x.
Proof.
  unfold fix_density. destruct (Rle_dec _ _); [destruct (Req_EM_T _ _); [discriminate|]|]; intro H; injection H as <-; [eexists; apply all_scale|exists 1; apply all_one].
Qed.
Lemma energy_multiple d st u x y : fix_energy d st u x = Ok y -> exists t, all_multiple t y x.
Proof.
  unfold fix_energy. intro H. apply bind_Ok in H. destruct H as (ek & _ & H). destruct (Rlt_dec _ _); [|discriminate]. apply bind_Ok in H. destruct H as (en & _ & H). destruct (Rle_dec _ _).
  - destruct (Req_EM_T _ _); [discriminate|]. cbv zeta in H. destruct (Rlt_dec _ _); [|discriminate]. apply bind_Ok in H. destruct H as (al & _ & H). apply bind_Ok in H. destruct H as (a & _ & H). apply bind_Ok in H. destruct H as (e & _ & H). destruct (Rlt_dec _ _); [discriminate|]. injection H as <-. eexists. apply all_scale.
  - injection H as <-. exists 1. apply all_one.
Qed.
Definition damped (tb : turbulence) (old step : R) : R :=
  if Rle_dec 0 (old + step) then old + step
  else let new := old * exp (step / (old + / 10 ^ 6)) in match tb with OneEq => Rmax (/ 10 ^ 6) new | _ => new end.
Lemma extra_fix least i u x y : fix_extra least i u x = Ok y -> (rho y = rho x /\ mom y = mom x /\ ene y = ene x /\ forall j, j <> i -> extra y j = extra x j) /\
  extra u i + extra y i = if Rle_dec 0 (extra u i + extra x i) then extra u i + extra x i else
    let new := extra u i * exp (extra x i / (extra u i + / 10 ^ 6)) in match least with Some l => Rmax l new | None => new end.
Proof.
  unfold fix_extra. destruct (Rlt_dec _ _) as [N|N].
  - destruct (Rle_dec 0 (extra u i)); [|discriminate]. intro H. injection H as <-. cbn. split; [repeat split; auto; intros j J; now rewrite (proj2 (Nat.eqb_neq j i) J)|]. rewrite Nat.eqb_refl. destruct (Rle_dec _ _); [lra|]. destruct least; ring.
  - intro H. injection H as <-. split; [repeat split; auto|]. destruct (Rle_dec _ _); [reflexivity|lra].
Qed.
Lemma inc_turbulence d tb st u x y : compress_inc d tb st u x = Ok y ->
  exists t, flow_multiple t y x /\ forall i, In i (extras_of tb) -> extra (sadd u y) i = damped tb (extra u i) (t * extra x i).
Proof.
  unfold compress_inc. destruct (Rlt_dec _ _); [|discriminate]. intro H. apply bind_Ok in H. destruct H as (a & A & H). apply bind_Ok in H. destruct H as (b & B & H). destruct (density_multiple _ _ _ _ A) as (t1 & T1). destruct (energy_multiple _ _ _ _ _ B) as (t2 & T2).
  destruct (all_trans _ _ _ _ _ T1 T2) as ((R1 & M1 & E1) & X1). exists (t2 * t1). destruct tb; cbn [sadd extra].
  - injection H as <-. split; [repeat split; auto|intros i []].
  - destruct (extra_fix _ _ _ _ _ H) as ((Q1 & Q2 & Q3 & Q4) & Q). split; [repeat split; intros; rewrite ?Q1, ?Q2, ?Q3; auto|]. intros i I. cbn in I. destruct I as [<-|[]]. rewrite Q, X1. unfold damped. reflexivity.
  - apply bind_Ok in H. destruct H as (c & C & H). destruct (extra_fix _ _ _ _ _ C) as ((Q1 & Q2 & Q3 & Q4) & Q). destruct (extra_fix _ _ _ _ _ H) as ((P1 & P2 & P3 & P4) & P). split; [repeat split; intros; rewrite ?P1, ?P2, ?P3, ?Q1, ?Q2, ?Q3; auto|]. intros i I. cbn in I. destruct I as [<-|[<-|[]]].
    + rewrite P4 by auto. rewrite Q, X1. reflexivity.
    + rewrite P, Q4, X1 by auto. reflexivity.
Qed.
