(** A command line that is accepted spells paths and gives values. *)

From Coq Require Import List ZArith Bool String Ascii Lia Arith.
From Verif Require Import Base.Prelude Euler.ConfigModel Euler.ConfigSpec Euler.ConfigProofs.
Import ListNotations.
Local Open Scope string_scope.

Lemma tilde_cases : forall s cur,
  (exists r, s = String "0" r /\ tokens (String "~" s) cur = tokens r (String "~" cur)) \/
  (exists r, s = String "1" r /\ tokens (String "~" s) cur = tokens r (String "/" cur)) \/
  tokens (String "~" s) cur = Abort.
Proof.
  intros [|[[] [] [] [] [] [] [] []] s] cur; try (right; right; reflexivity).
  - right. left. exists s. split; reflexivity.
  - left. exists s. split; reflexivity.
Qed.

Lemma char_cases : forall a s cur,
  (a = "/"%char /\ tokens (String a s) cur = (do l <- tokens s ""; Ok (rev_s cur "" :: l))) \/
  a = "~"%char \/
  (tokens (String a s) cur = tokens s (String a cur) /\ forall t, escape (String a t) = String a (escape t)).
Proof.
  intros [[] [] [] [] [] [] [] []] s cur;
    first [right; right; split; reflexivity | right; left; reflexivity | left; split; reflexivity].
Qed.

Lemma tokens_back : forall n s cur l, (String.length s <= n)%nat -> tokens s cur = Ok l ->
  exists t p, l = rev_s cur t :: p /\ s = escape t ++ spell p.
Proof.
  induction n as [|n IH]; intros [|a s] cur l L E.
  - injection E as <-. now exists "", [].
  - cbn in L. lia.
  - injection E as <-. now exists "", [].
  - cbn [String.length] in L. destruct (char_cases a s cur) as [[-> T]|[->|[T X]]].
    + rewrite T in E. destruct (tokens s "") as [m| |] eqn:F; try discriminate. injection E as <-.
      destruct (IH s "" m) as (t & p & -> & ->); [lia|exact F|].
      exists "", (t :: p). split; reflexivity.
    + destruct (tilde_cases s cur) as [(r & -> & T)|[(r & -> & T)|T]]; rewrite T in E; [| |discriminate].
      * destruct (IH r (String "~" cur) l) as (t & p & -> & ->); [cbn in L; lia|exact E|].
        exists (String "~" t), p. split; reflexivity.
      * destruct (IH r (String "/" cur) l) as (t & p & -> & ->); [cbn in L; lia|exact E|].
        exists (String "/" t), p. split; reflexivity.
    + rewrite T in E. destruct (IH s (String a cur) l) as (t & p & -> & ->); [lia|exact E|].
      exists (String a t), p. split; [reflexivity|]. now rewrite X.
Qed.

Lemma pointer_back : forall s p, pointer s = Ok p -> s = spell p.
Proof.
  intros [|a s] p E; [now injection E as <-|].
  assert (C : a = "/"%char \/ pointer (String a s) = Abort).
  { destruct a as [[] [] [] [] [] [] [] []]; first [right; reflexivity | left; reflexivity]. }
  destruct C as [->|C]; [|rewrite C in E; discriminate].
  change (tokens s "" = Ok p) in E.
  destruct (tokens_back _ s "" p (le_n _) E) as (t & q & -> & ->). reflexivity.
Qed.

Lemma overwrites_back : forall keys values j k,
  List.length keys = List.length values -> foldM overwrite j (combine keys values) = Ok k ->
  exists os, keys = spelled os /\ values = given os.
Proof.
  induction keys as [|s keys IH]; intros [|v values] j k L E; try discriminate.
  - now exists [].
  - cbn [combine foldM] in E. unfold overwrite at 1 in E. cbn [fst snd] in E.
    destruct (pointer s) as [p| |] eqn:P; try discriminate. cbn [bind] in E.
    destruct v as [v|]; [|discriminate].
    destruct (poke j p v) as [j'| |]; try discriminate. cbn [bind] in E.
    destruct (IH values j' k) as (os & -> & ->); [now injection L|exact E|].
    exists ((p, v) :: os). split; [|reflexivity].
    cbn [spelled map fst]. now rewrite (pointer_back s p P).
Qed.

Lemma configure_back : forall req d u keys values j,
  configure req d u keys values = Ok j -> exists os, keys = spelled os /\ values = given os.
Proof.
  intros req d u keys values j E. unfold configure in E.
  destruct (Nat.eqb_spec (List.length keys) (List.length values)) as [L|L]; [|discriminate].
  cbn [assert_ bind] in E.
  destruct (foldM overwrite _ _) as [k| |] eqn:F; try discriminate.
  exact (overwrites_back keys values _ k L F).
Qed.
