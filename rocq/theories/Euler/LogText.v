(** Writing and reading of the tables as texts. *)

From Coq Require Import List ZArith Bool String Ascii Lia Decimal DecimalString DecimalZ DecimalPos.
From Verif Require Import Base.Prelude Euler.LogModel Euler.LogSpec.
Import ListNotations.
Local Open Scope Z_scope.
Local Open Scope string_scope.

Lemma app_nil_s : forall s, s ++ "" = s.
Proof. induction s as [|a s IH]; cbn; congruence. Qed.

Lemma app_assoc_s : forall a b c, (a ++ b) ++ c = a ++ b ++ c.
Proof. induction a as [|x a IH]; intros b c; cbn; [reflexivity | now rewrite IH]. Qed.

Lemma app_inj_s : forall a b c, a ++ b = a ++ c -> b = c.
Proof. induction a as [|x a IH]; cbn; intros b c E; [exact E | injection E; apply IH]. Qed.

(** Text without separators and spaces. *)
Fixpoint clean (s : string) : Prop :=
  match s with
  | "" => True
  | String a s => (a <> comma /\ a <> newline /\ a <> " "%char) /\ clean s
  end.

Lemma clean_plain : forall s, clean s -> plain s.
Proof. induction s as [|a s IH]; cbn; [auto | intros [(A & B & _) C]; auto]. Qed.

Lemma clean_trim : forall s, clean s -> trim s = s.
Proof.
  intros [|a s] C; [reflexivity|]. cbn [clean] in C. destruct C as [(_ & _ & N) _].
  destruct a as [[] [] [] [] [] [] [] []]; try reflexivity. now elim N.
Qed.

Lemma clean_digits : forall d, clean (NilEmpty.string_of_uint d).
Proof.
  induction d; cbn; auto; (split; [repeat split; discriminate | assumption]).
Qed.

Lemma clean_zdigits : forall d, clean (NilZero.string_of_uint d).
Proof.
  intros d. unfold NilZero.string_of_uint. destruct d; try apply (clean_digits (_ _)).
  cbn. repeat split; discriminate.
Qed.

Lemma clean_decimal : forall z, clean (decimal z).
Proof.
  intros z. unfold decimal, NilZero.string_of_int. destruct (Z.to_int z); [apply clean_zdigits|].
  cbn. split; [repeat split; discriminate | apply clean_zdigits].
Qed.

Lemma to_int_ok : forall z, Z.to_int z <> Pos Nil /\ Z.to_int z <> Neg Nil.
Proof.
  intros [|p|p]; cbn; split; try discriminate; intros E; injection E; apply Unsigned.to_uint_nonnil.
Qed.

Lemma decimal_inj : forall a b, decimal a = decimal b -> a = b.
Proof.
  intros a b E. unfold decimal in E.
  pose proof (to_int_ok a) as [A1 A2]. pose proof (to_int_ok b) as [B1 B2].
  pose proof (NilZero.isi _ A1 A2) as A. pose proof (NilZero.isi _ B1 B2) as B.
  rewrite E, B in A. injection A as A. rewrite <- (DecimalZ.of_to a), <- (DecimalZ.of_to b). now rewrite A.
Qed.

Lemma decimal_nat_inj : forall i j, decimal (Z.of_nat i) = decimal (Z.of_nat j) -> i = j.
Proof. intros i j E. apply decimal_inj in E. lia. Qed.

(** ** Splitting *)

Fixpoint without (c : ascii) (s : string) : Prop :=
  match s with "" => True | String a s => a <> c /\ without c s end.

Lemma without_app : forall c s t, without c s -> without c t -> without c (s ++ t).
Proof. induction s as [|a s IH]; cbn; intros t A B; [exact B | split; [apply A | apply IH; tauto]]. Qed.

Lemma plain_without : forall s, plain s -> without comma s /\ without newline s.
Proof. induction s as [|a s IH]; cbn; [auto | intros (A & B & C); destruct (IH C); auto]. Qed.

Lemma split_without : forall c s, without c s -> split c s = [s].
Proof.
  induction s as [|a s IH]; cbn [without split]; [reflexivity|]. intros [A B]. rewrite (IH B).
  destruct (Ascii.eqb_spec a c); [contradiction | reflexivity].
Qed.

Lemma split_sep : forall c s t, without c s -> split c (s ++ String c t) = s :: split c t.
Proof.
  induction s as [|a s IH]; cbn [without split append]; intros t W.
  - now rewrite Ascii.eqb_refl.
  - destruct W as [A B]. rewrite (IH t B). destruct (Ascii.eqb_spec a c); [contradiction | reflexivity].
Qed.

Lemma split_joined : forall l, l <> [] -> Forall plain l -> split comma (joined l) = l.
Proof.
  induction l as [|x l IH]; intros N P; [contradiction|]. inversion P as [|x' l' Px Pl]. subst.
  destruct l as [|y l].
  - cbn. apply split_without. now apply plain_without.
  - change (joined (x :: y :: l)) with (x ++ String comma (joined (y :: l))).
    rewrite split_sep by now apply plain_without. rewrite IH; [reflexivity | discriminate | exact Pl].
Qed.

Lemma joined_line : forall l, Forall plain l -> without newline (joined l).
Proof.
  induction l as [|x l IH]; intros P; [exact I|]. inversion P as [|x' l' Px Pl]. subst.
  destruct l as [|y l].
  - cbn. now apply plain_without.
  - change (joined (x :: y :: l)) with (x ++ String comma (joined (y :: l))).
    apply without_app; [now apply plain_without|]. cbn [without]. split; [discriminate | now apply IH].
Qed.

(** Lines one after another. *)
Definition body (ls : list string) : string := fold_right (fun l t => l ++ nl ++ t) "" ls.

Lemma body_snoc : forall ls l, body (ls ++ [l])%list = body ls ++ l ++ nl.
Proof.
  induction ls as [|x ls IH]; intros l.
  - cbn. reflexivity.
  - change (body ((x :: ls) ++ [l])%list) with (x ++ nl ++ body (ls ++ [l])%list).
    change (body (x :: ls)) with (x ++ nl ++ body ls). rewrite IH. now rewrite !app_assoc_s.
Qed.

Lemma split_body : forall ls, Forall (without newline) ls -> split newline (body ls) = (ls ++ [""])%list.
Proof.
  induction ls as [|x ls IH]; intros P; [reflexivity|]. inversion P. subst.
  change (body (x :: ls)) with (x ++ String newline (body ls)). rewrite split_sep by assumption.
  now rewrite IH.
Qed.

Lemma rows_body : forall ls, Forall (without newline) ls -> rows (body ls) = Some (map (split comma) ls).
Proof.
  intros ls P. unfold rows. rewrite (split_body ls P), rev_app_distr. cbn. now rewrite rev_involutive.
Qed.
