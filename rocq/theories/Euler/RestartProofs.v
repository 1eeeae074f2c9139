(** Proofs about restart files. *)
From Coq Require Import List ZArith Lia Bool String Ascii DecimalString DecimalNat Arith.
From Verif Require Import Base.Prelude Base.PreludeFacts Euler.RestartModel Euler.RestartSpec.
Import ListNotations.
Local Open Scope string_scope.

(** ** Strings *)

Fixpoint has (c : ascii) (s : string) : Prop :=
  match s with EmptyString => False | String x t => x = c \/ has c t end.

Lemma sapp_assoc a b c : (a ++ b) ++ c = a ++ (b ++ c).
Proof. induction a; cbn; [easy|now rewrite IHa]. Qed.

Lemma sapp_nil a : a ++ "" = a.
Proof. induction a; cbn; [easy|now rewrite IHa]. Qed.

Lemma slen a b : String.length (a ++ b) = (String.length a + String.length b)%nat.
Proof. induction a; cbn; [easy|now rewrite IHa]. Qed.

Lemma has_app c a b : has c (a ++ b) <-> has c a \/ has c b.
Proof. induction a; cbn; [tauto|]. rewrite IHa. tauto. Qed.

Lemma split_at c : forall a b x y,
  a ++ String c x = b ++ String c y -> ~ has c x -> ~ has c y -> a = b /\ x = y.
Proof.
  induction a as [|d a IH]; intros [|e b] x y E Hx Hy; cbn in E.
  - now injection E.
  - injection E as -> ->. exfalso. apply Hx, has_app. right. now left.
  - injection E as -> E. exfalso. apply Hy. rewrite <- E. apply has_app. right. now left.
  - injection E as -> E. destruct (IH b x y E Hx Hy) as [-> ->]. easy.
Qed.

Lemma sapp_cancel_l a : forall x y, a ++ x = a ++ y -> x = y.
Proof. induction a; cbn; intros x y E; [easy|]. injection E. apply IHa. Qed.

Lemma sapp_len : forall a b x y,
  a ++ x = b ++ y -> String.length a = String.length b -> a = b /\ x = y.
Proof.
  induction a as [|c a IH]; intros [|d b] x y E L; cbn in *; try discriminate; [easy|].
  injection E as -> E. destruct (IH b x y E) as [-> ->]; [lia|easy].
Qed.

Lemma sapp_cancel_r a b x : a ++ x = b ++ x -> a = b.
Proof.
  intros E. apply (sapp_len a b x x E).
  assert (L := f_equal String.length E). rewrite !slen in L. lia.
Qed.

Lemma last_char a b c d : a ++ String c "" = b ++ String d "" -> c = d.
Proof.
  intros E. assert (L := f_equal String.length E). rewrite !slen in L. cbn in L.
  destruct (sapp_len _ _ _ _ E) as [_ F]; [lia|]. now injection F.
Qed.

Lemma sub_all x : substring 0 (String.length x) x = x.
Proof. induction x; cbn; [easy|now rewrite IHx]. Qed.

Lemma sub_app a : forall x, substring (String.length a) (String.length x) (a ++ x) = x.
Proof. induction a; intros x; cbn; [apply sub_all|apply IHa]. Qed.

Lemma hasSuffix_app a x : hasSuffix (a ++ x) x = true.
Proof.
  unfold hasSuffix. rewrite slen.
  rewrite (proj2 (Nat.ltb_ge _ _)) by lia.
  replace (String.length a + String.length x - String.length x)%nat with (String.length a) by lia.
  rewrite sub_app. apply String.eqb_refl.
Qed.

Lemma sub_split : forall m s, (m <= String.length s)%nat ->
  s = substring 0 m s ++ substring m (String.length s - m) s.
Proof.
  induction m as [|m IH]; intros s L.
  - rewrite Nat.sub_0_r, sub_all. now destruct s.
  - destruct s as [|c s]; cbn in *; [lia|]. f_equal. apply IH. lia.
Qed.

Lemma hasSuffix_inv s x : hasSuffix s x = true -> exists a, s = a ++ x.
Proof.
  unfold hasSuffix. destruct (Nat.ltb_spec (String.length s) (String.length x)) as [L|L]; [easy|].
  intros E. apply String.eqb_eq in E.
  exists (substring 0 (String.length s - String.length x) s).
  assert (F := sub_split (String.length s - String.length x) s ltac:(lia)).
  replace (String.length s - (String.length s - String.length x))%nat
    with (String.length x) in F by lia.
  now rewrite E in F.
Qed.

(** ** Numbers *)

Definition digit (c : ascii) : Prop := In c ["0"; "1"; "2"; "3"; "4"; "5"; "6"; "7"; "8"; "9"]%char.

Lemma uint_digits : forall d c, has c (NilEmpty.string_of_uint d) -> digit c.
Proof.
  induction d; cbn; intros c H; try easy;
    (destruct H as [<-|H]; [unfold digit; cbn; tauto|now apply IHd]).
Qed.

Lemma decimal_digits n c : has c (decimal n) -> digit c.
Proof. apply uint_digits. Qed.

Lemma zeros_digits : forall n c, has c (zeros n) -> digit c.
Proof.
  induction n; cbn; intros c H; [easy|]. destruct H as [<-|H]; [now left|now apply IHn].
Qed.

Lemma pad_digits n c : has c (pad4 n) -> digit c.
Proof.
  unfold pad4. intros H. apply has_app in H. destruct H as [H|H].
  - now apply zeros_digits in H.
  - now apply decimal_digits in H.
Qed.

Lemma decimal_inj n m : decimal n = decimal m -> n = m.
Proof.
  unfold decimal. intros E. apply (f_equal NilEmpty.uint_of_string) in E.
  rewrite !NilEmpty.usu in E. injection E as E.
  apply (f_equal Nat.of_uint) in E. now rewrite !Unsigned.of_to in E.
Qed.

Definition read (s : string) : option nat := option_map Nat.of_uint (NilEmpty.uint_of_string s).

Lemma read_zero s : read (String "0" s) = read s.
Proof. unfold read. cbn. destruct (NilEmpty.uint_of_string s); reflexivity. Qed.

Lemma read_pad n : read (pad4 n) = Some n.
Proof.
  unfold pad4. generalize (4 - String.length (decimal n))%nat as k.
  induction k; cbn [zeros append].
  - unfold read, decimal. rewrite NilEmpty.usu. cbn. now rewrite Unsigned.of_to.
  - rewrite read_zero. apply IHk.
Qed.

Lemma pad_inj n m : pad4 n = pad4 m -> n = m.
Proof. intros E. apply (f_equal read) in E. rewrite !read_pad in E. now injection E. Qed.

Lemma not_digit c : ~ digit c -> forall n, ~ has c (decimal n).
Proof. intros N n H. now apply decimal_digits in H. Qed.

Lemma slash_pad n : ~ has "/" (pad4 n ++ ".json").
Proof.
  intros H. apply has_app in H. destruct H as [H|H].
  - apply pad_digits in H. unfold digit in H. cbn in H. intuition discriminate.
  - cbn in H. intuition discriminate.
Qed.

(** ** Names *)

Lemma partName_inj a b r q : partName a r = partName b q -> a = b /\ r = q.
Proof.
  unfold partName. cbn [append]. intros E.
  apply split_at in E; [|apply slash_pad|apply slash_pad].
  destruct E as [-> E]. split; [easy|]. now apply pad_inj, (sapp_cancel_r _ _ ".json").
Qed.

Lemma partName_not_h5 a r b : partName a r <> b ++ ".dnds.h5".
Proof.
  intros E. change ".dnds.h5" with (".dnds.h" ++ "5") in E. unfold partName in E.
  change ".json" with (".jso" ++ "n") in E.
  rewrite <- !sapp_assoc in E. now apply last_char in E.
Qed.

Lemma restart_h5 base n : exists a, restartName H5 base n = a ++ ".dnds.h5".
Proof.
  exists (base ++ "_p" ++ decimal n ++ ".restart"). cbn [restartName].
  now rewrite !sapp_assoc.
Qed.

Lemma restart_dir base n : exists a, restartName JSON base n = a ++ ".dir".
Proof.
  exists (base ++ "_p" ++ decimal n ++ "_restart"). cbn [restartName].
  now rewrite !sapp_assoc.
Qed.

Lemma h5_not_dir a : hasSuffix (a ++ ".dnds.h5") ".dir" = false.
Proof.
  destruct (hasSuffix _ _) eqn:E; [|easy]. apply hasSuffix_inv in E. destruct E as [b E].
  change ".dnds.h5" with (".dnds.h" ++ "5") in E. change ".dir" with (".di" ++ "r") in E.
  rewrite <- !sapp_assoc in E. now apply last_char in E.
Qed.

Lemma p_not n : ~ has "p" (decimal n).
Proof. apply not_digit. unfold digit. cbn. intuition discriminate. Qed.
Lemma us_not n : ~ has "_" (decimal n).
Proof. apply not_digit. unfold digit. cbn. intuition discriminate. Qed.

Lemma counted_inj b c n m x :
  b ++ "_p" ++ decimal n ++ x = c ++ "_p" ++ decimal m ++ x -> b = c /\ n = m.
Proof.
  intros E.
  rewrite <- !(sapp_assoc _ _ x) in E.
  apply sapp_cancel_r in E.
  change "_p" with ("_" ++ "p") in E. rewrite !sapp_assoc, <- !(sapp_assoc _ "_") in E.
  cbn [append] in E.
  apply split_at in E; [|apply p_not|apply p_not]. destruct E as [E F].
  apply sapp_cancel_r in E. split; [easy|now apply decimal_inj].
Qed.

Lemma restartName_inj w v b c n m :
  restartName w b n = restartName v c m -> w = v /\ b = c /\ n = m.
Proof.
  intros E. destruct w, v; [| | |].
  - apply counted_inj in E. tauto.
  - exfalso. destruct (restart_dir b n) as [a F], (restart_h5 c m) as [a' G].
    rewrite E, G in F. assert (K := h5_not_dir a'). rewrite F, hasSuffix_app in K. easy.
  - exfalso. destruct (restart_dir c m) as [a F], (restart_h5 b n) as [a' G].
    rewrite <- E, G in F. assert (K := h5_not_dir a'). rewrite F, hasSuffix_app in K. easy.
  - apply counted_inj in E. tauto.
Qed.

Lemma moment_inj out stamp m m' : baseName out stamp m = baseName out stamp m' -> m = m'.
Proof.
  unfold baseName. intros E. do 4 apply sapp_cancel_l in E.
  destruct m as [k|k i|], m' as [k'|k' i'|]; try easy.
  - f_equal. now apply decimal_inj.
  - exfalso. apply (us_not k). rewrite E. apply has_app. right. now left.
  - exfalso. assert (H : has "C" (decimal k)) by (rewrite E; now left).
    apply decimal_digits in H. unfold digit in H. cbn in H. intuition discriminate.
  - exfalso. apply (us_not k'). rewrite <- E. apply has_app. right. now left.
  - cbn [append] in E. apply split_at in E; [|apply us_not|apply us_not].
    destruct E as [E F]. apply decimal_inj in E, F. now subst.
  - exfalso. assert (H : has "_" "C").
    { rewrite <- E. apply has_app. right. now left. }
    cbn in H. intuition discriminate.
  - exfalso. assert (H : has "C" (decimal k')) by (rewrite <- E; now left).
    apply decimal_digits in H. unfold digit in H. cbn in H. intuition discriminate.
  - exfalso. assert (H : has "_" "C").
    { rewrite E. apply has_app. right. now left. }
    cbn in H. intuition discriminate.
Qed.

Lemma names_distinct w v out stamp m m' n n' :
  restartName w (baseName out stamp m) n = restartName v (baseName out stamp m') n' ->
  w = v /\ m = m' /\ n = n'.
Proof.
  intros E. apply restartName_inj in E. destruct E as (-> & E & ->).
  now apply moment_inj in E.
Qed.
