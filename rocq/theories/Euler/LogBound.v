(** The log of the integrals over the boundaries. *)

From Coq Require Import List ZArith Bool String Ascii Lia.
From Verif Require Import Base.Prelude Base.PreludeFacts Euler.LogModel Euler.LogSpec Euler.LogText Euler.LogProofs.
Import ListNotations.
Local Open Scope Z_scope.
Local Open Scope string_scope.

(** Fields separated by a comma and a space. *)
Definition spaced (a : string) (l : list string) : string := joined (a :: map (String " ") l).

Lemma concat_cons : forall x l, String.concat "" (x :: l) = x ++ String.concat "" l.
Proof. intros x [|y l]; cbn [String.concat]; [now rewrite app_nil_s | reflexivity]. Qed.

Lemma spaced_concat : forall l a, a ++ String.concat "" (map (fun x => ", " ++ x) l) = spaced a l.
Proof.
  unfold spaced. induction l as [|x l IH]; intros a; [cbn; apply app_nil_s|]. cbn [map]. rewrite concat_cons.
  change (joined (a :: String " " x :: map (String " ") l)) with (a ++ "," ++ joined (String " " x :: map (String " ") l)).
  rewrite <- IH. cbn [append]. f_equal. 
Qed.

Lemma plain_spaced : forall a l, plain a -> Forall plain l -> Forall plain (a :: map (String " ") l).
Proof.
  intros a l A L. constructor; [exact A|]. induction L as [|x l X L IH]; constructor; [|exact IH].
  cbn [plain]. repeat split; [discriminate | discriminate | exact X].
Qed.

Lemma trim_spaced : forall a l, clean a -> Forall plain l -> map trim (split comma (spaced a l)) = a :: l.
Proof.
  intros a l A L. unfold spaced. rewrite split_joined; [| discriminate | apply plain_spaced; [now apply clean_plain | exact L]].
  cbn [map]. rewrite (clean_trim a A). f_equal. rewrite map_map. apply map_id.
Qed.

Lemma line_spaced : forall a l, clean a -> Forall plain l -> without newline (spaced a l).
Proof. intros a l A L. apply joined_line. apply plain_spaced; [now apply clean_plain | exact L]. Qed.

Lemma plain_map : forall A (f : A -> string) l, (forall x, plain (f x)) -> Forall plain (map f l).
Proof. intros A f l P. induction l; constructor; auto. Qed.

Lemma clean_head : clean "step".
Proof. cbn. repeat split; discriminate. Qed.

Definition heads (k : nat) : list string := "stage" :: "iter" :: map (fun i => "F" ++ decimal (Z.of_nat i)) (seq 0 k).

Lemma plain_heads : forall k, Forall plain (heads k).
Proof.
  intros k. unfold heads. constructor; [cbn; repeat split; discriminate|].
  constructor; [cbn; repeat split; discriminate|]. apply plain_map. intros i. cbn [append plain].
  repeat split; [discriminate | discriminate | apply clean_plain, clean_decimal].
Qed.

Lemma header_spaced : forall k, header k = spaced "step" (heads k) ++ nl.
Proof.
  intros k. unfold header. rewrite <- app_assoc_s. f_equal. unfold heads. rewrite <- spaced_concat.
  cbn [map]. rewrite !concat_cons. rewrite map_map. reflexivity.
Qed.

Section Bound.
Context (F : floats).

Notation call := (Z * Z * Z * integral F)%type.

Definition values (n : nat) (b : integral F) : list (num F) :=
  match scaled F n b with Ok v => v | _ => [] end.

Lemma nth_upd : forall A (l : list A) n x i, nth_error (upd n x l) i =
  if (i =? n)%nat then (match nth_error l n with Some _ => Some x | None => None end) else nth_error l i.
Proof.
  induction l as [|y l IH]; intros n x i.
  - destruct n, i; cbn; try reflexivity. now destruct (i =? n)%nat.
  - destruct n as [|n], i as [|i]; cbn; try reflexivity. apply IH.
Qed.

Lemma len_upd : forall A (l : list A) n x, List.length (upd n x l) = List.length l.
Proof. induction l as [|y l IH]; intros [|n] x; cbn; auto. Qed.

Lemma vset_nat : forall A (l : list A) n x, (n < List.length l)%nat -> vset l (Z.of_nat n) x = Ok (upd n x l).
Proof.
  intros A l n x L. unfold vset. rewrite (proj2 (Z.ltb_ge _ _)) by lia. rewrite (proj2 (Z.leb_gt _ _)) by lia.
  cbn [orb]. now rewrite Nat2Z.id.
Qed.

Lemma scaled_ok : forall n size b, sized F n size b -> scaled F n b = Ok (values n b) /\ shown F n b (values n b).
Proof.
  intros n size b [L O]. unfold values, scaled, shown. destruct (Z.eqb_spec (opt F b) 2) as [E|N].
  - specialize (O E). rewrite <- L in O.
    destruct (nth_error (sums F b) n) as [x|] eqn:X; [|apply nth_error_None in X; lia].
    rewrite (vget_of_nat _ _ _ _ X). cbn [bind]. rewrite vset_nat by lia. cbn [bind].
    replace (Z.of_nat n + 1) with (Z.of_nat (S n)) by lia.
    destruct (nth_error (sums F b) (S n)) as [y|] eqn:Y; [|apply nth_error_None in Y; lia].
    assert (Y' : nth_error (upd n (over F x (weight F b)) (sums F b)) (S n) = Some y).
    { rewrite nth_upd. destruct (Nat.eqb_spec (S n) n); [lia | exact Y]. }
    rewrite (vget_of_nat _ _ _ _ Y'). cbn [bind]. rewrite vset_nat by (rewrite len_upd; lia).
    split; [reflexivity|]. split; [now rewrite !len_upd|]. intros i z Z. rewrite !nth_upd. cbn [andb].
    destruct (Nat.eqb_spec i (S n)) as [->|N1].
    + destruct (Nat.eqb_spec (S n) n); [lia|]. rewrite Y. cbn [orb]. congruence.
    + rewrite orb_false_r. destruct (Nat.eqb_spec i n) as [->|N2]; [rewrite X; congruence | exact Z].
  - split; [reflexivity|]. split; [reflexivity|]. intros i x X. cbn [andb]. exact X.
Qed.

Definition cells (n : nat) (c : call) : string :=
  let '(step, stage, iter, b) := c in
  spaced (decimal step) (decimal stage :: decimal iter :: map (show F 16) (values n b)).

Lemma record_spaced : forall step stage iter v, record F step stage iter v =
  spaced (decimal step) (decimal stage :: decimal iter :: map (show F 16) v) ++ nl.
Proof.
  intros step stage iter v. unfold record. rewrite <- spaced_concat. cbn [map]. rewrite !concat_cons, map_map.
  rewrite !app_assoc_s. reflexivity.
Qed.

(** The boundaries of all calls, one after another. *)
Definition flat (cs : list (Z * Z * Z * list (integral F))) : list call :=
  flat_map (fun c => map (fun b => (fst c, b)) (snd c)) cs.

Definition of (k : Z) (l : list call) : list call := filter (fun x => Z.eqb (bid F (snd x)) k) l.

Lemma calls_flat : forall k cs, calls_of F k cs = of k (flat cs).
Proof.
  intros k cs. unfold calls_of, of, flat. induction cs as [|c cs IH]; [reflexivity|]. cbn [flat_map].
  rewrite filter_app, <- IH. f_equal. destruct c as [h bs]. cbn [fst snd]. clear.
  induction bs as [|b bs IH]; [reflexivity|]. cbn [filter map snd]. destruct (Z.eqb (bid F b) k); cbn [map]; now rewrite IH.
Qed.

(** The file of a boundary after the calls [l]. *)
Definition render (n : nat) (l : list call) (k : Z) : option string :=
  match of k l with
  | [] => None
  | c :: r => Some (body (spaced "step" (heads (List.length (sums F (snd c)))) :: map (cells n) (c :: r)))
  end.

Lemma bndLine_ok : forall n size step stage iter fs b past, sized F n size b ->
  (forall k, file fs k = render n past k) ->
  exists fs', bndLine F n step stage iter fs b = Ok fs'
    /\ forall k, file fs' k = render n (app past [((step, stage, iter), b)]) k.
Proof.
  intros n size step stage iter fs b past S I. unfold bndLine. destruct (scaled_ok n size b S) as [E _]. rewrite E.
  cbn [bind]. eexists. split; [reflexivity|]. intros k. cbn [file]. rewrite !I.
  unfold render, of. rewrite filter_app. cbn [filter snd]. destruct (Z.eqb_spec (bid F b) k) as [<-|N].
  - destruct (filter (fun x => (bid F (snd x) =? bid F b)%Z) past) as [|c r].
    + cbn [app snd]. rewrite header_spaced, record_spaced. f_equal.
      unfold body. cbn [fold_right map cells]. now rewrite app_assoc_s.
    + cbn [app]. f_equal.
      change (map (cells n) (c :: app r [((step, stage, iter), b)]))
        with (map (cells n) (app (c :: r) [((step, stage, iter), b)])). rewrite map_app.
      change (spaced "step" (heads (List.length (sums F (snd c)))) :: app (map (cells n) (c :: r)) (map (cells n) [((step, stage, iter), b)]))
        with (app (spaced "step" (heads (List.length (sums F (snd c)))) :: map (cells n) (c :: r)) [cells n ((step, stage, iter), b)]).
      rewrite body_snoc, record_spaced. reflexivity.
  - now rewrite app_nil_r.
Qed.

Lemma bndCall_ok : forall n size h bs fs past, Forall (sized F n size) bs -> (forall k, file fs k = render n past k) ->
  exists fs', bndLines F n fs (h, bs) = Ok fs' /\ forall k, file fs' k = render n (app past (map (fun b => (h, b)) bs)) k.
Proof.
  intros n size [[step stage] iter] bs. cbn [bndLines].
  induction bs as [|b bs IH]; intros fs past A I.
  - exists fs. cbn [map]. rewrite app_nil_r. auto.
  - inversion A as [|x y Sb Sbs]. subst. destruct (bndLine_ok n size step stage iter fs b past Sb I) as (fs1 & E & I1).
    destruct (IH fs1 _ Sbs I1) as (fs2 & E2 & I2). exists fs2. cbn [foldM]. rewrite E. cbn [bind].
    split; [exact E2|]. rewrite <- app_assoc in I2. exact I2.
Qed.

Lemma bndCalls_ok : forall n size cs fs past, Forall (fun c => Forall (sized F n size) (snd c)) cs ->
  (forall k, file fs k = render n past k) ->
  exists fs', foldM (bndLines F n) fs cs = Ok fs' /\ forall k, file fs' k = render n (app past (flat cs)) k.
Proof.
  induction cs as [|c cs IH]; intros fs past A I.
  - exists fs. cbn [flat flat_map]. rewrite app_nil_r. auto.
  - inversion A as [|x y Sc Scs]. subst. destruct c as [h bs].
    destruct (bndCall_ok n size h bs fs past Sc I) as (fs1 & E & I1).
    destruct (IH fs1 _ Scs I1) as (fs2 & E2 & I2). exists fs2. cbn [foldM]. rewrite E. cbn [bind].
    split; [exact E2|]. rewrite <- app_assoc in I2. exact I2.
Qed.

Lemma integrals_ok : forall n size cs, legible F -> Forall (fun c => Forall (sized F n size) (snd c)) cs ->
  exists fs, foldM (bndLines F n) [] cs = Ok fs /\ forall k,
    match calls_of F k cs with
    | [] => file fs k = None
    | _ => exists s h rs, file fs k = Some s /\ rows s = Some (h :: rs)
        /\ map trim h = "step" :: "stage" :: "iter" :: map (fun i => "F" ++ decimal (Z.of_nat i)) (seq 0 (size k))
        /\ Forall2 (integral_row F n) (calls_of F k cs) rs
    end.
Proof.
  intros n size cs L A. destruct (bndCalls_ok n size cs [] [] A) as (fs & E & I); [reflexivity|].
  exists fs. split; [exact E|]. intros k. specialize (I k). cbn [app] in I. unfold render in I. rewrite calls_flat.
  assert (S : Forall (fun x => bid F (snd x) = k /\ sized F n size (snd x)) (of k (flat cs))).
  { apply Forall_forall. intros x X. apply filter_In in X. destruct X as [X K]. split; [now apply Z.eqb_eq|].
    unfold flat in X. apply in_flat_map in X. destruct X as (c & C & X). apply in_map_iff in X.
    destruct X as (b & <- & X). rewrite Forall_forall in A. specialize (A c C). rewrite Forall_forall in A. now apply A. }
  destruct (of k (flat cs)) as [|c r] eqn:O; [exact I|].
  assert (W : forall x, clean (decimal x)) by apply clean_decimal.
  assert (P : forall y z v, Forall plain (decimal y :: decimal z :: map (show F 16) v)).
  { intros y z v. constructor; [apply clean_plain, W|]. constructor; [apply clean_plain, W|]. apply plain_map. intros x. apply L. }
  eexists. exists (split comma (spaced "step" (heads (List.length (sums F (snd c)))))), (map (fun x => split comma (cells n x)) (c :: r)).
  split; [exact I|]. split; [|split].
  - rewrite rows_body.
    + cbn [map]. now rewrite map_map.
    + constructor; [apply line_spaced; [apply clean_head | apply plain_heads]|].
      apply Forall_forall. intros x X. apply in_map_iff in X. destruct X as ([[[a b] d] g] & <- & _).
      cbn [cells]. apply line_spaced; auto.
  - rewrite trim_spaced by (apply clean_head || apply plain_heads). unfold heads. inversion S as [|x y [B [Z _]] _]. subst.
    now rewrite Z.
  - clear -S P W. induction S as [|x l [_ Z] S IH]; constructor; [|exact IH].
    destruct x as [[[a b] d] g]. cbn [integral_row cells snd] in *. exists (values n g).
    split; [apply (scaled_ok n size g Z)|]. now rewrite trim_spaced by auto.
Qed.

End Bound.
