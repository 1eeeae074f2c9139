From Coq Require Import List ZArith Reals Lia Lra Bool FunctionalExtensionality.
From Verif Require Import Base.Prelude Base.PreludeFacts Solver.ScalarModel Solver.OdeModel Solver.OdeSpec Solver.RkSpec
  Solver.LinearModel Solver.LinearSpec Solver.RkProofs.
Import ListNotations.
Local Open Scope R_scope.

Ltac ext := apply functional_extensionality; let i := fresh "i" in intro i.

(** ** Sums *)
Lemma Rsum_ext {A} (f g : A -> R) l : (forall x, In x l -> f x = g x) -> Rsum (map f l) = Rsum (map g l).
Proof. intro H. f_equal. now apply map_ext_in. Qed.
Lemma Rsum_plus {A} (f g : A -> R) l : Rsum (map (fun x => f x + g x) l) = Rsum (map f l) + Rsum (map g l).
Proof. induction l as [|x l IH]; cbn; [ring|]. rewrite IH. ring. Qed.
Lemma Rsum_mul {A} (f : A -> R) c l : Rsum (map (fun x => c * f x) l) = c * Rsum (map f l).
Proof. induction l as [|x l IH]; cbn; [ring|]. rewrite IH. ring. Qed.
Lemma Rsum_zero {A} (f : A -> R) l : (forall x, In x l -> f x = 0) -> Rsum (map f l) = 0.
Proof. intro H. induction l as [|x l IH]; cbn; [ring|]. rewrite H by (left; auto). rewrite IH; [ring|]. intros; apply H; now right. Qed.
Lemma Rsum_swap {A B} (f : A -> B -> R) l m :
  Rsum (map (fun a => Rsum (map (fun b => f a b) m)) l) = Rsum (map (fun b => Rsum (map (fun a => f a b) l)) m).
Proof.
  induction l as [|a l IH]; cbn.
  - symmetry. apply Rsum_zero. auto.
  - rewrite IH, <- Rsum_plus. reflexivity.
Qed.
Lemma Rsum_nonneg {A} (f : A -> R) l : (forall x, In x l -> 0 <= f x) -> 0 <= Rsum (map f l).
Proof. intro H. induction l as [|x l IH]; cbn; [lra|]. pose proof (H x (or_introl eq_refl)). assert (0 <= Rsum (map f l)) by (apply IH; intros; apply H; now right). lra. Qed.

(** ** Forms *)
Section Form.
Variable dot : D -> D -> R.
Hypothesis Hf : form dot.

Lemma dot_zero z : dot zd z = 0.
Proof.
  pose proof (f_lin _ Hf 0 0 zd zd z) as H. replace (fun i => 0 * zd i + 0 * zd i) with zd in H; [lra|].
  ext. unfold zd, setConstant. ring.
Qed.
Lemma dot_scale c x z : dot (fun i => c * x i) z = c * dot x z.
Proof.
  pose proof (f_lin _ Hf c 0 x x z) as H. replace (fun i => c * x i + 0 * x i) with (fun i => c * x i) in H; [lra|]. ext. ring.
Qed.
Lemma dot_plus x y z : dot (fun i => x i + y i) z = dot x z + dot y z.
Proof.
  pose proof (f_lin _ Hf 1 1 x y z) as H. replace (fun i => 1 * x i + 1 * y i) with (fun i => x i + y i) in H; [lra|]. ext. ring.
Qed.

Definition comb (cs : list R) (Vs : list D) : D := fun i => Rsum (map (fun cv => fst cv * snd cv i) (combine cs Vs)).

Lemma comb_cons c cs v Vs : comb (c :: cs) (v :: Vs) = fun i => c * v i + comb cs Vs i.
Proof. reflexivity. Qed.

Lemma dot_comb cs Vs z : dot (comb cs Vs) z = Rsum (map (fun cv => fst cv * dot (snd cv) z) (combine cs Vs)).
Proof.
  revert Vs. induction cs as [|c cs IH]; intros [|v Vs]; try (apply dot_zero).
  rewrite comb_cons, dot_plus, dot_scale, IH. reflexivity.
Qed.

Fixpoint ortho (Vs : list D) : Prop :=
  match Vs with [] => True | v :: t => dot v v = 1 /\ (forall u, In u t -> dot v u = 0) /\ ortho t end.

Lemma ortho_snoc Vs w : ortho Vs -> (forall u, In u Vs -> dot u w = 0) -> dot w w = 1 -> ortho (Vs ++ [w]).
Proof.
  intros O H W. induction Vs as [|v Vs IH]; cbn [app ortho] in *.
  - repeat split; auto. intros u [].
  - destruct O as (O1 & O2 & O3). split; [auto|]. split.
    + intros u I. apply in_app_iff in I. destruct I as [I|[<-|[]]]; auto. apply H. now left.
    + apply IH; auto. intros u I. apply H. now right.
Qed.

Lemma dot_comb_out cs Vs z : (forall v, In v Vs -> dot v z = 0) -> dot (comb cs Vs) z = 0.
Proof.
  intro H. rewrite dot_comb. apply Rsum_zero. intros (c, v) I. cbn [fst snd]. rewrite H; [ring|]. eapply in_combine_r; eauto.
Qed.

Lemma dot_comb_nth Vs : ortho Vs -> forall cs k u c, nth_error Vs k = Some u -> nth_error cs k = Some c -> dot (comb cs Vs) u = c.
Proof.
  induction Vs as [|v Vs IH]; intros O cs k u c Hu Hc; [destruct k; discriminate|].
  destruct cs as [|c0 cs]; [destruct k; discriminate|]. destruct O as (O1 & O2 & O3).
  rewrite comb_cons, dot_plus, dot_scale. destruct k as [|k]; cbn [nth_error] in *.
  - injection Hu as <-. injection Hc as <-. rewrite O1, dot_comb_out; [ring|]. intros x I. rewrite (f_sym _ Hf). auto.
  - rewrite O2 by (eapply nth_error_In; eauto). rewrite (IH O3 cs k u c Hu Hc). ring.
Qed.

Lemma dot_comb_self Vs : ortho Vs -> forall cs, (length cs <= length Vs)%nat -> dot (comb cs Vs) (comb cs Vs) = Rsum (map (fun c => c * c) cs).
Proof.
  induction Vs as [|v Vs IH]; intros O cs L.
  - destruct cs; [apply dot_zero|cbn in L; lia].
  - destruct cs as [|c cs]; [apply dot_zero|]. destruct O as (O1 & O2 & O3). cbn [map Rsum].
    rewrite comb_cons, dot_plus, dot_scale, (f_sym _ Hf v), (f_sym _ Hf (comb cs Vs)), !dot_plus, !dot_scale, O1.
    assert (Z : dot (comb cs Vs) v = 0) by (apply dot_comb_out; intros x I; rewrite (f_sym _ Hf); auto).
    rewrite (f_sym _ Hf v (comb cs Vs)), Z, IH by (auto; cbn in L; lia). ring.
Qed.

Lemma comb_nth cs Vs i : (length cs <= length Vs)%nat ->
  comb cs Vs i = Rsum (map (fun m => nth m cs 0 * nth m Vs zd i) (seq 0 (length Vs))).
Proof.
  revert cs. induction Vs as [|v Vs IH]; intros cs L.
  - destruct cs; [reflexivity|cbn in L; lia].
  - cbn [length seq]. rewrite <- seq_shift. cbn [map Rsum]. rewrite map_map. destruct cs as [|c cs].
    + unfold comb. cbn [combine map Rsum nth]. rewrite Rsum_zero; [ring|]. intros x _. destruct x; ring.
    + rewrite comb_cons. cbn [nth]. rewrite IH by (cbn in L; lia). reflexivity.
Qed.

Lemma comb_app cs Vs w : (length cs <= length Vs)%nat -> comb cs (Vs ++ [w]) = comb cs Vs.
Proof.
  revert cs. induction Vs as [|v Vs IH]; intros [|c cs] L; try reflexivity; [cbn in L; lia|].
  cbn [app]. rewrite !comb_cons, IH by (cbn in L; lia). reflexivity.
Qed.
Lemma comb_snoc cs Vs c w : length cs = length Vs -> comb (cs ++ [c]) (Vs ++ [w]) = fun i => comb cs Vs i + c * w i.
Proof.
  revert cs. induction Vs as [|v Vs IH]; intros [|c' cs] L; try discriminate.
  - cbn [app]. rewrite comb_cons. ext. unfold comb. cbn. ring.
  - cbn [app]. rewrite !comb_cons, IH by (cbn in L; lia). ext. ring.
Qed.

Lemma fold_minus hs Vs : forall w, fold_left (fun w hv => addTo w (snd hv) (- fst hv)) (combine hs Vs) w = fun i => w i - comb hs Vs i.
Proof.
  revert Vs. induction hs as [|h hs IH]; intros [|v Vs] w; cbn [combine fold_left]; try (ext; unfold comb; cbn; ring).
  rewrite IH, comb_cons. ext. unfold addTo. cbn. ring.
Qed.
End Form.

Lemma defect_zero j h beta : defect j h beta (fun _ => 0) = beta * beta.
Proof.
  unfold defect. assert (Z : forall i, Rsum (map (fun k => h i k * 0) (seq 0 j)) = 0) by (intro; apply Rsum_zero; intros; ring).
  cbn [seq map Rsum]. rewrite (Rsum_zero _ (seq 1 j)).
  - cbn [Nat.eqb]. rewrite Z. ring.
  - intros i I. apply in_seq in I. destruct i; [lia|]. cbn [Nat.eqb]. rewrite Z. ring.
Qed.

(** ** GMRES: the residual does not grow *)
Section Gm.
Variables (FA FML : D -> D) (dot : D -> D -> R) (FStop : nat -> R -> R -> bool).
Variable lsq : nat -> (nat -> nat -> R) -> R -> (nat -> R) * nat.
Variable kSubspace : nat.
Hypothesis Hf : form dot.
Hypothesis LA : linear FA.
Hypothesis LM : linear FML.
Hypothesis Hl : never_worse lsq.

Let B (x : D) : D := FML (FA x).
Lemma linB : linear B.
Proof.
  intros a b x y i. unfold B. replace (FA (fun j => a * x j + b * y j)) with (fun j => a * FA x j + b * FA y j).
  - apply LM.
  - ext. symmetry. apply LA.
Qed.

Definition relation (Vs : list D) (cols : list (list R)) : Prop :=
  length Vs = S (length cols) /\
  forall k u col, nth_error Vs k = Some u -> nth_error cols k = Some col ->
    (length col <= length Vs)%nat /\ B u = comb col Vs.

Lemma arnoldi_ok sc n : forall Vs cols Vs' cols', relation Vs cols -> ortho dot Vs ->
  arnoldi FA FML dot sc n Vs cols = Ok (Vs', cols') ->
  relation Vs' cols' /\ ortho dot Vs' /\ hd zd Vs' = hd zd Vs.
Proof.
  induction n as [|n IH]; intros Vs cols Vs' cols' Rl O H; cbn [arnoldi] in H.
  - injection H as <- <-. auto.
  - unfold arnoldi_column in H. rewrite fold_minus in H.
    set (w := FML (FA (last Vs (setConstant 0)))) in *. set (hs := map (fun v => dot w v) Vs) in *.
    set (w' := fun i => w i - comb hs Vs i) in *. set (hn := sqrt (dot w' w')) in *.
    destruct (Rlt_dec hn (sc * / 10 ^ 32)); [injection H as <- <-; auto|].
    destruct (Req_EM_T hn 0) as [|Nz]; [discriminate|].
    destruct Rl as (L & Rl). assert (Hne : Vs <> []) by (intro; subst; discriminate).
    assert (Lh : length hs = length Vs) by (unfold hs; apply map_length).
    assert (W' : forall z, dot w' z = dot w z - dot (comb hs Vs) z).
    { intro z. unfold w'. pose proof (f_lin _ Hf 1 (-1) w (comb hs Vs) z) as Q.
      replace (fun i => w i - comb hs Vs i) with (fun i => 1 * w i + -1 * comb hs Vs i) by (ext; ring). rewrite Q. ring. }
    assert (Orth : forall u, In u Vs -> dot u w' = 0).
    { intros u I. rewrite (f_sym _ Hf), W'. apply In_nth_error in I. destruct I as (k & Hk).
      rewrite (dot_comb_nth _ Hf Vs O hs k u (dot w u) Hk); [ring|]. unfold hs. now apply map_nth_error. }
    assert (Hs : hn * hn = dot w' w') by (apply sqrt_sqrt, (f_pos _ Hf)).
    assert (Ex : last Vs (setConstant 0) = nth (length cols) Vs zd).
    { clear - L Hne. destruct (exists_last Hne) as (l & x & ->). rewrite last_last. rewrite app_length in L. cbn in L.
      rewrite app_nth2 by lia. replace (length cols - length l)%nat with 0%nat by lia. reflexivity. }
    destruct (IH (Vs ++ [scale w' (1 / hn)]) (cols ++ [hs ++ [hn]]) Vs' cols') as (R1 & O1 & H1).
    + split; [rewrite !app_length; cbn; lia|]. intros k u col Hu Hc.
      destruct (Nat.lt_ge_cases k (length cols)) as [Lt|Ge].
      * rewrite nth_error_app1 in Hc by lia. rewrite nth_error_app1 in Hu by lia.
        destruct (Rl k u col Hu Hc) as (Q1 & Q2). split; [rewrite app_length; cbn; lia|]. rewrite comb_app; auto.
      * rewrite nth_error_app2 in Hc by lia. assert (k = length cols).
        { destruct (k - length cols)%nat as [|m] eqn:E; [lia|]. cbn in Hc. destruct m; discriminate. }
        subst k. rewrite Nat.sub_diag in Hc. cbn in Hc. injection Hc as <-.
        rewrite nth_error_app1 in Hu by lia. split; [rewrite !app_length; cbn; lia|].
        rewrite comb_snoc by auto. ext. apply (nth_error_nth _ _ zd) in Hu. unfold B. rewrite <- Hu, <- Ex. fold w.
        unfold scale, w'. field. auto.
    + apply ortho_snoc; auto.
      * intros u I. unfold scale. rewrite (f_sym _ Hf). replace (fun i => w' i * (1 / hn)) with (fun i => (1 / hn) * w' i) by (ext; ring).
        rewrite dot_scale by auto. rewrite (f_sym _ Hf), Orth by auto. ring.
      * unfold scale. replace (fun i => w' i * (1 / hn)) with (fun i => (1 / hn) * w' i) by (ext; ring).
        rewrite dot_scale by auto. rewrite (f_sym _ Hf), dot_scale by auto. rewrite <- Hs. field. auto.
    + exact H.
    + split; auto. split; auto. rewrite H1. destruct Vs; [contradiction|reflexivity].
Qed.

Lemma add_dir_B Vs y j x : B (add_directions Vs y j x) = fun i => B x i + Rsum (map (fun k => y k * B (nth k Vs zd) i) (seq 0 j)).
Proof.
  unfold add_directions. induction j as [|j IH].
  - cbn. ext. ring.
  - rewrite seq_S, fold_left_app. cbn [fold_left Nat.add].
    set (x' := fold_left _ (seq 0 j) x) in *. change (setConstant 0) with zd.
    replace (addTo x' (nth j Vs zd) (y j)) with (fun i => 1 * x' i + y j * nth j Vs zd i) by (ext; unfold addTo; ring).
    ext. rewrite (linB 1 (y j) x' (nth j Vs zd)). rewrite IH, map_app, Rsum_app. cbn. ring.
Qed.

Lemma restart_ok sc b x beta Vs cols : beta <> 0 ->
  let v0 := addTo (FML (FA x)) (FML b) (-1) in beta = sqrt (dot v0 v0) ->
  arnoldi FA FML dot sc kSubspace [scale v0 (-1 / beta)] [] = Ok (Vs, cols) ->
  let y := fst (lsq (length cols) (h_entry cols) beta) in
  res_size FA FML dot b (add_directions Vs y (length cols) x) <= beta.
Proof.
  intros Nz v0 Eb Ha y. assert (Sb : beta * beta = dot v0 v0) by (rewrite Eb; apply sqrt_sqrt, (f_pos _ Hf)).
  assert (Bp : 0 <= beta) by (rewrite Eb; apply sqrt_pos).
  destruct (arnoldi_ok sc kSubspace [scale v0 (-1 / beta)] [] Vs cols) as ((L & Rl) & O & Hh); auto.
  - split; [reflexivity|]. intros k u col _ Hc. destruct k; discriminate.
  - cbn. split; [|split; [intros u []|exact I]]. unfold scale.
    replace (fun i => v0 i * (-1 / beta)) with (fun i => (-1 / beta) * v0 i) by (ext; ring).
    rewrite dot_scale by auto. rewrite (f_sym _ Hf), dot_scale by auto. rewrite <- Sb. field. auto.
  - cbn [hd] in Hh. set (j := length cols) in *.
    set (d := fun m => (if Nat.eqb m 0 then beta else 0) - Rsum (map (fun k => h_entry cols m k * y k) (seq 0 j))).
    assert (E : minus (FML (FA (add_directions Vs y j x))) (FML b) = comb (map (fun m => - d m) (seq 0 (S j))) Vs).
    { ext. unfold minus. fold (B (add_directions Vs y j x)). rewrite add_dir_B.
      rewrite comb_nth by (rewrite map_length, seq_length; lia). rewrite L.
      rewrite (Rsum_ext (fun m => nth m (map (fun m => - d m) (seq 0 (S j))) 0 * nth m Vs zd i) (fun m => - d m * nth m Vs zd i)).
      2:{ intros m I. apply in_seq in I. f_equal. rewrite (nth_indep _ 0 (- d 0%nat)) by (rewrite map_length, seq_length; lia).
          rewrite (map_nth (fun m => - d m)). rewrite seq_nth by lia. reflexivity. }
      rewrite (Rsum_ext (fun m => - d m * nth m Vs zd i)
        (fun m => - ((if Nat.eqb m 0 then beta else 0) * nth m Vs zd i) + Rsum (map (fun k => y k * (h_entry cols m k * nth m Vs zd i)) (seq 0 j)))).
      2:{ intros m _. unfold d. rewrite (Rsum_ext (fun k => y k * (h_entry cols m k * nth m Vs zd i)) (fun k => nth m Vs zd i * (h_entry cols m k * y k))) by (intros; ring).
          rewrite Rsum_mul. ring. }
      rewrite Rsum_plus. rewrite (Rsum_swap (fun m k => y k * (h_entry cols m k * nth m Vs zd i))).
      replace (Rsum (map (fun m => - ((if Nat.eqb m 0 then beta else 0) * nth m Vs zd i)) (seq 0 (S j)))) with (B x i - FML b i).
      - rewrite (Rsum_ext (fun k => y k * B (nth k Vs zd) i) (fun k => Rsum (map (fun m => y k * (h_entry cols m k * nth m Vs zd i)) (seq 0 (S j))))); [ring|].
        intros k I. apply in_seq in I. rewrite Rsum_mul. f_equal.
        assert (Hu : nth_error Vs k = Some (nth k Vs zd)) by (apply nth_error_nth'; lia).
        assert (Hc : nth_error cols k = Some (nth k cols [])) by (apply nth_error_nth'; lia).
        destruct (Rl _ _ _ Hu Hc) as (Lc & ->). rewrite comb_nth by auto. rewrite L. reflexivity.
      - cbn [seq map Rsum]. rewrite Rsum_zero.
        + cbn [Nat.eqb]. destruct Vs as [|V0 Vs]; [discriminate|]. cbn [nth hd] in *. rewrite Hh. unfold scale, v0, addTo.
          unfold B. field. auto.
        + intros m I. apply in_seq in I. destruct m; [lia|]. cbn [Nat.eqb]. ring. }
    unfold res_size, norm. rewrite E. rewrite dot_comb_self by (auto; rewrite map_length, seq_length; lia).
    rewrite map_map. replace beta with (sqrt (beta * beta)) at 1 by (now apply sqrt_square). apply sqrt_le_1_alt.
    pose proof (Hl j (h_entry cols) beta) as Q. rewrite defect_zero in Q. unfold defect in Q.
    fold y in Q. cbv zeta in Q. rewrite (Rsum_ext _ (fun m => d m * d m)) by (intros; ring). exact Q.
Qed.

Lemma v0_minus x b : addTo (FML (FA x)) (FML b) (-1) = minus (FML (FA x)) (FML b).
Proof. ext. unfold addTo, minus. ring. Qed.

Lemma restarts_ok b sc fuel : forall it x x' it' en,
  restarts FA FML dot FStop lsq kSubspace b (FML b) sc fuel it x = Ok (x', it', en) ->
  res_size FA FML dot b x' <= res_size FA FML dot b x.
Proof.
  induction fuel as [|fuel IH]; intros it x x' it' en H; cbn [restarts] in H;
    destruct (FStop it _ sc); try (injection H as <- _ _; lra).
  - destruct (Rlt_dec _ _); injection H as <- _ _; lra.
  - destruct (Rlt_dec _ _) as [|Nl]; [injection H as <- _ _; lra|].
    set (v0 := addTo (FML (FA x)) (FML b) (-1)) in *.
    assert (Nz : sqrt (dot v0 v0) <> 0). { intro E. apply Nl. rewrite E, Rabs_R0. apply vsr_small. }
    apply bind_Ok in H. destruct H as ((Vs, cols) & Ha & H).
    destruct (Nat.ltb (length cols) 1); [injection H as <- _ _; lra|].
    pose proof (restart_ok sc b x (sqrt (dot v0 v0)) Vs cols Nz eq_refl Ha) as Q. cbv zeta in Q.
    destruct (lsq (length cols) (h_entry cols) (sqrt (dot v0 v0))) as (y, rank). cbn [fst] in Q.
    assert (Eq : res_size FA FML dot b x = sqrt (dot v0 v0)) by (unfold res_size, norm, v0; now rewrite v0_minus).
    destruct (Nat.ltb rank kSubspace); [injection H as <- _ _; lra|].
    apply IH in H. lra.
Qed.
End Gm.

(** ** GMRES: what its answer means *)
Section Answer.
Variables (FA FML : D -> D) (dot : D -> D -> R) (FStop : nat -> R -> R -> bool).
Variable lsq : nat -> (nat -> nat -> R) -> R -> (nat -> R) * nat.
Variable kSubspace : nat.

Lemma restarts_end b sc fuel : forall it x x' it' en,
  restarts FA FML dot FStop lsq kSubspace b (FML b) sc fuel it x = Ok (x', it', en) ->
  (it' <= it + fuel)%nat /\
  match en with
  | Stopped => FStop it' (res_size FA FML dot b x') sc = true
  | Negligible => res_size FA FML dot b x' < verySmallReal
  | LastRestart => it' = (it + fuel)%nat
  | NoDirection | Deficient => (it' < it + fuel)%nat
  end.
Proof.
  induction fuel as [|fuel IH]; intros it x x' it' en H; cbn [restarts] in H; rewrite v0_minus in H;
    fold (norm dot (minus (FML (FA x)) (FML b))) in H; fold (res_size FA FML dot b x) in H;
    destruct (FStop it (res_size FA FML dot b x) sc) eqn:Es; try (injection H as <- <- <-; split; [lia|exact Es]).
  - destruct (Rlt_dec _ _) as [Lt|]; injection H as <- <- <-; split; try lia.
    unfold res_size, norm in *. rewrite Rabs_pos_eq in Lt by apply sqrt_pos. exact Lt.
  - destruct (Rlt_dec _ _) as [Lt|].
    { injection H as <- <- <-. split; [lia|]. unfold res_size, norm in *. rewrite Rabs_pos_eq in Lt by apply sqrt_pos. exact Lt. }
    apply bind_Ok in H. destruct H as ((Vs, cols) & _ & H).
    destruct (Nat.ltb (length cols) 1); [injection H as <- <- <-; split; lia|].
    destruct (lsq _ _ _) as (y, rank). destruct (Nat.ltb rank kSubspace); [injection H as <- <- <-; split; lia|].
    apply IH in H. destruct H as (H1 & H2). split; [lia|]. destruct en; auto; lia.
Qed.

Lemma gmres_true b x n x' : gmres_solve FA FML dot FStop lsq kSubspace b x n = Ok (x', true) ->
  exists it en, gmres_run FA FML dot FStop lsq kSubspace b x n = Ok (x', it, en) /\ (it < n)%nat /\
    match en with
    | Stopped => FStop it (res_size FA FML dot b x') (norm dot (FML b)) = true
    | Negligible => res_size FA FML dot b x' < verySmallReal
    | LastRestart => False
    | NoDirection | Deficient => True
    end.
Proof.
  intro H. unfold gmres_solve in H. apply bind_Ok in H. destruct H as (((y, it), en) & Hr & H). cbn [fst snd] in H.
  injection H as <- Lt. apply Nat.ltb_lt in Lt. exists it, en. split; auto. split; auto.
  unfold gmres_run in Hr. apply restarts_end in Hr. destruct Hr as (H1 & H2). destruct en; auto; lia.
Qed.
End Answer.

(** *** The breakdown: A x = x from x = 0 *)
Definition first (x y : D) : R := x 0%nat * y 0%nat.
Definition only (c : R) : D := fun _ => c.
Lemma first_form : form first.
Proof. constructor; unfold first; intros; try ring. nra. Qed.
Lemma gmres_identity lsq k n FStop : FStop 0%nat 1 1 = false ->
  gmres_solve (fun x => x) (fun x => x) first FStop lsq (S k) (only 1) (only 0) (S n) = Ok (only 0, true).
Proof.
  intro Hs. unfold gmres_solve, gmres_run. cbn [restarts].
  set (v0 := addTo (only 0) (only 1) (-1)).
  assert (E0 : first v0 v0 = 1) by (unfold first, v0, addTo, only; ring).
  replace (first (only 1) (only 1)) with 1 by (unfold first, only; ring).
  rewrite E0, sqrt_1, Hs. destruct (Rlt_dec (Rabs 1) verySmallReal) as [L|_].
  { pose proof vsr_small. rewrite Rabs_R1 in L. lra. }
  cbn [arnoldi]. unfold arnoldi_column. cbn [last map combine fold_left fst snd].
  set (w := addTo _ _ _).
  assert (W : first w w = 0).
  { unfold w, first, addTo, scale, v0, addTo, only. field. }
  rewrite W, sqrt_0.
  destruct (Rlt_dec 0 (1 * / 10 ^ 32)) as [_|N].
  - cbn [bind length Nat.ltb Nat.leb fst snd]. reflexivity.
  - exfalso. apply N. rewrite Rmult_1_l. apply Rinv_0_lt_compat, pow_lt. lra.
Qed.

Lemma gmres_untrue lsq kSubspace nRestart FStop : (0 < kSubspace)%nat -> (0 < nRestart)%nat -> FStop 0%nat 1 1 = false ->
  exists FA FML dot b x x', form dot /\ linear FA /\ linear FML /\
    gmres_solve FA FML dot FStop lsq kSubspace b x nRestart = Ok (x', true) /\
    res_size FA FML dot b x' = 1 /\ norm dot (FML b) = 1.
Proof.
  intros Hk Hn Hs. destruct kSubspace as [|k]; [lia|]. destruct nRestart as [|n]; [lia|].
  exists (fun x => x), (fun x => x), first, (only 1), (only 0), (only 0).
  split; [exact first_form|]. split; [intros a b x y i; reflexivity|]. split; [intros a b x y i; reflexivity|].
  split; [now apply gmres_identity|]. unfold res_size, norm, minus, first, only. split.
  - replace ((0 - 1) * (0 - 1)) with 1 by ring. apply sqrt_1.
  - rewrite Rmult_1_l. apply sqrt_1.
Qed.

Lemma gmres_not_up FA FML dot FStop lsq kSubspace b x nRestart x' ok :
  form dot -> linear FA -> linear FML -> never_worse lsq ->
  gmres_solve FA FML dot FStop lsq kSubspace b x nRestart = Ok (x', ok) ->
  res_size FA FML dot b x' <= res_size FA FML dot b x.
Proof.
  intros Hf LA LM Hl H. unfold gmres_solve in H. apply bind_Ok in H. destruct H as (((y, it), en) & Hr & H).
  cbn [fst snd] in H. injection H as <- _. unfold gmres_run in Hr. eapply restarts_ok; eauto.
Qed.

(** ** PCG *)
Section P.
Variables (FA FM FResPrec P : D -> D) (dot : D -> D -> R) (b : D).
Hypothesis HS : pcg_setting FA FM FResPrec P dot b.
Let Hf := s_form _ _ _ _ _ _ HS.

Definition resid (x : D) : D := minus b (FA x).
Definition inv (s : pcg) (x : D) : Prop :=
  c_Ap s = FA (c_p s) /\
  if initialized s then 0 <= zrDot s /\ 0 <= dot (c_p s) (resid x)
  else c_z s = FResPrec x /\ c_r s = FM (c_z s) /\ c_p s = c_z s.

Lemma dotA_lin x p a : resid (addTo x p a) = fun i => 1 * resid x i + (- a) * FA p i.
Proof.
  ext. unfold resid, minus. replace (addTo x p a) with (fun i => 1 * x i + a * p i) by (ext; unfold addTo; ring).
  rewrite (s_lin _ _ _ _ _ _ HS). ring.
Qed.
Lemma dot_r x a b' y z : dot z (fun i => a * x i + b' * y i) = a * dot z x + b' * dot z y.
Proof. rewrite (f_sym _ Hf), (f_lin _ Hf), !(f_sym _ Hf z). reflexivity. Qed.

Lemma energy_step x p a : energy FA dot b (addTo x p a) = energy FA dot b x - a * dot p (resid x) + a * a / 2 * dot p (FA p).
Proof.
  unfold energy, resid. replace (addTo x p a) with (fun i => 1 * x i + a * p i) by (ext; unfold addTo; ring).
  replace (FA (fun i => 1 * x i + a * p i)) with (fun i => 1 * FA x i + a * FA p i) by (ext; now rewrite (s_lin _ _ _ _ _ _ HS)).
  replace (minus b (FA x)) with (fun i => 1 * b i + -1 * FA x i) by (ext; unfold minus; ring).
  rewrite !dot_r, !(f_lin _ Hf).
  rewrite (s_sym _ _ _ _ _ _ HS x p). rewrite (f_sym _ Hf (FA x) p), (f_sym _ Hf p b). field.
Qed.

Lemma pcg_loop_inv FStop n : forall it s x s' x' r, inv s x ->
  pcg_loop FA FM FResPrec dot FStop n it s x = (s', x', r) ->
  inv s' x' /\ energy FA dot b x' <= energy FA dot b x.
Proof.
  induction n as [|n IH]; intros it s x s' x' r (Iap & Ic) H; cbn [pcg_loop] in H.
  - injection H as <- <- _. split; [split; auto|lra].
  - set (z := if initialized s then FResPrec x else c_z s) in *.
    set (rr := if initialized s then FM z else c_r s) in *.
    assert (Ez : z = FResPrec x) by (unfold z; destruct (initialized s); auto; apply Ic).
    assert (Er : rr = resid x).
    { unfold rr. assert (rr = FM z) as Q by (unfold rr, z; destruct (initialized s); auto; apply Ic). fold rr. rewrite Q, Ez.
      rewrite (s_prec _ _ _ _ _ _ HS), (s_undo _ _ _ _ _ _ HS). reflexivity. }
    assert (Zr : 0 <= dot z rr). { rewrite Er, Ez, (s_prec _ _ _ _ _ _ HS). apply (s_ppos _ _ _ _ _ _ HS). }
    destruct (FStop it (dot z rr) (dot z z)).
    { injection H as <- <- _. split; [|lra]. split; [exact Iap|]. cbn [initialized c_p zrDot c_z c_r].
      unfold z, rr in *. destruct (initialized s); auto. }
    set (p := if initialized s then plus (scale (c_p s) (dot z rr / (zrDot s + verySmallReal))) z else c_p s) in *.
    assert (Eap : (if initialized s then FA p else c_Ap s) = FA p) by (unfold p; destruct (initialized s); auto).
    rewrite Eap in H. pose proof vsr_small as V.
    assert (Hp : dot z rr <= dot p rr).
    { unfold p. destruct (initialized s) eqn:Ei.
      - destruct Ic as (I1 & I2). rewrite <- Er in I2. set (be := dot z rr / (zrDot s + verySmallReal)).
        assert (0 <= be). { unfold be. apply Rmult_le_pos; auto. apply Rlt_le, Rinv_0_lt_compat. lra. }
        replace (plus (scale (c_p s) be) z) with (fun i => be * c_p s i + 1 * z i) by (ext; unfold plus, scale; ring).
        rewrite (f_lin _ Hf). pose proof (Rmult_le_pos _ _ H0 I2). lra.
      - destruct Ic as (_ & _ & I3). rewrite I3. unfold z. lra. }
    set (q := dot p (FA p)) in *. assert (Q0 : 0 <= q) by apply (s_pos _ _ _ _ _ _ HS).
    set (al := dot z rr / (q + verySmallReal)) in *.
    assert (A0 : 0 <= al). { unfold al. apply Rmult_le_pos; auto. apply Rlt_le, Rinv_0_lt_compat. lra. }
    assert (A1 : al * q <= dot z rr).
    { assert (al * (q + verySmallReal) = dot z rr) by (unfold al; field; lra).
      assert (0 <= al * verySmallReal) by (apply Rmult_le_pos; lra). lra. }
    apply IH in H.
    + destruct H as (H1 & H2). split; auto. eapply Rle_trans; [exact H2|].
      rewrite energy_step. fold q. rewrite <- Er.
      assert (al * (al * q) <= al * dot p rr) by (apply Rmult_le_compat_l; lra).
      assert (0 <= al * dot p rr) by (apply Rmult_le_pos; lra). nra.
    + split; cbn [c_Ap c_p initialized zrDot]; auto. split; auto. rewrite dotA_lin, dot_r. fold q. rewrite <- Er. lra.
Qed.

Lemma pcg_solve_inv FStop s x n s' x' r : (initialized s = true -> inv s x) ->
  pcg_solve FA FM FResPrec dot FStop s x n = (s', x', r) ->
  (initialized s' = true -> inv s' x') /\ energy FA dot b x' <= energy FA dot b x.
Proof.
  intros I H. unfold pcg_solve in H. apply pcg_loop_inv in H; [tauto|].
  destruct (initialized s) eqn:Ei; [auto|]. split; [reflexivity|]. cbn. auto.
Qed.

Lemma pcg_runs (todo : list ((nat -> R -> R -> bool) * nat)) : forall s x, (initialized s = true -> inv s x) ->
  let f := fun sx c => fst (pcg_solve FA FM FResPrec dot (fst c) (fst sx) (snd sx) (snd c)) in
  energy FA dot b (snd (fold_left f todo (s, x))) <= energy FA dot b x.
Proof.
  induction todo as [|(st, n) todo IH]; intros s x I f; cbn [fold_left]; [cbn; lra|].
  unfold f at 2. cbn [fst snd]. destruct (pcg_solve FA FM FResPrec dot st s x n) as ((s', x'), r) eqn:E.
  destruct (pcg_solve_inv _ _ _ _ _ _ _ I E) as (I' & L). cbn [fst]. eapply Rle_trans; [apply IH; exact I'|exact L].
Qed.
End P.

(** *** The answer of PCG, for any operators *)
Lemma pcg_loop_true FA FM FResPrec dot FStop n : forall it s x s' x',
  (initialized s = false -> c_z s = FResPrec x /\ c_r s = FM (c_z s)) ->
  pcg_loop FA FM FResPrec dot FStop n it s x = (s', x', true) ->
  exists it', (it <= it' < it + n)%nat /\ FStop it' (dot (FResPrec x') (FM (FResPrec x'))) (dot (FResPrec x') (FResPrec x')) = true.
Proof.
  induction n as [|n IH]; intros it s x s' x' Hs H; cbn [pcg_loop] in H; [discriminate|].
  assert (Ez : (if initialized s then FResPrec x else c_z s) = FResPrec x) by (destruct (initialized s); auto; now apply Hs).
  assert (Er : (if initialized s then FM (FResPrec x) else c_r s) = FM (FResPrec x)).
  { destruct (initialized s); auto. destruct (Hs eq_refl) as (Q1 & Q2). now rewrite Q2, Q1. }
  rewrite Ez, Er in H. destruct (FStop it _ _) eqn:Es.
  - injection H as _ <-. exists it. split; [lia|exact Es].
  - apply IH in H; [|discriminate]. destruct H as (it' & L & H). exists it'. split; [lia|exact H].
Qed.
Lemma pcg_true FA FM FResPrec dot FStop s x n s' x' :
  pcg_solve FA FM FResPrec dot FStop s x n = (s', x', true) ->
  exists it, (1 <= it <= n)%nat /\ FStop it (dot (FResPrec x') (FM (FResPrec x'))) (dot (FResPrec x') (FResPrec x')) = true.
Proof.
  intro H. unfold pcg_solve in H. apply pcg_loop_true in H.
  - destruct H as (it & L & H). exists it. split; [lia|exact H].
  - destruct (initialized s) eqn:Ei; [congruence|]. cbn. auto.
Qed.
