(** Points proposed by ask. *)
From Coq Require Import Reals List Lia Lra ZArith.
From Verif Require Import Base Dbl Vec VecProofs Params Config Search SpecSearch SortProofs SearchInv StopProofs Update SpecUpdate Corr SpecSample.
Import ListNotations.
Local Open Scope R_scope.

Section Cols.
Context {T N : Type}.
Variable no : numops T N.
Variable e : env T N.
Variable g : cfg T.

Lemma mapM_nth_error {A B} (f : A -> res B) l out : mapM f l = Ok out -> forall i y, nth_error out i = Some y -> exists x, nth_error l i = Some x /\ f x = Ok y.
Proof.
  revert out. induction l as [|a l IH]; intros out H i y Hy; cbn in H.
  - apply Ok_inj in H. subst out. destruct i; discriminate.
  - apply bind_ok in H as (b & E & H). apply bind_ok in H as (bs & E' & H). apply Ok_inj in H. subst out.
    destruct i as [|i]; cbn in *; [injection Hy as <-; eauto|]. eapply IH; eauto.
Qed.
Lemma fix_rows_nth (fx : list (Z * T)) : forall pop pop', fix_rows fx pop = Ok pop' -> forall c x, nth_error pop' c = Some x ->
  exists y, nth_error pop c = Some y /\ forall j, (forall v, ~ In (Z.of_nat j, v) fx) -> nth_error x j = nth_error y j.
Proof.
  induction fx as [|[i v] fx IH]; intros pop pop' H c x Hx; cbn [fix_rows] in H.
  - apply Ok_inj in H. subst pop'. eauto.
  - apply bind_ok in H as (pop1 & E & H). destruct (IH _ _ H c x Hx) as (y & Hy & Q).
    unfold set_row in E. destruct (mapM_nth_error _ _ _ E c y Hy) as (z & Hz & U). exists z. split; [exact Hz|].
    intros j Hj. rewrite Q by (intros w Hw; apply (Hj w); right; exact Hw). apply upd_at_ok in U as [U ->]. rewrite nth_error_upd by (clear - U; lia).
    destruct (Nat.eqb_spec j (Z.to_nat i)) as [R|R]; [|reflexivity]. exfalso. apply (Hj v). left. f_equal. lia.
Qed.
Lemma set_col_nth i x (pop pop' : list (list T)) : set_col i x pop = Ok pop' -> (0 <= i < Z.of_nat (length pop))%Z /\ length pop' = length pop /\
  nth_error pop' (Z.to_nat i) = Some x /\ forall c, Z.of_nat c <> i -> nth_error pop' c = nth_error pop c.
Proof.
  unfold set_col. intros H. pose proof (set_col_spec _ _ _ _ H) as [L _]. apply upd_at_ok in H as [H E]. split; [exact H|]. split; [exact L|]. subst pop'. split.
  - rewrite nth_error_upd by lia. now rewrite Nat.eqb_refl.
  - intros c Hc. rewrite nth_error_upd by lia. destruct (Nat.eqb_spec c (Z.to_nat i)); [lia|reflexivity].
Qed.
(** Columns that are not replaced. *)
Lemma ask_untouched s pop s' pop0 n2 : ask no e g s = Ok (pop, s') -> n_sample no (g_lambda g) (n_eigen no (t_niter s) (s_num (t_sol s))) = (pop0, n2) ->
  forall c x, nth_error pop c = Some x -> ~ replaced g s c ->
  exists y, nth_error pop0 c = Some y /\ forall j, ~ is_fixed g j -> nth_error x j = nth_error y j.
Proof.
  intros H Es c x Hx Hr. unfold ask in H. rewrite Es in H. apply bind_ok in H as ([pop2 s2] & E2 & H). apply bind_ok in H as ([pop3 s3] & E3 & H). apply bind_ok in H as (pop4 & E4 & H).
  apply Ok_inj in H. injection H as <- <-.
  destruct (fix_rows_nth _ _ _ E4 c x Hx) as (y & Hy & Q).
  assert (K2 : nth_error pop2 c = nth_error pop0 c /\ t_niter s2 = t_niter s /\ s_tpa1 (t_sol s2) = s_tpa1 (t_sol s) /\ s_tpa2 (t_sol s2) = s_tpa2 (t_sol s)).
  { destruct (g_gradient g) eqn:G; [|apply Ok_inj in E2; injection E2 as <- <-; auto].
    apply bind_ok in E2 as (a & _ & E2). match type of E2 with context [gradf no e g a ?s1] => destruct (gradf no e g a s1) as [gr s2'] eqn:Eg end.
    apply gradf_calls in Eg as ((O1 & _) & _ & _ & O4 & O5).
    assert (F : t_niter s2' = t_niter s /\ s_tpa1 (t_sol s2') = s_tpa1 (t_sol s) /\ s_tpa2 (t_sol s2') = s_tpa2 (t_sol s)).
    { unfold keep in O1. injection O1. intros. auto. }
    destruct (n_gradcol no gr _).
    - apply bind_ok in E2 as (pop' & E2 & E6). apply Ok_inj in E6. injection E6 as <- <-. split; [|exact F]. apply set_col_nth in E2 as (_ & _ & _ & E2). apply E2. intros Hc. apply Hr. left. split; [auto|lia].
    - apply Ok_inj in E2. injection E2 as <- <-. auto. }
  destruct K2 as (K2 & KN & KT1 & KT2).
  assert (K3 : nth_error pop3 c = nth_error pop2 c).
  { rewrite KN in E3. destruct ((g_tpa g =? 2)%Z && (0 <? t_niter s)%Z) eqn:B; [|apply Ok_inj in E3; injection E3 as <- <-; auto].
    apply andb_prop in B as [B1 B2]. apply Z.eqb_eq in B1. apply Z.ltb_lt in B2.
    destruct (n_tpa_points no (s_num (t_sol s2))) as [[x1 x2] n3]. apply bind_ok in E3 as (pa & E5 & E3). apply bind_ok in E3 as (pb & E6 & E3). apply Ok_inj in E3. injection E3 as <- <-.
    apply set_col_nth in E5 as (_ & _ & _ & E5), E6 as (_ & _ & _ & E6). rewrite E6, E5; [reflexivity| |].
    - intros Hc. apply Hr. right. split; [auto|]. split; [auto|]. left. rewrite Hc. destruct (g_gradient g); cbn; auto.
    - intros Hc. apply Hr. right. split; [auto|]. split; [auto|]. right. rewrite Hc. destruct (g_gradient g); cbn; auto. }
  exists y. split; [congruence|]. intros j Hj. apply Q. intros v Hv. apply Hj. exists v. exact Hv.
Qed.
End Cols.

Lemma ask_final {T N} (no : numops T N) e g s pop s' pop0 n2 : ask no e g s = Ok (pop, s') -> n_sample no (g_lambda g) (n_eigen no (t_niter s) (s_num (t_sol s))) = (pop0, n2) ->
  s_num (t_sol s') = (if (g_tpa g =? 2)%Z && (0 <? t_niter s)%Z then snd (n_tpa_points no n2) else n2) /\ length pop = length pop0.
Proof.
  intros H Es. unfold ask in H. rewrite Es in H. apply bind_ok in H as ([pop2 s2] & E2 & H). apply bind_ok in H as ([pop3 s3] & E3 & H). apply bind_ok in H as (pop4 & E4 & H).
  apply Ok_inj in H. injection H as <- <-. apply fix_rows_length in E4.
  assert (K2 : length pop2 = length pop0 /\ t_niter s2 = t_niter s /\ s_num (t_sol s2) = n2).
  { destruct (g_gradient g) eqn:G; [|apply Ok_inj in E2; injection E2 as <- <-; auto].
    apply bind_ok in E2 as (a & _ & E2). match type of E2 with context [gradf no e g a ?s1] => destruct (gradf no e g a s1) as [gr s2'] eqn:Eg end.
    apply gradf_calls in Eg as ((O1 & _) & _ & O3 & _ & _).
    assert (F : t_niter s2' = t_niter s). { unfold keep in O1. injection O1. intros. auto. }
    destruct (n_gradcol no gr _).
    - apply bind_ok in E2 as (pop' & E2 & E6). apply Ok_inj in E6. injection E6 as <- <-. apply set_col_spec in E2 as [E2 _]. auto.
    - apply Ok_inj in E2. injection E2 as <- <-. auto. }
  destruct K2 as (K2 & KN & KS). rewrite KN in E3. destruct ((g_tpa g =? 2)%Z && (0 <? t_niter s)%Z) eqn:B; [|apply Ok_inj in E3; injection E3 as <- <-; split; [auto|congruence]].
  rewrite KS in E3. destruct (n_tpa_points no n2) as [[x1 x2] n3]. apply bind_ok in E3 as (pa & E5 & E3). apply bind_ok in E3 as (pb & E6 & E3). apply Ok_inj in E3. injection E3 as <- <-.
  apply set_col_spec in E5 as [E5 _], E6 as [E6 _]. split; [destruct (g_gradient g); reflexivity|congruence].
Qed.

Section Sample.
Variable p : npar.
Let k := p_k p.
Let d := k_dim k.

(** The matrix applied to the draws. *)
Definition root (n : num) (dec : vec * mat) : mat :=
  if k_sep k then diag (fun i => sqrt (x_sep n i))
  else if k_vd k then
    let vbar := fun i => x_v n i / norm d (x_v n) in
    fun i j => x_sep n i * ((if Nat.eqb i j then 1 else 0) + (sqrt (1 + dot d (x_v n) (x_v n)) - 1) * vbar i * vbar j)
  else transform dec.
Lemma mv_diag v x i : (i < d)%nat -> mv d (diag v) x i = v i * x i.
Proof.
  intros H. unfold mv, diag. rewrite (rsum_single d _ i H); [now rewrite Nat.eqb_refl|]. intros j _ Hj. destruct (Nat.eqb_spec i j); [congruence|ring].
Qed.
Lemma sample_root n z i : (i < d)%nat -> (k_sep k || k_vd k = true -> x_smean n = x_mean n) ->
  sample_col p n z i = x_smean n i + x_sigma n * mv d (root n (x_dec n)) z i.
Proof.
  intros Hi Hm. unfold sample_col, root. fold k. fold d. destruct (k_sep k); [rewrite mv_diag by exact Hi; cbv beta; ring|]. destruct (k_vd k); [|subst d; subst k; ring].
  rewrite (Hm eq_refl). f_equal. f_equal. unfold mv. cbv zeta. set (f := sqrt (1 + dot d (x_v n) (x_v n)) - 1). fold (norm d (x_v n)). set (vb := fun i => x_v n i / norm d (x_v n)).
  change (fun i0 => x_v n i0 / norm d (x_v n)) with vb. 
  transitivity (rsum d (fun j => x_sep n i * ((if Nat.eqb i j then 1 else 0) * z j) + x_sep n i * f * vb i * (vb j * z j))).
  - rewrite rsum_plus, !rsum_scal. rewrite (rsum_single d _ i Hi); [|intros j _ Hj; destruct (Nat.eqb_spec i j); [congruence|ring]]. rewrite Nat.eqb_refl. unfold dot. fold (vb i). ring.
  - apply rsum_ext. intros j _. fold (vb i) (vb j). ring.
Qed.
Lemma root_sep n dec : k_sep k = true -> (forall i, (i < d)%nat -> 0 <= x_sep n i) -> square_root d (root n dec) (diag (x_sep n)).
Proof.
  intros K H i j Hi Hj. unfold root. rewrite K. unfold diag. destruct (Nat.eqb_spec i j) as [<-|Q].
  - rewrite (rsum_single d _ i Hi); [rewrite Nat.eqb_refl; apply sqrt_sqrt; auto|]. intros l _ Hl. destruct (Nat.eqb_spec i l); [congruence|ring].
  - rewrite (rsum_ext d _ (fun _ => 0)); [apply rsum_0|]. intros l _. destruct (Nat.eqb_spec i l), (Nat.eqb_spec j l); try ring. congruence.
Qed.
Lemma root_vd n dec : k_sep k = false -> k_vd k = true -> 0 < dot d (x_v n) (x_v n) -> square_root d (root n dec) (vd_cov n).
Proof.
  intros K1 K2 H i j Hi Hj. unfold root. rewrite K1, K2. cbv zeta. set (w := dot d (x_v n) (x_v n)) in *. set (f := sqrt (1 + w) - 1). set (vb := fun i => x_v n i / norm d (x_v n)).
  assert (Hv : forall l, vb l * norm d (x_v n) = x_v n l) by (intros l; unfold vb; field; intros Q; unfold norm in Q; fold w in Q; apply sqrt_eq_0 in Q; [lra|fold w; lra]).
  assert (N2 : norm d (x_v n) * norm d (x_v n) = w) by (apply sqrt_sqrt; fold w; lra).
  assert (HB : rsum d (fun l => vb l * vb l) = 1).
  { apply (Rmult_eq_reg_r w); [|lra]. rewrite <- N2 at 1. rewrite <- rsum_scal_r. rewrite Rmult_1_l. unfold w, dot. apply rsum_ext. intros l _. rewrite <- (Hv l). ring. }
  assert (HF : f * (2 + f) = w). { unfold f. replace ((sqrt (1 + w) - 1) * (2 + (sqrt (1 + w) - 1))) with (sqrt (1 + w) * sqrt (1 + w) - 1) by ring. rewrite sqrt_sqrt by lra. ring. }
  set (dl := fun a b : nat => if Nat.eqb a b then 1 else 0).
  transitivity (rsum d (fun l => x_sep n i * x_sep n j * (dl i l * dl j l) + x_sep n i * x_sep n j * f * vb j * (dl i l * vb l) + x_sep n i * x_sep n j * f * vb i * (dl j l * vb l) + x_sep n i * x_sep n j * f * f * vb i * vb j * (vb l * vb l))).
  - apply rsum_ext. intros l _. fold (vb i) (vb j) (vb l) (dl i l) (dl j l). ring.
  - rewrite !rsum_plus, !rsum_scal, HB.
    assert (D : forall a u, (a < d)%nat -> rsum d (fun l => dl a l * u l) = u a).
    { intros a u Ha. rewrite (rsum_single d _ a Ha); [unfold dl; rewrite Nat.eqb_refl; ring|]. intros l _ Hl. unfold dl. destruct (Nat.eqb_spec a l); [congruence|ring]. }
    rewrite (D i (dl j)), (D i vb), (D j vb) by assumption. unfold vd_cov. fold (dl i j).
    replace (dl j i) with (dl i j) by (unfold dl; rewrite Nat.eqb_sym; reflexivity).
    rewrite <- (Hv i), <- (Hv j). replace (vb i * norm d (x_v n) * (vb j * norm d (x_v n))) with (vb i * vb j * w) by (rewrite <- N2; ring). rewrite <- HF. ring.
Qed.
Lemma root_full n dec : k_sep k = false -> k_vd k = false -> psd d (x_cov n) -> diagonalises d (x_cov n) dec -> square_root d (root n dec) (x_cov n).
Proof.
  intros K1 K2 HP (O1 & O2 & D) i j Hi Hj. unfold root. rewrite K1, K2. unfold transform. rewrite D by assumption. apply rsum_ext. intros l Hl.
  assert (L : 0 <= fst dec l).
  { specialize (HP (fun i => snd dec i l)). unfold quad, dot, mv in HP.
    rewrite (rsum_ext d _ (fun a => snd dec a l * (fst dec l * snd dec a l))) in HP.
    - rewrite (rsum_ext d _ (fun a => fst dec l * (snd dec a l * snd dec a l))) in HP by (intros; ring). rewrite rsum_scal, O1, Nat.eqb_refl in HP by assumption. lra.
    - intros a Ha. f_equal. rewrite (rsum_ext d _ (fun b => rsum d (fun m => (snd dec a m * fst dec m) * (snd dec b m * snd dec b l)))).
      + rewrite rsum_swap. rewrite (rsum_ext d _ (fun m => snd dec a m * fst dec m * (if Nat.eqb m l then 1 else 0))).
        * rewrite (rsum_single d _ l Hl); [rewrite Nat.eqb_refl; ring|]. intros m _ Hm. destruct (Nat.eqb_spec m l); [congruence|ring].
        * intros m Hm. rewrite rsum_scal. now rewrite O1 by assumption.
      + intros b Hb. rewrite D by assumption. rewrite <- rsum_scal_r. apply rsum_ext. intros; ring. }
  rewrite Rmax_left by exact L. replace (snd dec i l * sqrt (fst dec l) * (snd dec j l * sqrt (fst dec l))) with (snd dec i l * (sqrt (fst dec l) * sqrt (fst dec l)) * snd dec j l) by ring. rewrite sqrt_sqrt by exact L. reflexivity.
Qed.

(** One ask. *)
Lemma sample_pos count n pop n' : sample_num p count n = (pop, n') -> x_pos n' = (x_pos n + count * d)%nat.
Proof. intros H. injection H as _ <-. reflexivity. Qed.
Lemma ask_normal e g s pop s' : same_problem p g -> ask (cma_num p) e g s = Ok (pop, s') ->
  let n1 := eigen_num p (t_niter s) (s_num (t_sol s)) in
  normal_population p g s s' pop (x_smean n1) (root (s_num (t_sol s)) (x_dec n1)).
Proof.
  intros (E1 & E2 & E3) H n1. destruct (n_sample (cma_num p) (g_lambda g) (n_eigen (cma_num p) (t_niter s) (s_num (t_sol s)))) as [pop0 n2] eqn:Es.
  destruct (ask_final _ _ _ _ _ _ _ _ H Es) as [F L]. pose proof (ask_untouched _ _ _ _ _ _ _ _ H Es) as U. cbn in Es. change (eigen_num p (t_niter s) (s_num (t_sol s))) with n1 in Es.
  assert (P1 : x_pos n1 = drawn s). { unfold n1, eigen_num, drawn. destruct (_ || _); [reflexivity|]. destruct (_ || _); reflexivity. }
  assert (Pr : root n1 (x_dec n1) = root (s_num (t_sol s)) (x_dec n1)). { unfold n1, root, eigen_num. destruct (_ || _); [reflexivity|]. destruct (_ || _ || _); reflexivity. }
  assert (Ps : x_sigma n1 = sigma_of s). { unfold n1, sigma_of, eigen_num. destruct (_ || _); [reflexivity|]. destruct (_ || _); reflexivity. }
  assert (Pm : k_sep k || k_vd k = true -> x_smean n1 = x_mean n1). { intros K. unfold n1, eigen_num. fold k. rewrite K. reflexivity. }
  pose proof Es as Es'. apply sample_pos in Es'. unfold sample_num in Es. injection Es as Q1 Q2.
  split; [rewrite L, <- Q1, map_length, seq_length; exact E2|]. split.
  - unfold drawn at 2. rewrite F. rewrite <- E2. fold k. fold d. destruct (_ && _); cbn; [|rewrite Es', P1; lia]. rewrite Es', P1. lia.
  - intros c x i Hc Hr Hi Hf. destruct (U c x Hc Hr) as (y & Hy & Q). rewrite Q by exact Hf. rewrite <- Q1 in Hy.
    rewrite nth_error_map in Hy. destruct (nth_error (seq 0 (g_lambda g)) c) as [c'|] eqn:Ec; [|discriminate]. cbn in Hy. injection Hy as <-.
    assert (c' = c). { pose proof (nth_error_Some (seq 0 (g_lambda g)) c). rewrite Ec in H0. rewrite seq_length in H0. apply (nth_error_nth _ _ 0%nat) in Ec. rewrite seq_nth in Ec; [lia|]. apply H0. discriminate. }
    subst c'. unfold tab. rewrite nth_error_map. rewrite (nth_error_nth' _ 0%nat) by (rewrite seq_length; exact Hi). rewrite seq_nth by exact Hi. cbn [option_map Nat.add]. f_equal.
    rewrite (sample_root n1 _ i Hi Pm), Pr, Ps, P1. reflexivity.
Qed.
End Sample.
