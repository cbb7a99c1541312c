(** The expected distance to the minimum. *)
From Coq Require Import Reals List Lia Lra Psatz ZArith.
From Verif Require Import Base Dbl Vec VecProofs Params Config Search SpecSearch SearchInv NumInv PhaseInv StopProofs Update SpecUpdate UpdateProofs UpdateProofs2 SpecCrit CritProofs SpecEdm.
Import ListNotations.
Local Open Scope R_scope.

Lemma eval_from_nth (e : env R num) (b : nat) (f : list R -> dbl) ys i : (forall j y, e_f e j y = f y) -> (i < length ys)%nat -> nth i (map snd (eval_from e b ys)) NaN = f (nth i ys []).
Proof.
  intros F. revert b i. induction ys as [|y ys IH]; intros b i Hi; [cbn in Hi; lia|].
  unfold eval_from. cbn [length seq combine map]. destruct i as [|i]; cbn [nth map snd fst]; [apply F|].
  specialize (IH (S b) i). unfold eval_from in IH. apply IH. cbn in Hi; lia.
Qed.
Section Edm.
Variables (p : npar) (e : env R num) (g : cfg R).
Let k := p_k p.
Let d := k_dim k.
Hypothesis HG : g_dim g = k_dim (p_k p).
Hypothesis HT : same_transform p e.

Lemma step_eq x i : quotient_step x i = eps_at x i.
Proof using Type. unfold quotient_step, eps_at. field. Qed.
Lemma forward_eq x i : forward d (p_ub p) (at0 x) i = grad_point p i x.
Proof using Type.
  unfold forward, grad_point. fold k d. apply tab_ext. intros j Hj. destruct (Nat.eqb j i); [|reflexivity]. rewrite step_eq. reflexivity.
Qed.
(** The value computed. *)
Lemma edm_value s s' gr : slope_at_mean p e s gr -> edm (cma_num p) e g s = Ok s' ->
  let n := s_num (t_sol s) in
  let gmn := if k_sep k then fun i => sqrt (x_sep n i) * gr i else mv d (fun i j => x_lvec n i j * sqrt (x_leig n j)) gr in
  edm_of s' = edm_factor k * (sigma_of s * norm d gmn).
Proof using HG HT.
  intros (go & HO & HM) H. unfold edm in H. apply bind_ok in H as (x & Hx & H). rewrite HT in Hx. apply Ok_inj in Hx.
  change (n_xmean (cma_num p) (s_num (t_sol s))) with (tab d (mean_of s)) in Hx.
  destruct (gradf (cma_num p) e g x s) as [vals s1] eqn:G. apply Ok_inj in H.
  assert (N : s_num (t_sol s1) = s_num (t_sol s)) by (apply gradf_calls in G; apply G).
  assert (GM : forall i, (i < d)%nat -> grad_mean p vals (s_num (t_sol s)) i = gr i).
  { intros i Hi. rewrite (HM i Hi). unfold grad_mean. fold k d. change (x_mean (s_num (t_sol s))) with (mean_of s). fold k d in HO. rewrite Hx in *.
    f_equal; [|unfold transform_slope, grad_gp; fold k d; rewrite step_eq; f_equal; f_equal; f_equal; f_equal; apply tab_ext; intros; rewrite step_eq; reflexivity].
    unfold objective_slope in HO. apply gradf_spec in G as [(GF & -> & _)|(GF & -> & _)]; rewrite GF in HO.
    - cbn [grad_vec]. symmetry. apply HO, Hi.
    - destruct HO as (f & fx & fi & F & (z & Z1 & Z2) & HI). destruct (HI i Hi) as ((zi & Y1 & Y2) & ->). fold k d in Y1. rewrite forward_eq in Y1.
      unfold grad_vec. rewrite step_eq. f_equal.
      assert (L : length (x :: map (fun j => n_gradpt (cma_num p) j x) (seq 0 (g_dim g))) = S d) by (cbn [length]; rewrite map_length, seq_length, HG; reflexivity).
      rewrite !(eval_from_nth e _ f) by (rewrite ?L; auto; lia). cbn [nth].
      rewrite (nth_indep _ [] (n_gradpt (cma_num p) 0 x)) by (rewrite map_length, seq_length, HG; exact Hi).
      rewrite (map_nth (fun j => n_gradpt (cma_num p) j x)), seq_nth by (rewrite HG; exact Hi). cbn [Nat.add].
      change (n_gradpt (cma_num p) i x) with (grad_point p i x). rewrite Y1, Z1, Y2, Z2. reflexivity. }
  subst s'. unfold edm_of. cbn [t_sol set_t_sol s_num set_s_num cma_num n_edm]. rewrite N. cbv zeta. unfold edm_num. cbn [x_edm with_edm]. fold k d.
  unfold edm_factor, edm_scale. fold k d. replace 0.5 with (1 / 2) by lra. f_equal. unfold sigma_of. f_equal. apply norm_ext. intros i Hi.
  destruct (k_sep k); [rewrite GM by exact Hi; reflexivity|]. apply mv_ext; [reflexivity|exact GM].
Qed.
Lemma edm_sep s s' gr : k_sep k = true -> (forall i, (i < d)%nat -> 0 <= variances_of s i) -> slope_at_mean p e s gr -> edm (cma_num p) e g s = Ok s' ->
  edm_of s' = expected_distance p (sigma_of s) (diag (variances_of s)) gr.
Proof using HG HT.
  intros S V HS H. rewrite (edm_value s s' gr HS H). cbv zeta. rewrite S. unfold expected_distance, norm. fold k d. do 3 f_equal.
  unfold quad, dot, mv. apply rsum_ext. intros i Hi. rewrite (rsum_single d _ i Hi); [unfold diag; rewrite Nat.eqb_refl|intros j Hj D; unfold diag; destruct (Nat.eqb_spec i j); [congruence|ring]].
  change (x_sep (s_num (t_sol s)) i) with (variances_of s i). pose proof (sqrt_sqrt _ (V i Hi)) as Q. transitivity (sqrt (variances_of s i) * sqrt (variances_of s i) * (gr i * gr i)); [ring|]. rewrite Q. ring.
Qed.

(** Orthogonal matrices keep the norm. *)
Lemma ortho_norm (b : mat) (u : vec) : (forall i j, (i < d)%nat -> (j < d)%nat -> rsum d (fun l => b l i * b l j) = if Nat.eqb i j then 1 else 0) ->
  dot d (mv d b u) (mv d b u) = dot d u u.
Proof using Type.
  intros O. unfold dot, mv.
  transitivity (rsum d (fun i => rsum d (fun j => rsum d (fun l => u j * u l * (b i j * b i l))))).
  { apply rsum_ext. intros i _. rewrite <- rsum_scal_r. apply rsum_ext. intros j _. rewrite <- rsum_scal. apply rsum_ext. intros l _. ring. }
  rewrite rsum_swap. apply rsum_ext. intros j Hj. rewrite rsum_swap.
  rewrite (rsum_ext d _ (fun l => u j * u l * (if Nat.eqb j l then 1 else 0))).
  - rewrite (rsum_single d _ j Hj); [rewrite Nat.eqb_refl; ring|]. intros l Hl D. destruct (Nat.eqb_spec j l); [congruence|ring].
  - intros l Hl. rewrite rsum_scal, (O j l Hj Hl). reflexivity.
Qed.
Notation D0 s := (p_eig p (mtab d (cov_of s))).
Lemma gen_dec s cols phen s' : k_sep k = false -> k_vd k = false -> p_lazy p = false -> run_ops (cma_num p) e g [OAsk; OGen cols phen] s = Ok s' ->
  x_leig (s_num (t_sol s')) = fst (D0 s) /\ x_lvec (s_num (t_sol s')) = snd (D0 s).
Proof using Type.
  intros H1 H2 H3 H. cbn [run_ops do_op] in H. apply bind_ok in H as (s1 & A1 & H). apply bind_ok in A1 as ([pop s1'] & A1 & Q). apply Ok_inj in Q. subst s1.
  apply bind_ok in H as (s4 & H & Q). apply Ok_inj in Q. subst s4.
  apply bind_ok in H as (s2 & A2 & H). apply bind_ok in H as (s3 & A3 & H). apply Ok_inj in H. subst s'.
  pose proof (ask_dec p e g s pop s1' H1 H2 H3 A1) as E1. pose proof (eval_dec p e g _ _ _ _ _ E1 A2) as E2. fold k d in E1, E2.
  change (x_leig (s_num (t_sol (inc_iter s3))) = fst (D0 s) /\ x_lvec (s_num (t_sol (inc_iter s3))) = snd (D0 s)) with (x_leig (s_num (t_sol s3)) = fst (D0 s) /\ x_lvec (s_num (t_sol s3)) = snd (D0 s)).
  apply (tell_phase (cma_num p) e g (fun n => x_leig n = fst (D0 s) /\ x_lvec n = snd (D0 s)) (fun n => x_dec n = D0 s)) with (4 := E2) (5 := A3).
  - intros z n Q. exact Q.
  - intros i xs n Q. cbn [cma_num n_update update_num x_leig x_lvec]. fold k d. rewrite H1, H2. cbn [orb]. rewrite Q. auto.
  - intros n Q. exact Q.
Qed.
Hypothesis H1 : k_sep k = false.
Hypothesis H2 : k_vd k = false.
Hypothesis H3 : p_lazy p = false.
Lemma edm_full s cols phen s1 s2 gr : eigensolver_ok p -> symmetric d (cov_of s) -> psd d (cov_of s) -> run_ops (cma_num p) e g [OAsk; OGen cols phen] s = Ok s1 ->
  slope_at_mean p e s1 gr -> edm (cma_num p) e g s1 = Ok s2 ->
  diagonalises d (cov_of s) (D0 s) /\ (forall i, (i < d)%nat -> 0 <= fst (D0 s) i) /\ edm_of s2 = edm_factor k * (sigma_of s1 * sqrt (rsum d (fun i => fst (D0 s) i * (gr i * gr i)))).
Proof using HG HT H1 H2 H3.
  intros HE HS HP R HM H. specialize (HE _ HS). fold k d in HE. destruct (gen_dec _ _ _ _ H1 H2 H3 R) as [E1 E2].
  assert (EV : forall i, (i < d)%nat -> 0 <= fst (D0 s) i).
  { intros i Hi. destruct (eigvec d _ _ HE i Hi) as (x & _ & <-). apply HP. }
  split; [exact HE|]. split; [exact EV|]. rewrite (edm_value s1 s2 gr HM H). cbv zeta. rewrite H1, E1, E2. do 2 f_equal. unfold norm. f_equal.
  transitivity (dot d (mv d (snd (D0 s)) (fun j => sqrt (fst (D0 s) j) * gr j)) (mv d (snd (D0 s)) (fun j => sqrt (fst (D0 s) j) * gr j))).
  { apply dot_ext; intros i Hi; unfold mv; apply rsum_ext; intros j _; ring. }
  rewrite ortho_norm by (intros; apply HE; auto). unfold dot. apply rsum_ext. intros i Hi. pose proof (sqrt_sqrt _ (EV i Hi)) as Q.
  transitivity (sqrt (fst (D0 s) i) * sqrt (fst (D0 s) i) * (gr i * gr i)); [ring|]. rewrite Q. reflexivity.
Qed.
Lemma edm_bounds s cols phen s1 s2 gr lo hi : eigensolver_ok p -> symmetric d (cov_of s) -> psd d (cov_of s) -> run_ops (cma_num p) e g [OAsk; OGen cols phen] s = Ok s1 ->
  slope_at_mean p e s1 gr -> edm (cma_num p) e g s1 = Ok s2 -> 0 <= edm_factor k -> 0 <= sigma_of s1 -> 0 <= lo ->
  (forall u, lo * dot d u u <= quad d (cov_of s) u <= hi * dot d u u) ->
  edm_factor k * (sigma_of s1 * sqrt (lo * dot d gr gr)) <= edm_of s2 <= edm_factor k * (sigma_of s1 * sqrt (hi * dot d gr gr)).
Proof using HG HT H1 H2 H3.
  intros HE HS HP R HM H F0 S0 L0 B. destruct (edm_full s cols phen s1 s2 gr HE HS HP R HM H) as (HD & EV & ->).
  assert (EB : forall i, (i < d)%nat -> lo <= fst (D0 s) i <= hi).
  { intros i Hi. destruct (eigvec d _ _ HD i Hi) as (x & X1 & X2). specialize (B x). rewrite X1, X2 in B. lra. }
  assert (M : lo * dot d gr gr <= rsum d (fun i => fst (D0 s) i * (gr i * gr i)) <= hi * dot d gr gr).
  { unfold dot. rewrite <- !rsum_scal. split; apply rsum_le; intros i Hi; apply Rmult_le_compat_r; try apply (Rle_0_sqr (gr i)); apply EB, Hi. }
  split; apply Rmult_le_compat_l; auto; apply Rmult_le_compat_l; auto; apply sqrt_le_1_alt; lra.
Qed.
End Edm.

(** The factor is positive from three points on; with two its divisor is 0. *)
Lemma factor_pos k : (1 <= k_dim k)%nat -> (3 <= k_lambda k)%nat -> 0 < edm_factor k.
Proof.
  intros D L. unfold edm_factor, edm_scale. apply Rdiv_lt_0_compat; [apply lt_0_INR; lia|].
  assert (3 <= INR (k_lambda k)) by (replace 3 with (INR 3) by (cbn; lra); apply le_INR, L).
  assert (1 < sqrt (INR (k_lambda k) / 4 + 1 / 2)) by (rewrite <- sqrt_1 at 1; apply sqrt_lt_1_alt; lra). lra.
Qed.
Lemma scale_two k : k_lambda k = 2%nat -> edm_scale k = 0.
Proof. intros L. unfold edm_scale. rewrite L. replace (INR 2 / 4 + 1 / 2) with 1 by (cbn; lra). rewrite sqrt_1. ring. Qed.

(** It only reports. *)
Lemma edm_reports p e g s s' : edm (cma_num p) e g s = Ok s' ->
  mean_of s' = mean_of s /\ sigma_of s' = sigma_of s /\ cov_of s' = cov_of s /\ variances_of s' = variances_of s /\
  s_best (t_sol s') = s_best (t_sol s) /\ s_cands (t_sol s') = s_cands (t_sol s) /\ s_hist (t_sol s') = s_hist (t_sol s) /\ s_status (t_sol s') = s_status (t_sol s) /\
  t_gens s' = t_gens s /\ s_niter (t_sol s') = s_niter (t_sol s) /\
  exists l, t_log s' = t_log s ++ l /\ length l = (if e_gfunc e then 0 else S (g_dim g))%nat /\ s_nevals (t_sol s') = (s_nevals (t_sol s) + Z.of_nat (length l))%Z.
Proof.
  intros H. pose proof H as H'. apply edm_spec in H' as ((K & GG & C & l & L & N1 & N2) & LL). unfold keep in K. injection K as K1 K2 K3 K4 K5 K6 K7 K8 K9 K10 K11 K12 K13 K14 K15.
  unfold edm in H. apply bind_ok in H as (x & _ & H). destruct (gradf (cma_num p) e g x s) as [vals s1] eqn:G. apply Ok_inj in H.
  assert (N : s_num (t_sol s1) = s_num (t_sol s)) by (apply gradf_calls in G; apply G).
  assert (X : s_num (t_sol s') = edm_num p vals (s_num (t_sol s))) by (subst s'; cbn [t_sol set_t_sol s_num set_s_num cma_num n_edm]; rewrite N; reflexivity).
  unfold mean_of, sigma_of, cov_of, variances_of. rewrite X. do 4 (split; [reflexivity|]).
  repeat (split; [congruence|]). exists l. split; [exact L|]. split; [|congruence].
  rewrite L, app_length in LL. unfold edm_cost in LL. destruct (e_gfunc e); lia.
Qed.
(** optimize() ends with it. *)
Lemma optimize_edm {T N} (no : numops T N) e g rf fuel : g_edm g = true -> forall body s r s', optimize no e g body rf fuel s = Ok (r, s') ->
  exists s2, edm no e g s2 = Ok s'.
Proof.
  intros HE. induction rf as [|rf IH]; intros body s r s' H; cbn [optimize] in H.
  all: apply bind_ok in H as (s1 & A1 & H); apply bind_ok in H as (s2 & A2 & H); apply bind_ok in H as (s3 & A3 & H); apply bind_ok in H as (w & A4 & H); apply bind_ok in H as (s4 & A5 & H).
  all: rewrite HE in A3; apply Ok_inj in H; injection H as _ <-.
  - destruct w; [discriminate|]. apply Ok_inj in A5. subst. eauto.
  - destruct w; [|apply Ok_inj in A5; subst; eauto]. apply bind_ok in A5 as (s5 & A5 & A6). apply bind_ok in A6 as ([r' s6] & A6 & A7). apply Ok_inj in A7. cbn [snd] in A7. subst s6. eapply IH; eauto.
Qed.
