From Coq Require Import Reals Lra Lia Psatz.
From Verif Require Import Base Params SpecParams ParamsProofs.
Open Scope R_scope.

Record inv (sep : bool) (p : cpar) : Prop := {
  iv_wf : wf p;
  iv_rates : rates_ok p;
  iv_sep : sep = false -> k_c1 p * ((INR (k_dim p) + 2) / 3) < 1
}.

Lemma sqrt_ge1 n : 1 <= n -> 1 <= sqrt n.
Proof. intros H. rewrite <- sqrt_1. apply sqrt_le_1_alt; exact H. Qed.

Lemma init_inv b p : wf p -> inv b (initialize p).
Proof.
  intros H. destruct (init_rates p H) as (R & _). constructor; [exact H|exact R|].
  intros _. destruct R as [Hm _ _ _ _ _ _ _ _].
  exact (proj1 (proj2 (base_c1 (INR (k_dim p)) (k_muw (initialize p)) (INR_ge1 _ (proj1 H)) Hm))).
Qed.

Lemma sep_inv p : inv false p -> inv true (set_sep p).
Proof.
  intros [[Hd Hl] [Hm Hcs Hcc Hc1 Hcmu Hsum Hds Hps Hpc] Hs]. specialize (Hs eq_refl).
  pose proof (INR_ge1 _ Hd) as Hn. pose proof (sqrt_ge1 _ Hn) as Hq.
  set (n := INR (k_dim p)) in *. set (m := k_muw p) in *.
  constructor; [split; assumption| |discriminate].
  unfold set_sep; fold n; fold m.
  assert (H1 : 0 < k_c1 p * ((n + 2) / 3)) by (apply Rmult_lt_0_compat; lra).
  assert (H2 : 0 <= (0.3 + m - 2 + 1 / m) / (n + 4 * sqrt n + m / 2)).
  { apply Rdiv_nonneg; [pose proof (muw_poly m Hm); lra|lra]. }
  constructor; cbn [k_muw k_csigma k_cc k_c1 k_cmu k_dsigma k_fact_ps k_fact_pc]; try assumption; try lra.
  - assert (0 < 1 / n) by (apply Rdiv_pos; lra). assert (0 < m / n) by (apply Rdiv_pos; lra).
    assert (E : 2 * m / n = 2 * (m / n)) by (field; lra). rewrite E.
    split; [apply Rdiv_pos; lra|apply Rdiv_le_1; lra].
  - apply Rmin_glb; lra.
  - pose proof (Rmin_l (1 - k_c1 p * ((n + 2) / 3)) ((0.3 + m - 2 + 1 / m) / (n + 4 * sqrt n + m / 2))). lra.
Qed.

Lemma noisy_inv b p : inv b p -> inv b (set_noisy p).
Proof.
  intros [[Hd Hl] _ _].
  unfold set_noisy.
  match goal with |- context [initialize ?P] => set (p5 := P) end.
  assert (W : wf p5) by (split; cbn; lia).
  destruct (init_rates p5 W) as ([Hm Hcs Hcc Hc1 Hcmu Hsum Hds Hps Hpc] & _).
  pose proof (INR_ge1 _ Hd) as Hn. set (n := INR (k_dim p)) in *.
  destruct (init_inv false p5 W) as [_ _ Hs]. specialize (Hs eq_refl).
  change (k_dim (initialize p5)) with (k_dim p) in Hs. fold n in Hs.
  set (q := initialize p5) in *. cbn zeta.
  constructor.
  - split; cbn; [exact Hd|]. unfold q, initialize; cbn. lia.
  - constructor; cbn [k_muw k_csigma k_cc k_c1 k_cmu k_dsigma k_fact_ps k_fact_pc]; try assumption; try lra.
    + apply Rmin_glb; [lra|]. apply Rdiv_nonneg; [|nra]. pose proof (muw_poly _ Hm). lra.
    + pose proof (Rmin_l (1 - k_c1 q * 0.2) (2 * 0.2 * (k_muw q - 2 + 1 / k_muw q) / ((n + 2) * (n + 2) + k_muw q))). lra.
  - intros _. cbn [k_c1 k_dim]. change (k_dim q) with (k_dim p). fold n.
    assert (0 < k_c1 q * ((n + 2) / 3)) by (apply Rmult_lt_0_compat; lra). lra.
Qed.

Lemma tpa_inv s b p : inv s p -> inv s (set_tpa b p).
Proof.
  intros [[Hd Hl] [Hm Hcs Hcc Hc1 Hcmu Hsum Hds Hps Hpc] Hs].
  pose proof (INR_ge1 _ Hd) as Hn. pose proof (sqrt_ge1 _ Hn) as Hq.
  unfold set_tpa. destruct (b =? 2)%Z; (constructor; [split; assumption| |exact Hs]);
  (constructor; try assumption); cbn [k_dsigma with_dsigma with_tpa k_dim k_csigma k_muw].
  - assert (3.6 / sqrt (INR (k_dim p)) <= 3.6).
    { rewrite <- (Rmult_1_r 3.6) at 2. apply Rmult_le_compat_l; [lra|].
      rewrite <- Rinv_1. apply Rinv_le_contravar; lra. }
    lra.
  - pose proof (dsigma_pos (k_csigma p) (k_muw p) (INR (k_dim p)) (proj1 Hcs)). lra.
Qed.
Lemma fixed_inv s m p : inv s p -> inv s (with_fixed p m).
Proof.
  intros [[Hd Hl] [Hm Hcs Hcc Hc1 Hcmu Hsum Hds Hps Hpc] Hs].
  constructor; [split; assumption| |exact Hs]. constructor; assumption.
Qed.

Lemma inv_weaken p : inv false p -> inv true p.
Proof. intros [A B C]; constructor; [exact A|exact B|discriminate]. Qed.

Lemma adapt_inv h : forall s p, inv s p -> (sep_calls h + (if s then 1 else 0) <= 1)%nat ->
  exists s', inv s' (fold_left do_adapt h p).
Proof.
  induction h as [|a h IH]; intros s p Hp Hc; [exists s; exact Hp|].
  cbn [fold_left]. unfold sep_calls in Hc; cbn [filter] in Hc.
  destruct a as [| |b|i v|i]; cbn [do_adapt]; cbn [length] in Hc.
  - destruct s; [lia|]. apply (IH true); [apply sep_inv; exact Hp|unfold sep_calls; lia].
  - apply (IH s); [apply noisy_inv; exact Hp|exact Hc].
  - apply (IH s); [apply tpa_inv; exact Hp|exact Hc].
  - apply (IH s); [apply fixed_inv; exact Hp|exact Hc].
  - apply (IH s); [apply fixed_inv; exact Hp|exact Hc].
Qed.

Lemma rates_admissible p : rates_ok p -> admissible p.
Proof. intros []; unfold admissible; repeat split; tauto || lra. Qed.

Lemma default_admissible n lambda : (1 <= n)%nat -> (2 <= lambda)%nat ->
  let p := cma_params n lambda in
  admissible p /\ 1 + k_csigma p <= k_dsigma p /\ 0 < k_chi p /\ 0 < k_lazy p /\
  0 < k_fact_ps p /\ 0 < k_fact_pc p.
Proof.
  intros H1 H2 p. assert (W : wf (blank n lambda)) by (split; assumption).
  destruct (init_rates _ W) as (R & A & B & C).
  split; [apply rates_admissible; exact R|]. destruct R. repeat split; assumption.
Qed.

Lemma adapted_admissible n lambda h : (1 <= n)%nat -> (2 <= lambda)%nat -> (sep_calls h <= 1)%nat ->
  admissible (fold_left do_adapt h (cma_params n lambda)).
Proof.
  intros H1 H2 H3. assert (W : wf (blank n lambda)) by (split; assumption).
  assert (Hc : (sep_calls h + (if false then 1 else 0) <= 1)%nat) by (cbn; lia).
  destruct (adapt_inv h false (cma_params n lambda) (init_inv false _ W) Hc) as (s & [_ R _]).
  apply rates_admissible; exact R.
Qed.

(** Three calls of set_sep: c1 exceeds one and cmu is negative. *)
Lemma muw_lambda2 : muw_of 1 = 1.
Proof.
  unfold muw_of, raw_weights, sumR; cbn [seq map fold_right].
  replace (INR 1 + 1) with 2 by (cbn; ring). replace (INR 0 + 1) with 1 by (cbn; ring). rewrite ln_1.
  pose proof (ln_increasing 1 2 ltac:(lra) ltac:(lra)) as H. rewrite ln_1 in H. field. lra.
Qed.
Lemma sep_thrice : let p := set_sep (set_sep (set_sep (cma_params 30 2))) in 1 < k_c1 p /\ k_cmu p < 0.
Proof.
  intros p.
  assert (E : k_c1 p = 2 / ((INR 30 + 1.3) * (INR 30 + 1.3) + muw_of 1) * ((INR 30 + 2) / 3) * ((INR 30 + 2) / 3) * ((INR 30 + 2) / 3)) by reflexivity.
  rewrite muw_lambda2 in E. replace (INR 30) with 30 in E by (cbn; lra).
  assert (H : 1 < k_c1 p) by (rewrite E; lra).
  split; [exact H|].
  assert (k_cmu p <= 1 - k_c1 p) by apply Rmin_l. lra.
Qed.

(** Free dimensions. *)
Lemma fixed_chi p m : (length m < k_dim p)%nat -> 0 < k_c1 p + k_cmu p ->
  0 < k_chi (with_fixed p m) /\ 0 < k_lazy (with_fixed p m).
Proof.
  intros H Hc. unfold with_fixed; cbn [k_chi k_lazy].
  assert (Hn : 1 <= INR (k_dim p) - INR (length m)).
  { rewrite <- minus_INR by lia. apply INR_ge1; lia. }
  split; [apply chi_pos; exact Hn|].
  apply Rdiv_pos; [|lra]. apply Rdiv_pos; [|lra]. apply Rdiv_pos; lra.
Qed.

(** * VD *)
Lemma vd_ge5 n lambda a : (5 <= n)%nat -> (2 <= lambda)%nat -> (a = 12 \/ a = 13 \/ a = 14)%Z ->
  let p := set_vd (set_algo a (cma_params n lambda)) in
  k_vd p = true /\ 0 < k_csigma p < 1 /\ 0 <= k_c1 p < 1 /\ 0 <= k_cmu p /\ k_c1 p + k_cmu p <= 1 /\ 0 < k_dsigma p.
Proof.
  intros Hn Hl Ha p.
  assert (W : wf (blank n lambda)) by (split; cbn; lia).
  destruct (init_rates _ W) as ([Hm Hcs Hcc Hc1 Hcmu Hsum Hds Hps Hpc] & _).
  fold (cma_params n lambda) in *. set (q := cma_params n lambda) in *.
  assert (E : p = set_vd (set_algo a q)) by reflexivity.
  unfold set_vd in E. replace (k_algo (set_algo a q)) with a in E by reflexivity.
  assert (Ht : ((a =? 12) || (a =? 13) || (a =? 14))%Z = true).
  { destruct Ha as [->|[->| ->]]; reflexivity. }
  rewrite Ht in E. change (k_dim (set_algo a q)) with n in E. change (k_muw (set_algo a q)) with (k_muw q) in E.
  change (k_c1 (set_algo a q)) with (k_c1 q) in E. change (k_tpa (set_algo a q)) with 1%Z in E.
  assert (Hn5 : 5 <= INR n). { apply le_INR in Hn. cbn in Hn; lra. }
  assert (S1 : 0 < sqrt (k_muw q)) by (apply sqrt_lt_R0; lra).
  assert (S2 : 0 < sqrt (INR n)) by (apply sqrt_lt_R0; lra).
  assert (B : k_c1 q = 2 / ((INR n + 1.3) * (INR n + 1.3) + k_muw q)) by reflexivity.
  assert (Hd : 0 < (INR n + 1.3) * (INR n + 1.3) + k_muw q) by nra.
  assert (Hc0 : 0 <= k_c1 q * ((INR n - 5) / 6)) by (apply Rmult_le_pos; lra).
  assert (Hc2 : k_c1 q * ((INR n - 5) / 6) < 1).
  { rewrite B. replace (2 / ((INR n + 1.3) * (INR n + 1.3) + k_muw q) * ((INR n - 5) / 6))
      with (((INR n - 5) / 3) / ((INR n + 1.3) * (INR n + 1.3) + k_muw q)) by (field; lra).
    apply Rdiv_lt_1; [exact Hd|nra]. }
  rewrite E; cbn [k_vd k_csigma k_c1 k_cmu k_dsigma].
  split; [reflexivity|]. split; [|split; [lra|split; [|split]]].
  - split; [apply Rdiv_pos; lra|apply Rdiv_lt_1; lra].
  - apply Rmin_glb; [lra|]. apply Rmult_le_pos; [lra|]. apply Rdiv_nonneg; [|nra].
    pose proof (muw_poly _ Hm); lra.
  - pose proof (Rmin_l (1 - k_c1 q * ((INR n - 5) / 6)) ((INR n - 5) / 6 * (2 * (k_muw q - 2 + 1 / k_muw q) / ((INR n + 2) * (INR n + 2) + k_muw q)))). lra.
  - cbn [Z.eqb]. change (k_dsigma (set_algo a q)) with (k_dsigma q). lra.
Qed.

Lemma vd_lt5 n lambda a : (1 <= n < 5)%nat -> (2 <= lambda)%nat -> (a = 12 \/ a = 13 \/ a = 14)%Z ->
  let p := set_vd (set_algo a (cma_params n lambda)) in k_c1 p < 0.
Proof.
  intros [Hn1 Hn] Hl Ha p.
  assert (W : wf (blank n lambda)) by (split; cbn; lia).
  destruct (init_rates _ W) as ([Hm Hcs Hcc Hc1 Hcmu Hsum Hds Hps Hpc] & _).
  fold (cma_params n lambda) in *. set (q := cma_params n lambda) in *.
  assert (E : p = set_vd (set_algo a q)) by reflexivity.
  unfold set_vd in E. replace (k_algo (set_algo a q)) with a in E by reflexivity.
  assert (Ht : ((a =? 12) || (a =? 13) || (a =? 14))%Z = true).
  { destruct Ha as [->|[->| ->]]; reflexivity. }
  rewrite Ht in E. rewrite E; cbn [k_c1].
  change (k_c1 (set_algo a q)) with (k_c1 q). change (k_dim (set_algo a q)) with n.
  assert (INR n < 5). { apply lt_INR in Hn. cbn in Hn; lra. }
  nra.
Qed.

(** * Default population size *)
Lemma default_lambda_spec n l : (1 <= n)%nat -> (l < 2)%Z ->
  let v := ctor_lambda n l in
  (4 <= v)%Z /\ IZR v - 4 <= 3 * ln (INR n) < IZR v - 3.
Proof.
  intros Hn Hl v. unfold v, ctor_lambda.
  assert (E : ((l =? -1) || (l <? 2))%Z = true).
  { apply orb_true_iff; right. apply Z.ltb_lt; exact Hl. }
  rewrite E. unfold default_lambda.
  pose proof (INR_ge1 _ Hn) as Hn'.
  assert (Hln : 0 <= ln (INR n)).
  { destruct (Req_dec (INR n) 1) as [->|H]; [rewrite ln_1; lra|].
    pose proof (ln_increasing 1 (INR n) ltac:(lra) ltac:(lra)) as H'. rewrite ln_1 in H'; lra. }
  destruct (base_Int_part (3 * ln (INR n))) as [H1 H2].
  rewrite plus_IZR. split; [|lra].
  assert (-1 < Int_part (3 * ln (INR n)))%Z by (apply lt_IZR; lra). lia.
Qed.
Lemma given_lambda n l : (2 <= l)%Z -> ctor_lambda n l = l.
Proof.
  intros H; unfold ctor_lambda.
  destruct (Z.eqb_spec l (-1)); [lia|]. destruct (Z.ltb_spec l 2); [lia|]. reflexivity.
Qed.

(** * Restart *)
Lemma restart_plain n lambda : lambda_inc (cma_params n lambda) = cma_params n (2 * lambda).
Proof. reflexivity. Qed.

Lemma restart_sep n lambda : (2 <= n)%nat -> (2 <= lambda)%nat ->
  k_c1 (lambda_inc (set_sep (cma_params n lambda))) < k_c1 (set_sep (cma_params n (2 * lambda))).
Proof.
  intros Hn Hl.
  change (k_c1 (set_sep (cma_params n (2 * lambda)))) with (k_c1 (cma_params n (2 * lambda)) * ((INR n + 2) / 3)).
  change (k_c1 (lambda_inc (set_sep (cma_params n lambda)))) with (k_c1 (cma_params n (2 * lambda))).
  assert (W : wf (blank n (2 * lambda))) by (split; cbn; lia).
  destruct (init_rates _ W) as ([_ _ _ Hc1 _ _ _ _ _] & _). fold (cma_params n (2 * lambda)) in Hc1.
  assert (2 <= INR n). { apply le_INR in Hn. cbn in Hn; lra. } nra.
Qed.
Lemma restart_noisy n lambda : (1 <= n)%nat -> (2 <= lambda)%nat ->
  k_lambda (lambda_inc (set_noisy (cma_params n lambda))) = k_lambda (set_noisy (cma_params n (2 * lambda))) /\
  k_c1 (lambda_inc (set_noisy (cma_params n lambda))) = 5 * k_c1 (set_noisy (cma_params n (2 * lambda))).
Proof.
  intros Hn Hl.
  assert (El : k_lambda (lambda_inc (set_noisy (cma_params n lambda))) = k_lambda (set_noisy (cma_params n (2 * lambda)))).
  { cbn -[Nat.mul]. lia. }
  split; [exact El|].
  change (k_c1 (set_noisy (cma_params n (2 * lambda)))) with (k_c1 (cma_params n (5 * (2 * lambda))) * 0.2).
  change (k_c1 (lambda_inc (set_noisy (cma_params n lambda)))) with (k_c1 (cma_params n (2 * (5 * lambda)))).
  replace (2 * (5 * lambda))%nat with (5 * (2 * lambda))%nat by lia. lra.
Qed.
Lemma restart_tpa n lambda : (1 <= n)%nat -> (2 <= lambda)%nat -> (n = 1)%nat ->
  k_dsigma (lambda_inc (set_tpa 2 (cma_params n lambda))) > k_dsigma (set_tpa 2 (cma_params n (2 * lambda))).
Proof.
  intros Hn Hl ->.
  assert (W : wf (blank 1 (2 * lambda))) by (split; cbn; lia).
  destruct (init_rates _ W) as ([_ Hcs _ _ _ _ _ _ _] & Hd & _). fold (cma_params 1 (2 * lambda)) in *.
  change (k_dsigma (lambda_inc (set_tpa 2 (cma_params 1 lambda)))) with (k_dsigma (cma_params 1 (2 * lambda))).
  change (k_dsigma (set_tpa 2 (cma_params 1 (2 * lambda)))) with (4 - 3.6 / sqrt (INR 1)).
  change (INR 1) with 1. rewrite sqrt_1. lra.
Qed.
Lemma restart_fixed lambda v :
  k_chi (lambda_inc (set_fixed_p 0 v (cma_params 2 lambda))) > k_chi (set_fixed_p 0 v (cma_params 2 (2 * lambda))).
Proof.
  change (k_chi (lambda_inc (set_fixed_p 0 v (cma_params 2 lambda)))) with (chi_of (INR 2)).
  change (k_chi (set_fixed_p 0 v (cma_params 2 (2 * lambda)))) with (chi_of (INR 2 - INR 1)).
  replace (INR 2) with 2 by (cbn; ring). replace (INR 1) with 1 by reflexivity.
  replace (2 - 1) with 1 by ring. unfold chi_of. rewrite sqrt_1.
  pose proof (sqrt_lt_1_alt 1 2 ltac:(lra)) as H. rewrite sqrt_1 in H. lra.
Qed.

Lemma restarts_plain n lambda k : Nat.iter k lambda_inc (cma_params n lambda) = cma_params n (2 ^ k * lambda).
Proof.
  induction k as [|k IH]; [cbn [Nat.iter Nat.pow]; rewrite Nat.mul_1_l; reflexivity|].
  cbn [Nat.iter nat_rect] in *. unfold Nat.iter in IH. rewrite IH, restart_plain, Nat.pow_succ_r'. f_equal. lia.
Qed.

Lemma weights_restarts n lambda k : (1 <= n)%nat -> (2 <= lambda)%nat ->
  let p := Nat.iter k lambda_inc (cma_params n lambda) in
  length (k_w p) = Nat.div2 (2 ^ k * lambda) /\ (1 <= length (k_w p))%nat /\ sumR (k_w p) = 1 /\
  (forall i w, nth_error (k_w p) i = Some w -> 0 < w).
Proof.
  intros Hn Hl p. unfold p. rewrite restarts_plain.
  assert (Hp : (1 <= 2 ^ k)%nat) by (change 1%nat with (2 ^ 0)%nat at 1; apply Nat.pow_le_mono_r; lia).
  assert (W : wf (blank n (2 ^ k * lambda))).
  { split; cbn -[Nat.pow Nat.mul]; nia. }
  pose proof (weights_ok _ W) as (A & B & C & D & E & F & G).
  fold (cma_params n (2 ^ k * lambda)) in *. rewrite A in *. rewrite B in C. auto.
Qed.

Lemma restart_refuted :
  (forall n lambda, (2 <= n)%nat -> (2 <= lambda)%nat ->
     k_c1 (lambda_inc (set_sep (cma_params n lambda))) < k_c1 (set_sep (cma_params n (2 * lambda)))) /\
  (forall n lambda, (1 <= n)%nat -> (2 <= lambda)%nat ->
     k_lambda (lambda_inc (set_noisy (cma_params n lambda))) = k_lambda (set_noisy (cma_params n (2 * lambda))) /\
     k_c1 (lambda_inc (set_noisy (cma_params n lambda))) = 5 * k_c1 (set_noisy (cma_params n (2 * lambda)))) /\
  (forall lambda, (2 <= lambda)%nat ->
     k_dsigma (lambda_inc (set_tpa 2 (cma_params 1 lambda))) > k_dsigma (set_tpa 2 (cma_params 1 (2 * lambda)))) /\
  (forall lambda v, k_chi (lambda_inc (set_fixed_p 0 v (cma_params 2 lambda))) >
                    k_chi (set_fixed_p 0 v (cma_params 2 (2 * lambda)))).
Proof.
  repeat split; intros.
  - apply restart_sep; assumption.
  - apply restart_noisy; assumption.
  - apply restart_noisy; assumption.
  - apply restart_tpa; auto.
  - apply restart_fixed.
Qed.
