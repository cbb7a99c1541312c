(** Expected distance to the minimum: counterexample and instances. *)
From Coq Require Import Reals List Lia Lra Psatz Arith ZArith.
From Verif Require Import Base Dbl Vec VecProofs Params SpecParams ParamsProofs Config Search SpecSearch SpecSafe SearchInv StopProofs NumInv Demo Update SpecUpdate ParamSound DemoNum DemoNumProofs NumThms ActiveThms SpecCrit CritProofs UpdateProofs UpdateProofs2 CritThms TpaThms SpecEdm EdmProofs.
Import ListNotations.
Local Open Scope R_scope.

(** Eigenvalues in increasing order, as SelfAdjointEigenSolver returns them. *)
Definition swap2 (dec : vec * mat) : vec * mat :=
  if Rle_dec (fst dec 0%nat) (fst dec 1%nat) then dec else (fun i => fst dec (1 - i)%nat, fun i j => snd dec i (1 - j)%nat).
Definition eig2up (l : list (list R)) : vec * mat := swap2 (eig2 l).
Lemma swap2_diag a dec : diagonalises 2 a dec -> diagonalises 2 a (swap2 dec).
Proof.
  intros (A & B & C). unfold swap2. destruct (Rle_dec _ _); [repeat split; auto|].
  split; [|split]; intros i j Hi Hj; cbn [fst snd].
  - rewrite (A (1 - i)%nat (1 - j)%nat) by lia. destruct i as [|[|i]]; [| |lia]; (destruct j as [|[|j]]; [| |lia]); reflexivity.
  - rewrite <- (B i j Hi Hj). cbn [rsum]. cbn [Nat.sub]. ring.
  - rewrite (C i j Hi Hj). cbn [rsum]. cbn [Nat.sub]. ring.
Qed.
Definition edm_par : npar :=
  mkNpar k24 Full 1 false (/ 1000000000000) 0.3 (/ 10000000) eig2up demo_normal (fun _ => 1 / 2)
    (fun x => x) (fun x => x) (fun _ => None) (fun _ => [1; 0]).
Lemma edm_par_solver : eigensolver_ok edm_par.
Proof. intros a S. apply swap2_diag, eig2_diag, S. Qed.
(** The objective x_0 - 1, rounded down to a multiple of 2^-1074, and its gradient. *)
Definition lin_f (x : list R) : dbl := Fin (Int_part ((at0 x 0%nat - 1) * 2 ^ 1074)).
Definition lin_env : env R num := mkEnv (fun _ x => lin_f x) true (fun x => Ok x) (fun _ => 0%Z) isort.
Lemma lin_value x : exists r, value_is (lin_f x) r /\ r <= at0 x 0%nat - 1 < r + / 2 ^ 1074.
Proof.
  exists (IZR (Int_part ((at0 x 0%nat - 1) * 2 ^ 1074)) / 2 ^ 1074). split; [eexists; split; reflexivity|].
  assert (P : 0 < 2 ^ 1074) by (apply pow_lt; lra). generalize dependent (2 ^ 1074). intros q P.
  pose proof (base_Int_part ((at0 x 0%nat - 1) * q)) as [A B]. set (z := IZR (Int_part ((at0 x 0%nat - 1) * q))) in *.
  split; apply (Rmult_le_reg_r q) || apply (Rmult_lt_reg_r q); auto.
  - unfold Rdiv. rewrite Rmult_assoc, Rinv_l by lra. lra.
  - replace ((z / q + / q) * q) with (z + 1) by (field; lra). lra.
Qed.
Lemma lin_zero : lin_f [1; 0] = dint 0.
Proof.
  unfold lin_f. replace ((at0 [1; 0] 0%nat - 1) * 2 ^ 1074) with 0 by (unfold at0; cbn [nth]; ring).
  assert (I : Int_part 0 = 0%Z). { unfold Int_part. replace (up 0) with 1%Z; [reflexivity|]. apply tech_up; lra. }
  rewrite I. reflexivity.
Qed.
Definition at_one : list (list R) := repeat [1; 0] 4.
Lemma lin_run s : run_ops (cma_num edm_par) lin_env (cfg_of k24) [OAsk; OGen at_one []] s = run_ops (cma_num edm_par) flat_env (cfg_of k24) [OAsk; OGen at_one []] s.
Proof.
  cbn [run_ops do_op]. change (ask (cma_num edm_par) lin_env (cfg_of k24) s) with (ask (cma_num edm_par) flat_env (cfg_of k24) s).
  destruct (ask (cma_num edm_par) flat_env (cfg_of k24) s) as [[pop s1]|f]; [|reflexivity]. cbn [bind snd].
  assert (E : eval (cma_num edm_par) lin_env (cfg_of k24) at_one [] s1 = eval (cma_num edm_par) flat_env (cfg_of k24) at_one [] s1).
  { assert (EC : forall (r : Z) m t, eval_cols lin_env r (repeat [1; 0] m) [] t = eval_cols flat_env r (repeat [1; 0] m) [] t).
    { intros r m. revert r. induction m as [|m IH]; intros r t; [reflexivity|]. cbn [repeat eval_cols].
      destruct (at_ (s_cands (t_sol t)) r) as [c|]; [|reflexivity]. cbn [bind]. unfold call. cbn [lin_env flat_env call_env e_f]. rewrite lin_zero.
      destruct (upd_at _ r _) as [cs|]; [|reflexivity]. cbn [bind]. apply IH. }
    unfold eval. unfold at_one at 1 3. rewrite EC. reflexivity. }
  rewrite E. destruct (eval (cma_num edm_par) flat_env (cfg_of k24) at_one [] s1) as [s2|]; [|reflexivity]. cbn [bind].
  change (tell (cma_num edm_par) lin_env (cfg_of k24) s2) with (tell (cma_num edm_par) flat_env (cfg_of k24) s2). reflexivity.
Qed.
Lemma k24_cmu : 0 < k_cmu k24.
Proof.
  change (k_cmu k24) with (Rmin (1 - 2 / ((2 + 1.3) * (2 + 1.3) + muw_of 2)) (2 * (muw_of 2 - 2 + 1 / muw_of 2) / ((2 + 2) * (2 + 2) + muw_of 2))).
  pose proof muw_2. assert (2 / ((2 + 1.3) * (2 + 1.3) + muw_of 2) <= 1 / 4) by (apply div_le; lra).
  assert (G : 1 < muw_of 2).
  { unfold muw_of. pose proof (raw_pos 2) as P. pose proof (raw_len 2) as L. destruct (raw_weights 2) as [|a [|b [|c l]]]; try discriminate L.
    assert (0 < a) by (apply P; left; reflexivity). assert (0 < b) by (apply P; right; left; reflexivity).
    cbn [sumR map fold_right]. apply (Rmult_lt_reg_r (a * a + (b * b + 0))); [nra|]. unfold Rdiv. rewrite Rmult_assoc, Rinv_l by nra. nra. }
  apply Rmin_glb_lt; [lra|]. apply Rdiv_lt_0_compat; [|lra]. apply Rmult_lt_0_compat; [lra|].
  apply (Rmult_lt_reg_r (muw_of 2)); [lra|]. replace ((muw_of 2 - 2 + 1 / muw_of 2) * muw_of 2) with ((muw_of 2 - 1) * (muw_of 2 - 1)) by (field; lra). nra.
Qed.
(** The covariance after a generation at distance 1 along the first axis. *)
Lemma first_axis s0 s1 : st_new (cma_num edm_par) (cfg_of k24) [0; 0] num0 = Ok s0 -> run_ops (cma_num edm_par) flat_env (cfg_of k24) [OAsk; OGen at_one []] s0 = Ok s1 ->
  cov_of s1 0%nat 1%nat = 0 /\ cov_of s1 1%nat 0%nat = 0 /\ 0 < cov_of s1 1%nat 1%nat < cov_of s1 0%nat 0%nat.
Proof.
  intros E0 E1. assert (HL : (2 <= k_lambda (p_k edm_par))%nat) by (cbn; lia).
  destruct (ask_flat_generation edm_par HL (fun i v H => match H with end) at_one [0; 0] num0 eq_refl) as (s0' & s1' & m & E0' & E1' & N & _).
  change (cfg_of (p_k edm_par)) with (cfg_of k24) in E0', E1'. rewrite E0 in E0'. apply Ok_inj in E0'. subst s0'. rewrite E1 in E1'. apply Ok_inj in E1'. subst s1'.
  set (n := with_pos (eigen_num edm_par 0 (new_num edm_par [0; 0] num0)) m (x_upos num0)) in *.
  assert (EN : exists f a b c, eigen_num edm_par 0 (new_num edm_par [0; 0] num0) = with_solver (new_num edm_par [0; 0] num0) f a b c).
  { unfold eigen_num. destruct (_ || _)%bool; [do 4 eexists; reflexivity|]. destruct (_ || _ || _)%bool; do 4 eexists; reflexivity. }
  destruct EN as (f & za & vb & dc & EN).
  assert (XM : forall i, (i < 2)%nat -> x_mean n i = 0). { intros i Hi. unfold n. rewrite EN. change (init_mean edm_par [0; 0] i = 0). unfold init_mean. change (p_scale edm_par) with (fun x : list R => x). destruct i as [|[|i]]; [reflexivity|reflexivity|lia]. }
  assert (XG : x_sigma n = 1). { unfold n. rewrite EN. change (init_sigma edm_par = 1). unfold init_sigma. change (p_sigma0 edm_par) with 1. destruct (Rlt_dec 0 1); [reflexivity|exfalso; lra]. }
  assert (XC : x_pc n = fun _ => 0) by (unfold n; rewrite EN; reflexivity).
  assert (XV : x_cov n = ident) by (unfold n; rewrite EN; reflexivity).
  pose proof (constructed_sound _ k24_constructed) as KS.
  pose (u := fun i : nat => if Nat.eqb i 0 then 1 else 0).
  assert (PT : forall l i, (l < k_mu k24)%nat -> (i < 2)%nat -> pt at_one l i = u i).
  { intros l i Hl Hi. change (l < 2)%nat in Hl. destruct l as [|[|l]]; [| |lia]; (destruct i as [|[|i]]; [| |lia]); reflexivity. }
  assert (W1 : rsum (k_mu k24) (wgt edm_par) = 1) by (apply (wgt_sum edm_par KS)).
  assert (NM : forall i, (i < 2)%nat -> new_mean edm_par at_one n i = u i).
  { intros i Hi. rewrite (new_mean_sum edm_par KS). change (p_k edm_par) with k24. rewrite (rsum_ext _ _ (fun l => wgt edm_par l * u i)); [rewrite rsum_scal_r, W1; ring|]. intros l Hl. rewrite PT; auto. }
  assert (PC : exists r, forall i, (i < 2)%nat -> new_pc edm_par 0 at_one n i = r * u i).
  { exists (hsig edm_par 0 at_one n * k_fact_pc k24). intros i Hi. unfold new_pc. rewrite XC. unfold mean_step. change (p_upd edm_par) with Full. cbn iota. rewrite (NM i Hi), (XM i Hi), XG. change (p_k edm_par) with k24. field. }
  destruct PC as (r & PC).
  assert (SP : forall i j, (i < 2)%nat -> (j < 2)%nat -> spread edm_par (best_of at_one) n i j = u i * u j).
  { intros i j Hi Hj. unfold spread, best_of. rewrite XG. change (p_k edm_par) with k24. rewrite (rsum_ext _ _ (fun l => wgt edm_par l * (u i * u j))).
    - rewrite rsum_scal_r, W1. field.
    - intros l Hl. rewrite !PT, !XM by auto. ring. }
  assert (KR : 1 / 2 <= keep_rate edm_par 0 at_one n).
  { unfold keep_rate. change (p_k edm_par) with k24. pose proof k24_half. destruct KS as (_ & (A1 & A2 & A3 & A4 & A5 & A6) & _). change (p_k edm_par) with k24 in *.
    assert (0 <= (1 - hsig edm_par 0 at_one n) * k_c1 k24 * k_cc k24 * (2 - k_cc k24)); [|lra].
    assert (HH : 0 <= 1 - hsig edm_par 0 at_one n) by (unfold hsig; destruct (Rlt_dec _ _); lra).
    apply Rmult_le_pos; [apply Rmult_le_pos; [apply Rmult_le_pos; [exact HH|lra]|lra]|lra]. }
  assert (CV : forall i j, (i < 2)%nat -> (j < 2)%nat -> cov_of s1 i j = keep_rate edm_par 0 at_one n * ident i j + (k_c1 k24 * (r * r) + k_cmu k24) * (u i * u j)).
  { intros i j Hi Hj. unfold cov_of. rewrite N. change (x_cov (update_num edm_par 0 at_one n) i j) with (rank_mu_cov edm_par 0 at_one n i j). unfold rank_mu_cov. rewrite (PC i Hi), (PC j Hj), (SP i j Hi Hj), XV. change (p_k edm_par) with k24. ring. }
  rewrite !CV by lia. unfold u, ident, diag. cbn [Nat.eqb].
  pose proof k24_cmu. destruct KS as (_ & (A1 & A2 & A3 & A4 & A5 & A6) & _). change (p_k edm_par) with k24 in *.
  assert (0 <= k_c1 k24 * (r * r)) by (apply Rmult_le_pos; [lra|apply (Rle_0_sqr r)]).
  repeat split; lra.
Qed.
Lemma two_gens : exists s0 s1 s2, st_new (cma_num edm_par) (cfg_of k24) [0; 0] num0 = Ok s0 /\
  run_ops (cma_num edm_par) flat_env (cfg_of k24) [OAsk; OGen at_one []] s0 = Ok s1 /\ run_ops (cma_num edm_par) flat_env (cfg_of k24) [OAsk; OGen at_one []] s1 = Ok s2.
Proof.
  assert (HL : (2 <= k_lambda (p_k edm_par))%nat) by (cbn; lia). pose (HF := fun (i : Z) (v : R) (H : In (i, v) []) => match H with end : (0 <= i < Z.of_nat (k_dim (p_k edm_par)))%Z).
  destruct (new_ok edm_par HL [0; 0] num0) as [s0 E0].
  destruct (runs_ok edm_par HL HF (fun _ => 0%Z) [OAsk; OGen at_one []; OAsk; OGen at_one []] eq_refl [0; 0] num0 s0 E0) as [s2 E2].
  { repeat constructor. }
  change (run_ops (cma_num edm_par) (call_env (fun _ => 0%Z)) (cfg_of (p_k edm_par)) [OAsk; OGen at_one []; OAsk; OGen at_one []] s0) with
    (do t <- do_op (cma_num edm_par) flat_env (cfg_of k24) OAsk s0; do s1 <- do_op (cma_num edm_par) flat_env (cfg_of k24) (OGen at_one []) t; run_ops (cma_num edm_par) flat_env (cfg_of k24) [OAsk; OGen at_one []] s1) in E2.
  apply bind_ok in E2 as (t & A & E2). apply bind_ok in E2 as (s1 & B & E2). exists s0, s1, s2. split; [exact E0|]. split; [|exact E2].
  change (run_ops (cma_num edm_par) flat_env (cfg_of k24) [OAsk; OGen at_one []] s0) with (do t <- do_op (cma_num edm_par) flat_env (cfg_of k24) OAsk s0; do s1 <- do_op (cma_num edm_par) flat_env (cfg_of k24) (OGen at_one []) t; Ok s1).
  rewrite A. cbn [bind]. rewrite B. reflexivity.
Qed.
Definition axis0 : vec := at0 [1; 0].
Lemma lin_slope s : slope_at_mean edm_par lin_env s axis0.
Proof.
  exists axis0. split; [intros i Hi; reflexivity|]. intros i Hi. unfold transform_slope. change (p_pheno edm_par) with (fun x : list R => x). cbv zeta beta. rewrite !at0_tab by exact Hi.
  assert (0 < quotient_step (mean_of s) i). { unfold quotient_step. pose proof (Rabs_pos (mean_of s i)). apply Rdiv_lt_0_compat; [lra|apply pow_lt; lra]. }
  set (h := quotient_step (mean_of s) i) in *. replace ((mean_of s i + h - (mean_of s i - h)) / (2 * h)) with 1 by (field; lra). ring.
Qed.
Lemma edm_wrong : exists s0 s1 s2 s3,
  st_new (cma_num edm_par) (cfg_of k24) [0; 0] num0 = Ok s0 /\
  run_ops (cma_num edm_par) lin_env (cfg_of k24) [OAsk; OGen at_one []] s0 = Ok s1 /\ run_ops (cma_num edm_par) lin_env (cfg_of k24) [OAsk; OGen at_one []] s1 = Ok s2 /\
  symmetric 2 (cov_of s1) /\ pos_def 2 (cov_of s1) /\ slope_at_mean edm_par lin_env s2 axis0 /\ edm (cma_num edm_par) lin_env (cfg_of k24) s2 = Ok s3 /\
  edm_of s3 < expected_distance edm_par (sigma_of s2) (cov_of s1) axis0.
Proof.
  destruct two_gens as (s0 & s1 & s2 & E0 & E1 & E2). destruct (first_axis s0 s1 E0 E1) as (C01 & C10 & C11 & C00).
  assert (E3 : exists s3, edm (cma_num edm_par) lin_env (cfg_of k24) s2 = Ok s3) by (eexists; reflexivity). destruct E3 as [s3 E3].
  assert (SY : symmetric 2 (cov_of s1)) by (intros i j Hi Hj; destruct i as [|[|i]]; [| |lia]; (destruct j as [|[|j]]; [| |lia]); congruence).
  assert (QD : forall x, quad 2 (cov_of s1) x = cov_of s1 0%nat 0%nat * (x 0%nat * x 0%nat) + cov_of s1 1%nat 1%nat * (x 1%nat * x 1%nat)).
  { intros x. unfold quad, dot, mv. cbn [rsum]. rewrite C01, C10. ring. }
  assert (PD : pos_def 2 (cov_of s1)).
  { intros x (i & Hi & Nz). rewrite QD. pose proof (Rle_0_sqr (x 0%nat)) as Q0. pose proof (Rle_0_sqr (x 1%nat)) as Q1. unfold Rsqr in *. destruct i as [|[|i]]; [| |lia].
    - assert (0 < x 0%nat * x 0%nat) by nra. nra.
    - assert (0 < x 1%nat * x 1%nat) by nra. nra. }
  exists s0, s1, s2, s3. split; [exact E0|]. split; [rewrite lin_run; exact E1|]. split; [rewrite lin_run; exact E2|]. split; [exact SY|]. split; [exact PD|]. split; [apply lin_slope|]. split; [exact E3|].
  rewrite <- lin_run in E1, E2.
  destruct (edm_full edm_par lin_env (cfg_of k24) eq_refl (fun x => eq_refl) eq_refl eq_refl eq_refl s1 at_one [] s2 s3 axis0 edm_par_solver SY) with (3 := lin_slope s2) (4 := E3) as (_ & _ & ->).
  { intros x. rewrite QD. pose proof (Rle_0_sqr (x 0%nat)) as Q0. pose proof (Rle_0_sqr (x 1%nat)) as Q1. unfold Rsqr in *. nra. }
  { exact E2. }
  assert (SG : 0 < sigma_of s2).
  { apply (sigma_thm edm_par lin_env (cfg_of k24) [OAsk; OGen at_one []; OAsk; OGen at_one []] s0 s2).
    - exists 2%nat, 4%nat, []. split; [lia|reflexivity].
    - econstructor. exact E0.
    - change [OAsk; OGen at_one []; OAsk; OGen at_one []] with ([OAsk; OGen at_one []] ++ [OAsk; OGen at_one []]). rewrite (TpaThms.run_app _ _ _ _ _ _ _ E1). exact E2. }
  unfold expected_distance. change (p_k edm_par) with k24. change (k_dim k24) with 2%nat.
  apply Rmult_lt_compat_l; [apply factor_pos; cbn; lia|]. apply Rmult_lt_compat_l; [exact SG|]. apply sqrt_lt_1_alt.
  assert (EV : fst (p_eig edm_par (mtab 2 (cov_of s1))) 0%nat = cov_of s1 1%nat 1%nat).
  { change (p_eig edm_par (mtab 2 (cov_of s1))) with (swap2 (eig2 (mtab 2 (cov_of s1)))). unfold eig2. change (nth 1 (nth 0 (mtab 2 (cov_of s1)) []) 0) with (cov_of s1 0%nat 1%nat). rewrite C01. destruct (Req_EM_T 0 0) as [_|B]; [|congruence].
    unfold swap2. cbn [fst snd Nat.eqb]. change (nth 0 (nth 0 (mtab 2 (cov_of s1)) []) 0) with (cov_of s1 0%nat 0%nat). change (nth 1 (nth 1 (mtab 2 (cov_of s1)) []) 0) with (cov_of s1 1%nat 1%nat).
    destruct (Rle_dec _ _); [exfalso; lra|]. reflexivity. }
  cbn [rsum]. rewrite EV, QD. unfold axis0, at0. cbn [nth]. split; lra.
Qed.
