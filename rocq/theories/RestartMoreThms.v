(** More about the runs of BIPOP and the return codes. *)
From Coq Require Import Reals Lra Psatz.
From Verif Require Import Base Dbl Config Search SpecSearch Restart SpecRestart RestartProofs BipopProofs RestartThms.
Local Open Scope Z_scope.

Lemma ceilR_le x k : (x <= IZR k)%R -> ceilR x <= k.
Proof.
  intros H. unfold ceilR, Int_part. destruct (archimed (- x)) as [A B].
  assert (- k < up (- x)); [|lia]. apply lt_IZR. rewrite opp_IZR. lra.
Qed.
Lemma Rpower_le_exp r u : (1 <= r)%R -> (0 <= u <= 1)%R -> (Rpower r u <= r)%R.
Proof. intros R U. rewrite <- (Rpower_1 r) at 2 by lra. apply Rle_Rpower; lra. Qed.
Lemma Rpower_le_1 r u : (0 < r <= 1)%R -> (0 <= u)%R -> (Rpower r u <= 1)%R.
Proof.
  intros R U. unfold Rpower. rewrite <- exp_0. assert (L : (ln r <= 0)%R). { destruct (proj2 R) as [R1| ->]; [left; rewrite <- ln_1; apply ln_increasing; lra|rewrite ln_1; lra]. }
  assert (M : (u * ln r <= 0)%R) by nra. destruct M as [M| ->]; [left; apply exp_increasing, M|lra].
Qed.
Lemma r2_lambda_bounds ldef k u : (2 <= ldef)%nat -> (0 <= u < 1)%R ->
  (ldef < 2 * r2_lambda ldef (ldef * 2 ^ k) u)%nat /\ (2 * r2_lambda ldef (ldef * 2 ^ k) u <= Nat.max (2 * ldef) (ldef * 2 ^ k))%nat.
Proof.
  intros HL U. assert (P : (2 <= INR ldef)%R) by (change 2%R with (INR 2); now apply le_INR). unfold r2_lambda.
  assert (E : (0.5 * (INR (ldef * 2 ^ k) / INR ldef) = 0.5 * 2 ^ k)%R). { rewrite mult_INR, pow_INR. change (INR 2) with 2%R. field. lra. }
  rewrite E. set (r := (0.5 * 2 ^ k)%R). assert (K : (1 <= 2 ^ k)%R) by (apply pow_R1_Rle; lra).
  assert (L : (0.5 < Rpower r u)%R).
  { apply Rlt_le_trans with (Rpower 0.5 u).
    - rewrite <- (Rpower_1 0.5) at 1 by lra. unfold Rpower. apply exp_increasing. assert (ln 0.5 < 0)%R; [|nra]. rewrite <- ln_1. apply ln_increasing; lra.
    - apply Rle_Rpower_l; [lra|]. unfold r. lra. }
  set (x := (INR ldef * Rpower r u)%R).
  assert (X1 : (INR ldef < 2 * x)%R) by (unfold x; nra).
  assert (C1 : (x <= IZR (ceilR x))%R). { unfold ceilR, Int_part. destruct (archimed (- x)) as [A B]. rewrite opp_IZR, minus_IZR. lra. }
  assert (C2 : Z.of_nat ldef < 2 * ceilR x). { apply lt_IZR. rewrite mult_IZR, <- INR_IZR_INZ. lra. }
  split; [lia|]. destruct k as [|k].
  - assert (Q : (Rpower r u <= 1)%R) by (apply Rpower_le_1; [unfold r; rewrite pow_O; lra|lra]).
    assert (ceilR x <= Z.of_nat ldef); [|lia]. apply ceilR_le. rewrite <- INR_IZR_INZ. unfold x. nra.
  - assert (RR : r = (2 ^ k)%R) by (unfold r; cbn [pow]; lra). assert (K1 : (1 <= 2 ^ k)%R) by (apply pow_R1_Rle; lra).
    assert (Q : (Rpower r u <= 2 ^ k)%R) by (rewrite <- RR; apply Rpower_le_exp; [rewrite RR; exact K1|lra]).
    assert (ceilR x <= Z.of_nat (ldef * 2 ^ k)).
    { apply ceilR_le. rewrite <- INR_IZR_INZ, mult_INR, pow_INR. change (INR 2) with 2%R. unfold x. apply Rmult_le_compat_l; lra. }
    rewrite Nat.pow_succ_r'. lia.
Qed.
Lemma r2_sigma_bounds u : (0 <= u < 1)%R -> (0.02 < r2_sigma u <= 2)%R.
Proof.
  intros U. unfold r2_sigma. assert (E : Rpower 10 (-2) = 0.01%R). { replace (-2)%R with (- (INR 2))%R by (cbn; lra). rewrite Rpower_Ropp, Rpower_pow by lra. cbn. lra. }
  assert (A : (0.01 < Rpower 10 (-2 * u))%R) by (rewrite <- E; apply Rpower_lt; lra).
  assert (B : (Rpower 10 (-2 * u) <= Rpower 10 0)%R) by (apply Rle_Rpower; lra). rewrite Rpower_O in B by lra. lra.
Qed.
Lemma bipop_small : forall T N (ops : nat -> R -> numops T N) e g ldef sigma m draw rf fuel nr p s rc b,
  (2 <= ldef)%nat -> (forall i, (0 <= draw i < 1)%R) -> q_lambda p = ldef -> q_sigma p = sigma ->
  bipop ops e g ldef (Some sigma) (Some m) draw nr rf fuel p s = Ok (rc, b) ->
  forall k u, nth_error (b_runs b) k = Some u -> u_small u = true ->
  let larges := filter (fun u => negb (u_small u)) (firstn k (b_runs b)) in
  (0.02 < q_sigma (u_par u) <= 2)%R /\ (ldef < 2 * q_lambda (u_par u))%nat /\ (2 * q_lambda (u_par u) <= Nat.max (2 * ldef) (ldef * 2 ^ (length larges - 1)))%nat.
Proof.
  intros T N ops e g ldef sigma m draw rf fuel nr p s rc b HL HU E1 E2 H k u K Hs larges.
  destruct (bipop_schedule ops e g ldef sigma m draw rf fuel nr p s rc b E1 E2 H) as [_ A]. specialize (A k u K). cbv zeta in A. rewrite Hs in A.
  destruct A as (_ & _ & (i & -> & ->) & _). split; [apply r2_sigma_bounds, HU|]. apply r2_lambda_bounds; auto.
Qed.
Lemma ipop_code : forall T N (ops : nat -> R -> numops T N) e g nr rf fuel p s rc best runs s',
  ipop ops e g nr rf fuel p s = Ok (rc, Some best, runs, s') -> (0 <= s_status best -> rc = 0) /\ (s_status best < 0 -> rc = -1).
Proof.
  intros. unfold ipop in H. destruct (ipop_loop ops e g (Z.to_nat nr) rf fuel p None [] s) as [[[b r] q]|] eqn:E; cbn in H; [|discriminate].
  inversion H; subst. unfold restart_code. destruct (Z.leb_spec 0 (s_status best)); split; intros; lia.
Qed.
Lemma bipop_code : forall T N (ops : nat -> R -> numops T N) e g ldef sigma m draw nr rf fuel p s rc b best,
  bipop ops e g ldef sigma m draw nr rf fuel p s = Ok (rc, b) -> b_best b = Some best -> (0 <= s_status best -> rc = 0) /\ (s_status best < 0 -> rc = -1).
Proof.
  intros. unfold bipop in H. match type of H with context [bipop_loop ?a ?b ?c ?d ?e ?f ?g ?h ?i ?j ?k ?l] => destruct (bipop_loop a b c d e f g h i j k l) as [b'|] eqn:E; cbn in H; [|discriminate] end.
  inversion H; subst. rewrite H0. unfold restart_code. destruct (Z.leb_spec 0 (s_status best)); split; intros; lia.
Qed.
Lemma fresh_cost T N (ops : nat -> R -> numops T N) e g u : (forall l x, samples_ok (ops l x)) -> (forall so, e_progress e so = 0) -> e_restart (g_elit g) = false ->
  (2 <= q_lambda (u_par u))%nat -> fresh_run ops e g u -> 1 <= run_cost u.
Proof.
  intros HD HP HE HL (n & rf & fuel & s0 & rc & s1 & H0 & H1 & E & _). unfold run_cost. rewrite E.
  assert (1 <= s_niter (t_sol s1)). { eapply (one_iteration (ops_at ops (u_par u)) (after (length (t_log (u_before u))) e) (cfg_at g (u_par u))); [apply HD|exact HP|exact HE|exact H0|exact H1]. }
  nia.
Qed.
Lemma bipop_some_small : forall T N (ops : nat -> R -> numops T N) e g ldef sigma m draw rf fuel nr p x0 n s rc b,
  (forall l x, samples_ok (ops l x)) -> (forall so, e_progress e so = 0) -> e_restart (g_elit g) = false -> (2 <= ldef)%nat -> (forall i, (0 <= draw i < 1)%R) -> q_lambda p = ldef -> q_sigma p = sigma ->
  restart_new ops g p x0 n = Ok s -> bipop ops e g ldef (Some sigma) (Some m) draw nr rf fuel p s = Ok (rc, b) -> 2 <= nr ->
  exists u, nth_error (b_runs b) 1 = Some u /\ u_small u = true.
Proof.
  intros T N ops e g ldef sigma m draw rf fuel nr p x0 n s rc b HD HP HE HL HU E1 E2 H0 H HN.
  destruct (bipop_schedule ops e g ldef sigma m draw rf fuel nr p s rc b E1 E2 H) as [A B].
  pose proof (bipop_fresh_runs ops e g ldef sigma m draw rf fuel nr p x0 n s rc b HE HL HU E1 H0 H) as [F _].
  pose proof (bipop_lambda ops e g ldef sigma m draw rf fuel nr p s rc b HL HU E1 E2 H) as L.
  destruct (b_runs b) as [|u0 [|u1 l]] eqn:ER; [cbn [filter length] in A; lia|cbn [filter] in A; destruct (u_small u0); cbn [negb length] in A; lia|].
  exists u1. split; [reflexivity|]. destruct (u_small u1) eqn:S1; auto. exfalso. pose proof (B 0%nat u0 eq_refl) as B0. pose proof (B 1%nat u1 eq_refl) as B1. cbv zeta in B0, B1. cbn [firstn filter] in B0, B1.
  rewrite S1 in B1. destruct (u_small u0) eqn:S0; [destruct B0 as (_ & _ & _ & X); now elim X|]. destruct B1 as (B1 & _). rewrite !spent_one, S0 in B1. cbn in B1.
  pose proof (fresh_cost T N ops e g u0 HD HP HE (L u0 (or_introl eq_refl)) (proj1 (Forall_inv F))) as FC. unfold run_cost in *. lia.
Qed.
