(** Instances and a counterexample for the natural gradient of VD-CMA. *)
From Coq Require Import Reals List Lia Lra Psatz ZArith.
From Verif Require Import Base Dbl Vec VecProofs Params SpecParams ParamsProofs AdaptProofs ParamSound Config Search SpecSearch SpecSafe SearchInv Update SpecUpdate UpdateProofs UpdateProofs2 ActiveProofs ActiveThms NumThms TpaThms Corr Demo DemoProofs DemoNum DemoNumProofs SpecAlgo SpecRate AlgoProofs AlgoThms AlgoDemo SpecVd VdProofs VdProofs2 VdThms.
Import ListNotations.
Local Open Scope R_scope.

Section VdNeg.
Variable k : cpar.
Hypothesis KD : k_dim k = 6%nat.
Hypothesis KL : k_lambda k = 4%nat.
Hypothesis KM : k_mu k = 2%nat.
Hypothesis KW : length (k_w k) = 2%nat /\ sumR (k_w k) = 1.
Hypothesis KV : k_vd k = true.
Hypothesis KF : k_fixed k = [].
Hypothesis KC : 0 < k_cmu k.
Hypothesis K1 : 0 <= k_c1 k.
Variable t : R.
Let p := pvd k.
Let cols := repeat [- t; t; 0; 0; 0; 0] 4.
Let u : vec := fun i => match i with 0%nat => -1 | 1%nat => 1 | _ => 0 end.
Let q0 := 1 / sqrt (INR 6).
Lemma q0_sq : q0 * q0 = 1 / 6.
Proof using Type.
  unfold q0. assert (SQ : sqrt (INR 6) * sqrt (INR 6) = 6) by (rewrite sqrt_sqrt; cbn; lra). assert (0 < sqrt (INR 6)) by (apply sqrt_lt_R0; cbn; lra).
  replace (1 / sqrt (INR 6) * (1 / sqrt (INR 6))) with (1 / (sqrt (INR 6) * sqrt (INR 6))) by (field; lra). rewrite SQ. reflexivity.
Qed.
Lemma neg_run : exists s0 pop s2 s3 s4, let g := cfg_of k in st_new (cma_num p) g (repeat 0 6) num0 = Ok s0 /\ ask (cma_num p) flat_env g s0 = Ok (pop, s2) /\
  eval (cma_num p) flat_env g cols [] s2 = Ok s3 /\ tell (cma_num p) flat_env g s3 = Ok s4 /\
  (forall i, D_of s0 i = 1) /\ (forall i, v_of s0 i <> 0) /\ 0 < vd_rate p s0 s4 /\ exists c, 0 <= c /\ D_of s4 2%nat = 1 - (k_cmu k + c) / 2 - (k_cmu k * (t * t) + c * (k_fact_pc k * k_fact_pc k * (t * t))) / 20.
Proof using KD KL KM KW KV KF KC K1.
  destruct (first_generation p (repeat 0 6) cols) as (s0 & pop & s2 & s3 & s4 & m & G); [cbn; lia|exact KF|cbn; rewrite KL; reflexivity|].
  cbv zeta in G. change (p_k p) with k in G. destruct G as (E0 & EA & EE & ET & N0 & N4 & NI).
  exists s0, pop, s2, s3, s4. cbv zeta. do 4 (split; [assumption|]).
  set (n := with_pos (eigen_num p 0 (new_num p (repeat 0 6) num0)) m (x_upos num0)) in *.
  assert (EN : eigen_num p 0 (new_num p (repeat 0 6) num0) = with_solver (new_num p (repeat 0 6) num0) true 0 (init_mean p (repeat 0 6)) (x_dec num0)).
  { unfold eigen_num. change (p_k p) with k. rewrite KV, orb_true_r. reflexivity. }
  assert (XM : x_mean n = init_mean p (repeat 0 6)) by (unfold n; rewrite EN; reflexivity).
  assert (XG : x_sigma n = 1). { unfold n. rewrite EN. change (init_sigma p = 1). unfold init_sigma. change (p_sigma0 p) with 1. destruct (Rlt_dec 0 1); [reflexivity|exfalso; lra]. }
  assert (XP : x_pc n = fun _ => 0) by (unfold n; rewrite EN; reflexivity).
  assert (XS : x_sep n = fun _ => 1) by (unfold n; rewrite EN; reflexivity).
  assert (IV : init_v p (x_pos num0) = fun _ => q0) by (unfold init_v; change (p_k p) with k; rewrite KD; reflexivity).
  assert (XV : x_v n = fun _ => q0). { unfold n. rewrite EN. change ((if k_vd (p_k p) then init_v p (x_pos num0) else fun _ => 0) = fun _ => q0). change (p_k p) with k. rewrite KV. exact IV. }
  pose proof q0_sq as QQ. assert (Q0 : 0 < q0) by (unfold q0; apply Rdiv_lt_0_compat; [lra|apply sqrt_lt_R0; cbn; lra]).
  split; [intros i; unfold D_of; rewrite N0; reflexivity|].
  split. { intros i. unfold v_of. rewrite N0. change ((if k_vd (p_k p) then init_v p (x_pos num0) else fun _ => 0) i <> 0). change (p_k p) with k. rewrite KV, IV. lra. }
  assert (CA : forall h, 0 < k_cmu k + k_c1 k * hsig p 0 h n) by (intros h; unfold hsig; destruct (Rlt_dec _ _); [assert (0 <= k_c1 k * 1) by lra; lra|lra]).
  assert (CS : 0 <= hsig p 0 cols n) by (unfold hsig; destruct (Rlt_dec _ _); lra).
  split.
  { unfold vd_rate. change (p_k p) with k. assert (H1 : 0 <= k_c1 k * h_sigma k (s_niter (t_sol s0)) (dist_of p s4)); [|lra]. apply Rmult_le_pos; [exact K1|]. unfold h_sigma. destruct (Rlt_dec _ _); lra. }
  (* the first generation *)
  set (h := hsig p 0 cols n) in *. exists (k_c1 k * h). split; [apply Rmult_le_pos; auto|].
  assert (V1 : dot 6 (x_v n) (x_v n) = 1). { rewrite XV. unfold dot. cbn [rsum]. rewrite QQ. lra. }
  assert (HV : 0 < dot (k_dim (p_k p)) (x_v n) (x_v n)) by (change (p_k p) with k; rewrite KD, V1; lra).
  assert (VB : forall i, vb 6 (x_v n) i = q0). { intros i. unfold vb. rewrite V1, sqrt_1, XV. field. }
  assert (VBB : forall i, vbb 6 (x_v n) i = 1 / 6) by (intros i; unfold vbb; rewrite VB; exact QQ).
  assert (V0 : 0 < dot 6 (x_v n) (x_v n)) by lra.
  assert (AL : alpha_vd 6 (x_v n) = 1).
  { apply (al_one 6 (x_v n) V0). rewrite V1. assert (M : vmax 6 (vbb 6 (x_v n)) = 1 / 6). { cbn [vmax]. rewrite !VBB. unfold Rmax. repeat destruct (Rle_dec _ _); reflexivity. }
    rewrite M. pose proof (inv_sg 6 (x_v n) V0) as I. rewrite V1 in I. replace ((2 - 1 / sqrt (1 + 1)) * (1 + 1) / (1 / 6)) with (12 * (2 - 1 / sqrt (1 + 1))) by (pose proof (sg 6 (x_v n) V0) as S; rewrite V1 in S; field; lra). lra. }
  assert (CB : cb 6 (x_v n) = 2). { unfold cb. rewrite AL, V1. field. }
  assert (CC : forall i, ca 6 (x_v n) i = 4 / 3). { intros i. unfold ca. rewrite CB, AL, VBB. lra. }
  assert (NM : forall i, (i < 6)%nat -> new_mean p cols n i = t * u i).
  { intros i Hi. unfold new_mean. cbn [p pvd p_upd p_k]. rewrite KM. destruct KW as [W1 W2]. cbn [rsum].
    assert (P1 : forall c, (c < 2)%nat -> pt cols c i = t * u i).
    { intros c Hc. unfold pt, at0, cols. destruct c as [|[|]]; [| |lia]; do 6 (destruct i as [|i]; [cbn; ring|]); lia. }
    rewrite !P1 by lia. unfold wgt. cbn [p pvd p_k]. destruct (k_w k) as [|a [|w [|]]]; try discriminate W1. cbn [nth sumR fold_right] in *. replace w with (1 - a) by lra. ring. }
  assert (IM : forall i, (i < 6)%nat -> x_mean n i = 0).
  { intros i Hi. rewrite XM. unfold init_mean. cbn [p pvd p_scale p_k]. rewrite KF, KD, at0_tab by exact Hi. cbn [put_fixed fold_left]. unfold at0. apply nth_repeat. }
  assert (YL : forall l i, (l < 2)%nat -> (i < 6)%nat -> vd_y cols n l i = t * u i).
  { intros l i Hl Hi. unfold vd_y. rewrite XS, XG, (IM i Hi). assert (P1 : pt cols l i = t * u i).
    { unfold pt, at0, cols. destruct l as [|[|]]; [| |lia]; do 6 (destruct i as [|i]; [cbn; ring|]); lia. } rewrite P1. field. }
  set (f := k_fact_pc k). set (tau := h * f * t).
  assert (YM : forall i, (i < 6)%nat -> vd_ym p 0 cols n i = tau * u i).
  { intros i Hi. unfold vd_ym, new_pc. fold h. change (p_k p) with k. fold f. rewrite XP, XS. unfold mean_step. cbn [p pvd p_upd]. fold p. rewrite XG, (NM i Hi), (IM i Hi). unfold tau. field. }
  assert (P0 : forall y c i, (i < 6)%nat -> (forall j, (j < 6)%nat -> y j = c * u j) -> vd_p p n y i = c * c * (u i * u i) - 1 /\ vd_q p n y i = - q0).
  { intros y c i Hi Hy. assert (D0 : dot (k_dim (p_k p)) (fun i => x_v n i / sqrt (dot (k_dim (p_k p)) (x_v n) (x_v n))) y = 0).
    { change (p_k p) with k. rewrite KD, V1, sqrt_1, XV. unfold dot. cbn [rsum]. rewrite !Hy by lia. cbn [u]. field. }
    unfold vd_p, vd_q. rewrite D0. change (p_k p) with k. rewrite KD, V1, sqrt_1, XV, (Hy i Hi). split; field. }
  assert (PV : forall i, (i < 6)%nat -> vd_pvec p 0 cols n i = (k_cmu k * (t * t) + h * (k_c1 k * (tau * tau))) * (u i * u i) - (k_cmu k + k_c1 k * h) /\ vd_qvec p 0 cols n i = - (k_cmu k + k_c1 k * h) * q0).
  { intros i Hi. unfold vd_pvec, vd_qvec, vd_mix. change (p_k p) with k. fold h. rewrite KM. cbn [rsum].
    destruct (P0 (vd_y cols n 0) t i Hi) as [E1 F1]; [intros j Hj; apply YL; lia|]. destruct (P0 (vd_y cols n 1) t i Hi) as [E2 F2]; [intros j Hj; apply YL; lia|].
    destruct (P0 (vd_ym p 0 cols n) tau i Hi YM) as [E3 F3]. rewrite E1, E2, E3, F1, F2, F3.
    destruct KW as [W1 W2]. unfold wgt. change (p_k p) with k. destruct (k_w k) as [|a [|w [|]]]; try discriminate W1. cbn [nth sumR fold_right] in *. replace w with (1 - a) by lra. split; ring. }
  set (K := k_cmu k + k_c1 k * h) in *. set (E := k_cmu k * (t * t) + h * (k_c1 k * (tau * tau))) in *.
  assert (RV : forall i, (i < 6)%nat -> rv 6 (x_v n) (vd_pvec p 0 cols n) (vd_qvec p 0 cols n) i = E * (u i * u i) - 5 / 6 * K).
  { intros i Hi. unfold rv. rewrite AL, V1, VB, VBB, (proj1 (PV i Hi)), (proj2 (PV i Hi)).
    assert (DQ : dot 6 (vb 6 (x_v n)) (vd_qvec p 0 cols n) = - K). { unfold dot. cbn [rsum]. rewrite !VB, !(fun j Hj => proj2 (PV j Hj)) by lia. replace (0 + q0 * (- K * q0) + q0 * (- K * q0) + q0 * (- K * q0) + q0 * (- K * q0) + q0 * (- K * q0) + q0 * (- K * q0)) with (- 6 * K * (q0 * q0)) by ring. rewrite QQ. field. }
    rewrite DQ. replace (q0 * (- K * q0)) with (- K * (q0 * q0)) by ring. rewrite QQ. field. }
  assert (SV : vd_s p 0 cols n 2%nat = - K / 2 - E / 20).
  { rewrite (model_s p 0 cols n HV 2%nat). change (p_k p) with k. rewrite KD. unfold sv. rewrite CB, CC, VBB, (RV 2%nat) by lia.
    assert (D1 : dot 6 (fun i => 1 / ca 6 (x_v n) i * vbb 6 (x_v n) i) (rv 6 (x_v n) (vd_pvec p 0 cols n) (vd_qvec p 0 cols n)) = (2 * E - 5 * K) / 8).
    { unfold dot. cbn [rsum]. rewrite !CC, !VBB, !RV by lia. cbn [u]. field. }
    assert (D2 : dot 6 (fun i => 1 / ca 6 (x_v n) i * vbb 6 (x_v n) i) (vbb 6 (x_v n)) = 1 / 8) by (unfold dot; cbn [rsum]; rewrite !CC, !VBB; field).
    rewrite D1, D2. cbn [u]. field. }
  unfold D_of. rewrite N4. cbn [update_num x_sep]. change (p_upd p) with Vd. cbv iota. unfold new_vd_sep.
  assert (T : vd_test p 0 cols n = true). { unfold vd_test. change (p_k p) with k. fold h. destruct (Rlt_dec _ _) as [|X]; [reflexivity|]. exfalso. apply X, CA. }
  rewrite T, XS, SV. fold K. unfold E, tau. fold f.
  assert (HH : h * h * h = h) by (unfold h, hsig; destruct (Rlt_dec _ _); ring).
  replace (h * (k_c1 k * (h * f * t * (h * f * t)))) with (k_c1 k * (h * h * h) * (f * f * (t * t))) by ring. rewrite HH. field.
Qed.
End VdNeg.
Lemma kvd6_facts : constructed_any kvd6 /\ length (k_w kvd6) = 2%nat /\ sumR (k_w kvd6) = 1 /\ 0 < k_cmu kvd6 /\ 0 <= k_c1 kvd6.
Proof.
  assert (C : constructed (cma_params 6 4)) by (exists 6%nat, 4%nat, []; repeat split; cbn; lia).
  destruct (constructed_norm _ C) as (M & _). pose proof (constructed_sound _ C) as (_ & (_ & _ & (C1 & C1') & _) & (W1 & _ & _ & WP & W2) & _).
  split; [right; exists (cma_params 6 4), 12%Z; split; [exact C|reflexivity]|]. split; [exact W1|]. split; [exact W2|].
  change (k_c1 kvd6) with (k_c1 (cma_params 6 4) * ((INR 6 - 5) / 6)).
  change (k_cmu kvd6) with (Rmin (1 - k_c1 (cma_params 6 4) * ((INR 6 - 5) / 6)) ((INR 6 - 5) / 6 * (2 * (k_muw (cma_params 6 4) - 2 + 1 / k_muw (cma_params 6 4)) / ((INR 6 + 2) * (INR 6 + 2) + k_muw (cma_params 6 4))))).
  assert (I6 : INR 6 = 6) by (cbn; lra). rewrite I6.
  assert (MU : 1 < k_muw (cma_params 6 4)).
  { rewrite M. unfold mu_eff. change (k_mu (cma_params 6 4)) with 2%nat in W1. destruct (k_w (cma_params 6 4)) as [|a [|w [|]]]; try discriminate W1.
    cbn [map sumR fold_right] in *. pose proof (WP a (or_introl eq_refl)). pose proof (WP w (or_intror (or_introl eq_refl))).
    assert (0 < a * a + (w * w + 0) < 1) by nra. apply (Rmult_lt_reg_r (a * a + (w * w + 0))); [lra|]. replace (1 / (a * a + (w * w + 0)) * (a * a + (w * w + 0))) with 1 by (field; lra). lra. }
  revert C1 C1' MU. generalize (k_c1 (cma_params 6 4)) (k_muw (cma_params 6 4)). intros c mu C1 C1' MU.
  split; [|lra]. apply Rmin_glb_lt; [lra|]. apply Rmult_lt_0_compat; [lra|]. apply Rdiv_lt_0_compat; [|lra].
  replace (mu - 2 + 1 / mu) with ((mu - 1) * (mu - 1) / mu) by (field; lra). apply Rmult_lt_0_compat; [lra|]. apply Rdiv_lt_0_compat; [apply Rmult_lt_0_compat; lra|lra].
Qed.
(** A generation from the start. *)
Lemma vd_instance t : exists p g s0 pop s2 s3 s4, constructed_any (p_k p) /\ p_upd p = Vd /\ k_vd (p_k p) = true /\ g_uh g = false /\ k_dim (p_k p) = 6%nat /\ 0 < k_cmu (p_k p) /\
  st_new (cma_num p) g (repeat 0 6) num0 = Ok s0 /\ ask (cma_num p) flat_env g s0 = Ok (pop, s2) /\ eval (cma_num p) flat_env g (repeat [- t; t; 0; 0; 0; 0] 4) [] s2 = Ok s3 /\ tell (cma_num p) flat_env g s3 = Ok s4 /\
  (forall i, D_of s0 i = 1) /\ (forall i, v_of s0 i <> 0) /\ 0 < vd_rate p s0 s4 /\ exists c, 0 <= c /\ D_of s4 2%nat = 1 - (k_cmu (p_k p) + c) / 2 - (k_cmu (p_k p) * (t * t) + c * (k_fact_pc (p_k p) * k_fact_pc (p_k p) * (t * t))) / 20.
Proof.
  destruct kvd6_facts as (CA & W1 & W2 & C & C1).
  assert (KD : k_dim kvd6 = 6%nat) by reflexivity. assert (KL : k_lambda kvd6 = 4%nat) by reflexivity. assert (KM : k_mu kvd6 = 2%nat) by reflexivity.
  assert (KV : k_vd kvd6 = true) by reflexivity. assert (KF : k_fixed kvd6 = []) by reflexivity.
  generalize dependent kvd6. intros k CA W1 W2 C C1 KD KL KM KV KF.
  destruct (neg_run k KD KL KM (conj W1 W2) KV KF C C1 t) as (s0 & pop & s2 & s3 & s4 & H). cbv zeta in H.
  exists (pvd k), (cfg_of k), s0, pop, s2, s3, s4. split; [exact CA|]. split; [reflexivity|]. split; [exact KV|]. split; [reflexivity|]. split; [exact KD|]. split; [exact C|]. exact H.
Qed.
(** A long step makes a scale negative. *)
Lemma vd_negative_thm : exists p e g x0 n0 s0 pop s2 cols s3 s4 i, constructed_any (p_k p) /\ p_upd p = Vd /\ k_vd (p_k p) = true /\ g_uh g = false /\
  st_new (cma_num p) g x0 n0 = Ok s0 /\ ask (cma_num p) e g s0 = Ok (pop, s2) /\ eval (cma_num p) e g cols [] s2 = Ok s3 /\ tell (cma_num p) e g s3 = Ok s4 /\
  (i < k_dim (p_k p))%nat /\ (forall j, D_of s0 j = 1) /\ D_of s4 i < 0.
Proof.
  destruct kvd6_facts as (_ & _ & _ & C & _).
  set (t0 := sqrt (20 / k_cmu kvd6)). assert (T : t0 * t0 = 20 / k_cmu kvd6) by (apply sqrt_sqrt; left; apply Rdiv_lt_0_compat; lra).
  assert (X : exists p g s0 pop s2 s3 s4, constructed_any (p_k p) /\ p_upd p = Vd /\ k_vd (p_k p) = true /\ g_uh g = false /\ k_dim (p_k p) = 6%nat /\
    st_new (cma_num p) g (repeat 0 6) num0 = Ok s0 /\ ask (cma_num p) flat_env g s0 = Ok (pop, s2) /\ eval (cma_num p) flat_env g (repeat [- t0; t0; 0; 0; 0; 0] 4) [] s2 = Ok s3 /\ tell (cma_num p) flat_env g s3 = Ok s4 /\
    (forall i, D_of s0 i = 1) /\ D_of s4 2%nat < 0).
  { clearbody t0. destruct kvd6_facts as (CA & W1 & W2 & _ & C1).
    assert (KD : k_dim kvd6 = 6%nat) by reflexivity. assert (KL : k_lambda kvd6 = 4%nat) by reflexivity. assert (KM : k_mu kvd6 = 2%nat) by reflexivity.
    assert (KV : k_vd kvd6 = true) by reflexivity. assert (KF : k_fixed kvd6 = []) by reflexivity.
    generalize dependent kvd6. intros k C T CA W1 W2 C1 KD KL KM KV KF.
    destruct (neg_run k KD KL KM (conj W1 W2) KV KF C C1 t0) as (s0 & pop & s2 & s3 & s4 & H). cbv zeta in H. destruct H as (A1 & A2 & A3 & A4 & A5 & _ & _ & c & HC & A6).
    exists (pvd k), (cfg_of k), s0, pop, s2, s3, s4. split; [exact CA|]. split; [reflexivity|]. split; [exact KV|]. split; [reflexivity|]. split; [exact KD|].
    do 5 (split; [assumption|]). rewrite A6, T. replace (k_cmu k * (20 / k_cmu k)) with 20 by (field; lra).
    assert (0 <= c * (k_fact_pc k * k_fact_pc k * (20 / k_cmu k))).
    { apply Rmult_le_pos; [exact HC|]. apply Rmult_le_pos; [apply (Rle_0_sqr (k_fact_pc k))|]. left. apply Rdiv_lt_0_compat; lra. }
    lra. }
  destruct X as (p & g & s0 & pop & s2 & s3 & s4 & B1 & B2 & B3 & B4 & B5 & B6 & B7 & B8 & B9 & B10 & B11).
  exists p, flat_env, g, (repeat 0 6), num0, s0, pop, s2, (repeat [- t0; t0; 0; 0; 0; 0] 4), s3, s4, 2%nat. repeat (split; [assumption|]). split; [rewrite B5; lia|]. auto.
Qed.
(** * Few dimensions *)
Lemma vd_frozen_thm p e g h s0 s1 pop s2 cols phen s3 s4 :
  constructed_any (p_k p) -> p_upd p = Vd -> g_uh g = false -> started p e g s0 -> Forall iteration h -> run_ops (cma_num p) e g h s0 = Ok s1 ->
  ask (cma_num p) e g s1 = Ok (pop, s2) -> eval (cma_num p) e g cols phen s2 = Ok s3 -> tell (cma_num p) e g s3 = Ok s4 ->
  vd_rate p s1 s4 <= 0 -> v_of s4 = v_of s1 /\ D_of s4 = D_of s1.
Proof. intros. eapply (vd_frozen p e g h s0 s1 s2 s3 s4 pop cols phen); eassumption. Qed.
Lemma small_rates k0 a : constructed k0 -> In a [12; 13; 14]%Z -> (k_dim k0 <= 5)%nat -> k_cmu (set_vd (set_algo a k0)) <= 0 /\ k_c1 (set_vd (set_algo a k0)) <= 0.
Proof.
  intros C A D. pose proof (constructed_muw _ C) as M. pose proof (constructed_sound _ C) as (_ & (_ & _ & (C1 & _) & _) & _).
  assert (I : INR (k_dim k0) <= 5). { apply le_INR in D. replace (INR 5) with 5 in D by (cbn; lra). exact D. } pose proof (pos_INR (k_dim k0)) as P0.
  unfold set_vd. change (k_algo (set_algo a k0)) with a. assert (T : ((a =? 12) || (a =? 13) || (a =? 14))%Z%bool = true) by (destruct A as [<-|[<-|[<-|[]]]]; reflexivity). rewrite T. cbn [k_cmu k_c1].
  change (k_dim (set_algo a k0)) with (k_dim k0). change (k_muw (set_algo a k0)) with (k_muw k0). change (k_c1 (set_algo a k0)) with (k_c1 k0).
  revert M C1 I P0. generalize (k_muw k0) (k_c1 k0) (INR (k_dim k0)). intros mu c n M C1 I P0. split.
  - eapply Rle_trans; [apply Rmin_r|]. assert (0 <= 2 * (mu - 2 + 1 / mu) / ((n + 2) * (n + 2) + mu)); [|nra].
    assert (0 < (n + 2) * (n + 2)) by (apply Rmult_lt_0_compat; lra).
    apply Rmult_le_pos; [|left; apply Rinv_0_lt_compat; lra]. replace (mu - 2 + 1 / mu) with ((mu - 1) * (mu - 1) * / mu) by (field; lra).
    apply Rmult_le_pos; [lra|]. apply Rmult_le_pos; [apply (Rle_0_sqr (mu - 1))|]. left. apply Rinv_0_lt_compat. lra.
  - nra.
Qed.
Lemma small_rate k0 a p s1 s4 : constructed k0 -> In a [12; 13; 14]%Z -> p_k p = set_vd (set_algo a k0) -> (k_dim k0 <= 5)%nat -> vd_rate p s1 s4 <= 0.
Proof.
  intros C A K D. destruct (small_rates k0 a C A D) as [R1 R2]. rewrite <- K in R1, R2. unfold vd_rate, h_sigma.
  destruct (Rlt_dec _ _); rewrite ?Rmult_1_r, ?Rmult_0_r; lra.
Qed.
Lemma vd_small_thm k0 a p e g h s0 s1 pop s2 cols phen s3 s4 :
  constructed k0 -> In a [12; 13; 14]%Z -> p_k p = set_vd (set_algo a k0) -> (k_dim k0 <= 5)%nat ->
  p_upd p = Vd -> g_uh g = false -> started p e g s0 -> Forall iteration h -> run_ops (cma_num p) e g h s0 = Ok s1 ->
  ask (cma_num p) e g s1 = Ok (pop, s2) -> eval (cma_num p) e g cols phen s2 = Ok s3 -> tell (cma_num p) e g s3 = Ok s4 ->
  v_of s4 = v_of s1 /\ D_of s4 = D_of s1.
Proof.
  intros C A K D U N H0 HI HR HA HE HT. apply (vd_frozen_thm p e g h s0 s1 pop s2 cols phen s3 s4); auto.
  - right. exists k0, a. auto.
  - eapply small_rate; eauto.
Qed.
Lemma vd_small_instance : exists k0 p e g s0 pop s2 cols s3 s4,
  constructed k0 /\ p_k p = set_vd (set_algo 12 k0) /\ k_dim k0 = 5%nat /\ constructed_any (p_k p) /\ p_upd p = Vd /\ g_uh g = false /\ started p e g s0 /\ run_ops (cma_num p) e g [] s0 = Ok s0 /\
  ask (cma_num p) e g s0 = Ok (pop, s2) /\ eval (cma_num p) e g cols [] s2 = Ok s3 /\ tell (cma_num p) e g s3 = Ok s4 /\ vd_rate p s0 s4 <= 0.
Proof.
  assert (C : constructed (cma_params 5 4)) by (exists 5%nat, 4%nat, []; repeat split; cbn; lia).
  assert (KL : k_lambda (set_vd (set_algo 12 (cma_params 5 4))) = 4%nat) by reflexivity.
  assert (KF : k_fixed (set_vd (set_algo 12 (cma_params 5 4))) = []) by reflexivity.
  assert (KD : k_dim (cma_params 5 4) = 5%nat) by reflexivity.
  generalize dependent (cma_params 5 4). intros k0 C KL KF KD.
  destruct (first_generation (pvd (set_vd (set_algo 12 k0))) (repeat 0 5) (repeat [1; 1; 1; 1; 1] 4)) as (s0 & pop & s2 & s3 & s4 & m & G); [cbn [pvd p_k]; rewrite KL; lia|exact KF|cbn [pvd p_k]; rewrite KL; reflexivity|].
  cbv zeta in G. destruct G as (E0 & EA & EE & ET & _).
  exists k0, (pvd (set_vd (set_algo 12 k0))), flat_env, (cfg_of (set_vd (set_algo 12 k0))), s0, pop, s2, (repeat [1; 1; 1; 1; 1] 4), s3, s4.
  split; [exact C|]. split; [reflexivity|]. split; [exact KD|]. split; [right; exists k0, 12%Z; auto|]. split; [reflexivity|]. split; [reflexivity|].
  split; [eapply from_x0; exact E0|]. split; [reflexivity|]. split; [exact EA|]. split; [exact EE|]. split; [exact ET|].
  apply (small_rate k0 12%Z); [exact C|left; reflexivity|reflexivity|lia].
Qed.
(** The instance of the moving case. *)
Lemma vd_instance_thm : exists p e g s0 pop s2 cols s3 s4 ki,
  constructed_any (p_k p) /\ p_upd p = Vd /\ k_vd (p_k p) = true /\ g_uh g = false /\ started p e g s0 /\ run_ops (cma_num p) e g [] s0 = Ok s0 /\
  ask (cma_num p) e g s0 = Ok (pop, s2) /\ eval (cma_num p) e g cols [] s2 = Ok s3 /\ tell (cma_num p) e g s3 = Ok s4 /\ k_dim (p_k p) = 6%nat /\
  (forall i, v_of s0 i <> 0) /\ (forall i, 0 < D_of s0 i) /\ inverse 6 ki (d_cov (dist_of p s0)) /\ 0 < vd_rate p s0 s4 /\ D_of s4 2%nat <> D_of s0 2%nat.
Proof.
  destruct (vd_instance 1) as (p & g & s0 & pop & s2 & s3 & s4 & H1 & H2 & H3 & H4 & H5 & H6 & E0 & EA & EE & ET & D1 & V1 & RT & c & HC & D4).
  destruct (vd_inverse_thm 6 (D_of s0) (v_of s0)) as (ki & IK & _); [intros i _; rewrite D1; lra|].
  exists p, flat_env, g, s0, pop, s2, (repeat [- 1; 1; 0; 0; 0; 0] 4), s3, s4, ki.
  do 4 (split; [assumption|]). split; [eapply from_x0; exact E0|]. split; [reflexivity|]. do 5 (split; [assumption|]). split; [intros i; rewrite D1; lra|].
  split. { unfold dist_of, full_cov. cbn [d_cov]. rewrite H3, orb_true_r. exact IK. }
  split; [exact RT|]. rewrite D1, D4. assert (0 <= c * (k_fact_pc (p_k p) * k_fact_pc (p_k p) * (1 * 1))); [|lra].
  apply Rmult_le_pos; [exact HC|]. apply Rmult_le_pos; [apply (Rle_0_sqr (k_fact_pc (p_k p)))|lra].
Qed.
