(** Consequences for the restart strategies. *)
From Coq Require Import Reals Lra.
From Verif Require Import Base Dbl DblProofs Config Search SpecInvar SpecSearch SpecStop SpecSafe SortProofs SearchInv CounterProofs HistProofs StopProofs SafeProofs RunProofs ReachProofs SearchThms Restart SpecRestart FrameProofs RestartProofs BipopProofs.
Local Open Scope Z_scope.

Section Thms.
Context {T N : Type}.
Variable ops : nat -> R -> numops T N.
Variable e : env T N.
Variable g : cfg T.
Notation st := (st T N).
Notation sol := (sol T N).
Implicit Types (p : rpar) (s : st) (u : urun T N).

(** * IPOP *)
Lemma ipop_runs p s0 nr rf fuel rc best runs s : ipop ops e g nr rf fuel p s0 = Ok (rc, best, runs, s) ->
  (length runs <= Z.to_nat nr)%nat /\
  (forall k u, nth_error runs k = Some u -> u_par u = mkRpar (q_lambda p * 2 ^ k) (q_sigma p) (q_maxf p)) /\
  ((length runs < Z.to_nat nr)%nat -> 0 < q_maxf p <= t_nevals s) /\
  (forall k u, nth_error runs (S k) = Some u -> 0 < q_maxf p -> t_nevals (u_before u) < q_maxf p) /\
  (runs <> [] -> Z.of_nat (q_lambda p) * 2 ^ Z.of_nat (length runs) <= int_max).
Proof.
  intros H. unfold ipop in H. inv_do H. destruct a as [[best' runs'] s']. apply Ok_inj in H. injection H as <- <- <- <-.
  apply ipop_shape in H0 as (new & -> & L & S1 & S2 & _ & S3 & S4 & S5 & S6). cbn [app]. split; [exact L|]. split; [|split; [|split; [|exact S6]]].
  - intros k u Q. destruct (S1 _ _ Q) as (-> & _). reflexivity.
  - intros Q. destruct (S5 Q). lia.
  - intros k u Q HM. destruct (nth_error new k) as [w|] eqn:E; [|apply nth_error_None in E; assert (S k < length new)%nat by (apply nth_error_Some; congruence); lia].
    now apply (S2 _ _ _ E Q).
Qed.
Lemma fresh_gens u : samples_ok (ops_at ops (u_par u)) -> e_restart (g_elit g) = false -> fresh_run ops e g u ->
  exists gens, t_gens (u_after u) = t_gens (u_before u) ++ gens /\ Forall (fun gen => length gen = q_lambda (u_par u)) gens.
Proof.
  intros HS HE (n & rf & fuel & s0 & rc & s1 & H0 & H1 & _ & _ & G). exists (t_gens s1). split; [exact G|].
  change (q_lambda (u_par u)) with (g_lambda (cfg_at g (u_par u))). eapply gens_optimize; [exact HS|exact HE| |exact H1].
  unfold restart_new in H0. apply cnt_new in H0 as (_ & -> & _). constructor.
Qed.
Lemma ipop_fresh_runs p x0 n s0 nr rf fuel rc best runs s : e_restart (g_elit g) = false -> restart_new ops g p x0 n = Ok s0 ->
  ipop ops e g nr rf fuel p s0 = Ok (rc, best, runs, s) ->
  Forall (fun u => fresh_run ops e g u /\ t_x0 (u_before u) = x0) runs /\ consecutive 0 runs.
Proof.
  intros HE H0 H. destruct (ipop_fresh ops e g _ _ _ _ _ _ _ _ _ _ _ HE H0 H) as (F & C & _). split; [|exact C].
  eapply Forall_impl; [|exact F]. intros u (A & B & _). auto.
Qed.
Lemma ipop_generations p x0 n s0 nr rf fuel rc best runs s : (forall l x, samples_ok (ops l x)) -> e_restart (g_elit g) = false -> restart_new ops g p x0 n = Ok s0 ->
  ipop ops e g nr rf fuel p s0 = Ok (rc, best, runs, s) ->
  forall k u, nth_error runs k = Some u ->
  exists gens, t_gens (u_after u) = t_gens (u_before u) ++ gens /\ Forall (fun gen => length gen = (q_lambda p * 2 ^ k)%nat) gens.
Proof.
  intros HS HE H0 H k u Q. destruct (ipop_fresh_runs _ _ _ _ _ _ _ _ _ _ _ HE H0 H) as (F & _). rewrite Forall_forall in F. destruct (F u (nth_error_In _ _ Q)) as (F1 & _).
  apply ipop_runs in H as (_ & P & _). pose proof (P _ _ Q) as E. destruct (fresh_gens u (HS _ _) HE F1) as (gens & G1 & G2). exists gens. split; [exact G1|]. rewrite E in G2. exact G2.
Qed.

(** * The returned solution *)
Lemma final_bval u : final_value ops u = bval (t_sol (u_after u)).
Proof. unfold final_value. apply bval_spec. Qed.
Lemma best_of_runs p x0 rf fuel runs best : Forall (fresh_at ops e g rf fuel x0) runs -> best = fold_best ops runs None -> runs <> [] ->
  (forall u, In u runs -> final_value ops u <> NaN) ->
  exists b, best = Some b /\ (exists u, In u runs /\ b = t_sol (u_after u)) /\
    forall u, In u runs -> dle (c_f (best_candidate (ops_at ops p) b)) (final_value ops u) = true.
Proof.
  intros F -> NE HV. destruct (fold_best_min ops runs) with (best := @None sol) as (b & E & S & M & _).
  - intros u Hu. rewrite <- final_bval. split; [auto|]. rewrite Forall_forall in F. apply (F u Hu).
  - discriminate.
  - auto.
  - exists b. split; [exact E|]. split; [destruct S as [S|S]; [discriminate|exact S]|]. intros u Hu. rewrite bval_spec, final_bval. auto.
Qed.
Lemma ipop_best p x0 n s0 nr rf fuel rc best runs s : e_restart (g_elit g) = false -> restart_new ops g p x0 n = Ok s0 ->
  ipop ops e g nr rf fuel p s0 = Ok (rc, best, runs, s) -> 1 <= nr -> (forall u, In u runs -> final_value ops u <> NaN) ->
  exists b, best = Some b /\ (exists u, In u runs /\ b = t_sol (u_after u)) /\
    forall u, In u runs -> dle (c_f (best_candidate (ops_at ops p) b)) (final_value ops u) = true.
Proof.
  intros HE H0 H HN HV. destruct (ipop_fresh ops e g _ _ _ _ _ _ _ _ _ _ _ HE H0 H) as (F & C & _).
  pose proof H as H'. apply ipop_runs in H' as (_ & _ & HL & _).
  unfold ipop in H. inv_do H. destruct a as [[best' runs'] s']. apply Ok_inj in H. injection H as <- <- <- <-.
  pose proof H1 as H2. apply ipop_shape in H1 as (new & -> & L & S1 & S2 & EB & S3 & S4 & _). cbn [app] in *.
  eapply best_of_runs; [exact F|exact EB| |exact HV].
  intros ->. cbn [length] in *. subst s'. pose proof (ready_new ops g _ _ _ _ H0) as (_ & _ & NV & _). specialize (HL ltac:(lia)). lia.
Qed.
(** Final values are numbers when the objective returns numbers. *)
Lemma final_number u : samples_ok (ops_at ops (u_par u)) -> no_nan e -> g_uh g = false -> no_elitism g -> (forall so, e_progress e so = 0) ->
  fresh_run ops e g u -> exists before gen, t_gens (u_after u) = before ++ [gen] /\ (exists c, first_min gen = Some c /\ final_value ops u = c_f c) /\ final_value ops u <> NaN.
Proof.
  intros HS HN HU HEl HPr (n & rf & fuel & s0 & rc & s1 & H0 & H1 & Es & _ & G).
  set (e' := after (length (t_log (u_before u))) e) in *. set (no := ops_at ops (u_par u)) in *. set (g' := cfg_at g (u_par u)) in *.
  assert (HE : e_restart (g_elit g) = false) by (unfold no_elitism in HEl; now rewrite HEl).
  assert (HN' : no_nan e') by (intros k x; apply HN).
  destruct (one_iteration no e' g' _ _ _ _ _ _ _ HS HPr HE H0 H1) as (_ & NE).
  destruct (exists_last NE) as (bef & gen & EG).
  assert (HEl' : no_elitism g') by exact HEl.
  assert (RO : run_ops no e' g' [OOptimize rf fuel] s0 = Ok s1) by (cbn [run_ops do_op]; rewrite H1; reflexivity).
  assert (W : Forall (whole_gen g') [OOptimize rf fuel]) by (constructor; [exact I|constructor]).
  assert (SS : single_start g' [OOptimize rf fuel]). { unfold single_start. right. cbn. tauto. }
  pose proof (best_is_last no e' g' HS HN' HU HEl' _ _ _ _ _ H0 W SS RO gen bef EG) as BL.
  exists (t_gens (u_before u) ++ bef), gen. rewrite G, EG, app_assoc. split; [reflexivity|].
  assert (FV : final_value ops u = c_f (best_candidate no (t_sol s1))) by (unfold final_value; rewrite Es; reflexivity).
  split.
  - exists (best_candidate no (t_sol s1)). split; [now rewrite BL|exact FV].
  - rewrite FV. destruct (hinv_run no e' g' HS HN' HU HEl' _ _ _ _ _ H0 W SS RO) as (_ & (_ & _ & _ & _ & _ & Bg) & _).
    symmetry in BL. apply first_min_in in BL. apply (Bg gen); [rewrite EG; apply in_or_app; right; left; auto|exact BL].
Qed.

(** * Objective calls *)
Lemma run_calls_bound u m : samples_ok (ops_at ops (u_par u)) -> flags_wf g -> active g 8 -> q_maxf (u_par u) = m -> 1 <= m -> e_restart (g_elit g) = false ->
  fresh_run ops e g u -> run_calls u < m + generation_calls e (cfg_at g (u_par u)) + initial_calls g + final_calls e g.
Proof.
  intros HS HF HA HM Hm HE (n & rf & fuel & s0 & rc & s1 & H0 & H1 & _ & L & _).
  unfold run_calls. rewrite L, app_length. pose proof (max_fevals_respected _ _ (cfg_at g (u_par u)) m _ _ _ _ _ _ _ HS HF HA HM Hm HE H0 H1) as B.
  change (generation_calls (after (length (t_log (u_before u))) e) (cfg_at g (u_par u))) with (generation_calls e (cfg_at g (u_par u))) in B.
  change (initial_calls (cfg_at g (u_par u))) with (initial_calls g) in B.
  change (final_calls (after (length (t_log (u_before u))) e) (cfg_at g (u_par u))) with (final_calls e g) in B. lia.
Qed.
Lemma last_nth {A} (l : list A) : l <> [] -> exists x, nth_error l (length l - 1) = Some x.
Proof. intros H. destruct (nth_error l (length l - 1)) eqn:E; [eauto|]. apply nth_error_None in E. destruct l; [congruence|cbn in E; lia]. Qed.
Lemma ipop_calls p x0 n s0 nr rf fuel rc best runs s u m : (forall l x, samples_ok (ops l x)) -> flags_wf g -> active g 8 -> q_maxf p = m -> 1 <= m -> e_restart (g_elit g) = false ->
  restart_new ops g p x0 n = Ok s0 -> ipop ops e g nr rf fuel p s0 = Ok (rc, best, runs, s) -> nth_error runs (length runs - 1) = Some u ->
  Z.of_nat (length (t_log s)) < 2 * m + generation_calls e (cfg_at g (u_par u)) + initial_calls g + final_calls e g.
Proof.
  intros HS HF HA HM Hm HE H0 H Q. destruct (ipop_fresh ops e g _ _ _ _ _ _ _ _ _ _ _ HE H0 H) as (F & C & EL). destruct (EL u Q) as (EL1 & _).
  rewrite Forall_forall in F. destruct (F u (nth_error_In _ _ Q)) as (F1 & _ & _ & _ & F2 & _).
  apply ipop_runs in H as (_ & P & _ & B & _).
  pose proof (run_calls_bound u m (HS _ _) HF HA ltac:(rewrite (P _ _ Q); exact HM) Hm HE F1) as RB. unfold run_calls in RB. rewrite <- EL1 in RB.
  assert (Z.of_nat (length (t_log (u_before u))) < m); [|lia]. rewrite <- F2.
  destruct (length runs - 1)%nat as [|k] eqn:EK.
  - destruct runs as [|w runs]; [discriminate|]. cbn in Q. injection Q as ->. destruct C as (C & _). lia.
  - rewrite <- HM. apply (B _ _ Q). lia.
Qed.

(** * BIPOP *)
Section Bi.
Variables (ldef : nat) (sigma : R) (m : Z) (draw : nat -> R).
Lemma bipop_schedule rf fuel nr p s rc b : q_lambda p = ldef -> q_sigma p = sigma -> bipop ops e g ldef (Some sigma) (Some m) draw nr rf fuel p s = Ok (rc, b) ->
  length (filter (fun u => negb (u_small u)) (b_runs b)) = Z.to_nat nr /\
  forall k u, nth_error (b_runs b) k = Some u -> let before := firstn k (b_runs b) in let larges := filter (fun u => negb (u_small u)) before in
    if u_small u then
      spent true before < spent false before /\ q_maxf (u_par u) = spent false before / 2 /\
      (exists i, q_lambda (u_par u) = r2_lambda ldef (ldef * 2 ^ (length larges - 1)) (draw i) /\ q_sigma (u_par u) = r2_sigma (draw (S i))) /\ larges <> []
    else spent false before <= spent true before /\ u_par u = mkRpar (ldef * 2 ^ length larges) sigma m.
Proof.
  intros PL PS H. apply bipop_shape in H as ((A1 & A2 & A3 & A4 & A5 & A6) & _); auto.
Qed.
Lemma bipop_lambda rf fuel nr p s rc b : (2 <= ldef)%nat -> (forall i, (0 <= draw i < 1)%R) -> q_lambda p = ldef -> q_sigma p = sigma ->
  bipop ops e g ldef (Some sigma) (Some m) draw nr rf fuel p s = Ok (rc, b) -> forall u, In u (b_runs b) -> (2 <= q_lambda (u_par u))%nat.
Proof.
  intros HD HU PL PS H u Hu. apply In_nth_error in Hu as [k Hk]. apply bipop_schedule in H as (_ & H); auto. specialize (H k u Hk). cbv zeta in H.
  destruct (u_small u).
  - destruct H as (_ & _ & (i & -> & _) & _). apply r2_lambda_ge; auto. pose proof (mul_pow_pos 1 (length (filter (fun u => negb (u_small u)) (firstn k (b_runs b))) - 1)). nia.
  - destruct H as (_ & ->). cbn [q_lambda]. pose proof (mul_pow_pos 1 (length (filter (fun u => negb (u_small u)) (firstn k (b_runs b))))). nia.
Qed.
Lemma bipop_fresh_runs rf fuel nr p x0 n s rc b : e_restart (g_elit g) = false -> (2 <= ldef)%nat -> (forall i, (0 <= draw i < 1)%R) -> q_lambda p = ldef -> restart_new ops g p x0 n = Ok s ->
  bipop ops e g ldef (Some sigma) (Some m) draw nr rf fuel p s = Ok (rc, b) ->
  Forall (fun u => fresh_run ops e g u /\ t_x0 (u_before u) = x0) (b_runs b) /\ consecutive 0 (b_runs b).
Proof.
  intros HE HD HU PL H0 H. destruct (bipop_inv ops e g ldef sigma m draw HE HD HU _ _ _ _ _ _ _ _ _ PL H0 H) as (F & C & _). split; [|exact C].
  eapply Forall_impl; [|exact F]. intros u (A & B & _). auto.
Qed.
Lemma bipop_best rf fuel nr p x0 n s rc b : e_restart (g_elit g) = false -> (2 <= ldef)%nat -> (forall i, (0 <= draw i < 1)%R) -> q_lambda p = ldef -> q_sigma p = sigma -> restart_new ops g p x0 n = Ok s ->
  bipop ops e g ldef (Some sigma) (Some m) draw nr rf fuel p s = Ok (rc, b) -> 1 <= nr -> (forall u, In u (b_runs b) -> final_value ops u <> NaN) ->
  exists so, b_best b = Some so /\ (exists u, In u (b_runs b) /\ so = t_sol (u_after u)) /\
    forall u, In u (b_runs b) -> dle (c_f (best_candidate (ops_at ops p) so)) (final_value ops u) = true.
Proof.
  intros HE HD HU PL PS H0 H HN HV. destruct (bipop_inv ops e g ldef sigma m draw HE HD HU _ _ _ _ _ _ _ _ _ PL H0 H) as (F & _).
  apply bipop_shape in H as ((A1 & A2 & A3 & A4 & _) & _); auto. eapply best_of_runs; [exact F|exact A4| |exact HV].
  intros Q. rewrite Q in A3. cbn in A3. lia.
Qed.
Lemma bipop_run_calls rf fuel nr p x0 n s rc b : (forall l x, samples_ok (ops l x)) -> flags_wf g -> active g 8 ->
  e_restart (g_elit g) = false -> (2 <= ldef)%nat -> (forall i, (0 <= draw i < 1)%R) -> q_lambda p = ldef -> restart_new ops g p x0 n = Ok s ->
  bipop ops e g ldef (Some sigma) (Some m) draw nr rf fuel p s = Ok (rc, b) -> forall u, In u (b_runs b) -> 1 <= q_maxf (u_par u) ->
  run_calls u < q_maxf (u_par u) + generation_calls e (cfg_at g (u_par u)) + initial_calls g + final_calls e g.
Proof.
  intros HS HF HA HE HD HU PL H0 H u Hu HM. destruct (bipop_fresh_runs _ _ _ _ _ _ _ _ _ HE HD HU PL H0 H) as (F & _). rewrite Forall_forall in F.
  apply run_calls_bound; auto; [apply HS|apply (F u Hu)].
Qed.
End Bi.

(** * Termination *)
(** More fuel gives the same result. *)
Lemma loop_mono no e' g' body k : forall s s', loop no e' g' body k s = Ok s' -> forall k', (k <= k')%nat -> @loop T N no e' g' body k' s = Ok s'.
Proof.
  induction k as [|k IH]; intros s s' H k' L; [discriminate|]. destruct k' as [|k']; [lia|]. cbn [loop] in *.
  inv_do H. destruct a as [b s1]. rewrite H0. cbn [bind fst snd] in *. destruct b; [exact H|]. inv_do H. rewrite H1. cbn [bind]. eapply IH; [exact H|lia].
Qed.
Lemma inner_mono p rf k s s' : e_restart (g_elit g) = false -> inner ops e g p rf k s = Ok s' -> forall k', (k <= k')%nat -> inner ops e g p rf k' s = Ok s'.
Proof.
  intros HE H k' L. unfold inner in *. inv_do H. destruct a as [rc s1].
  assert (X : optimize (ops_at ops p) e (cfg_at g p) (round (ops_at ops p) e (cfg_at g p)) rf k' s = Ok (rc, s1)); [|rewrite X; exact H].
  destruct rf as [|rf]; cbn [optimize] in *; inv_do H0; rewrite H1; cbn [bind]; inv_do H0; rewrite (loop_mono _ _ _ _ _ _ _ H2 _ L); cbn [bind];
    inv_do H0; rewrite H3; cbn [bind]; unfold restart_wanted in *; change (g_elit (cfg_at g p)) with (g_elit g) in *; rewrite HE in *; exact H0.
Qed.

Section Returns.
Hypothesis HV : real_values e.
Hypothesis HDim : forall l x, dims_ok (ops l x) g.
Hypothesis HP : pheno_total e g.
Hypothesis HFx : fixed_in_range g.
Hypothesis HGT : g_gradient g = true -> g_tpa g <> 2.
Hypothesis HEl : elitism_le1 g.
Hypothesis HU : g_uh g = false.
Hypothesis HPr : pheno_returns e.
Hypothesis HF : flags_wf g.
Hypothesis HA : active g 8.
Hypothesis HPg : forall so, e_progress e so = 0.
Lemma inner_returns p x0 s rf : (2 <= q_lambda p)%nat -> q_maxf p <> -1 -> ready ops g p x0 s ->
  exists k s', (forall k', (k <= k')%nat -> inner ops e g p rf k' s = Ok s') /\ 1 <= s_niter (t_sol s') /\ kept x0 s'.
Proof.
  intros HL HM R. pose proof R as (n & s0 & H0 & E).
  assert (HE : e_restart (g_elit g) = false) by apply HEl.
  set (k := Z.to_nat (2 + Z.max 0 (q_maxf p))).
  destruct (returns_evals (ops_at ops p) (after (length (t_log s)) e) (cfg_at g p)) with (m := q_maxf p) (x0 := x0) (n := n) (s0 := s0) (fuel := k) (rf := rf) as (rc & s1 & H1); auto; try (apply HDim); try exact HEl; try exact HF; try exact HA; try exact H0.
  - intros i x. apply HV.
  - split; [exact HL|]. intros Q1 Q2. elim (HGT Q1 Q2).
  - unfold k. lia.
  - exists k, (behind (t_log s) (t_gens s) (t_nevals s) s1).
    assert (X : inner ops e g p rf k s = Ok (behind (t_log s) (t_gens s) (t_nevals s) s1)).
    { transitivity (inner ops e g p rf k (behind (t_log s) (t_gens s) (t_nevals s) s0)); [f_equal; exact E|]. unfold inner. rewrite optimize_pre by exact HE. rewrite H1. reflexivity. }
    split; [intros k' L; eapply inner_mono; eauto|]. split.
    + cbn. eapply (one_iteration (ops_at ops p) (after (length (t_log s)) e) (cfg_at g p)); [apply HDim|exact HPg|exact HE|exact H0|exact H1].
    + enough (kept x0 s1) by assumption. eapply (kept_optimize (ops_at ops p) (after (length (t_log s)) e) (cfg_at g p)); [exact HE|eapply kept_new, H0|exact H1].
Qed.
Lemma reset_returns p s : (1 <= q_lambda p)%nat -> exists s', reset_search_state ops g p s = Ok s'.
Proof.
  intros H. unfold reset_search_state, sol_new. cbn [g_lambda cfg_at set_g_max_fevals set_g_reev set_g_lambda]. destruct (Z.eqb_spec (Z.of_nat (q_lambda p)) 0); [lia|]. cbn [bind]. eauto.
Qed.
Lemma ipop_loop_returns rf x0 n : forall p best runs s, ready ops g p x0 s -> (2 <= q_lambda p)%nat -> q_maxf p <> -1 -> Z.of_nat (q_lambda p) * 2 ^ Z.of_nat n <= int_max ->
  exists k r, forall k', (k <= k')%nat -> ipop_loop ops e g n rf k' p best runs s = Ok r.
Proof.
  induction n as [|n IH]; intros p best runs s R PL PM IM; [eexists 0%nat, _; intros; reflexivity|].
  rewrite Nat2Z.inj_succ, Z.pow_succ_r in IM by lia.
  assert (IM' : 2 * Z.of_nat (q_lambda p) <= int_max). { assert (1 <= 2 ^ Z.of_nat n) by (assert (0 < 2 ^ Z.of_nat n) by (apply Z.pow_pos_nonneg; lia); lia). nia. }
  destruct (inner_returns p x0 s rf PL PM R) as (k & s1 & I1 & I2 & I3).
  assert (E2 : lambda_double p = Ok (with_q_lambda (2 * q_lambda p) p)). { unfold lambda_double. destruct (Z.ltb_spec int_max (2 * Z.of_nat (q_lambda p))); [lia|reflexivity]. }
  destruct (reset_returns (with_q_lambda (2 * q_lambda p) p) s1) as (s2 & E3); [cbn; lia|]. destruct I3 as (K1 & K2 & _).
  destruct (ready_reset ops g (with_q_lambda (2 * q_lambda p) p) x0 _ _ K1 K2 ltac:(cbn; lia) E3) as (R2 & _).
  destruct ((0 <? q_maxf p) && (q_maxf p <=? t_nevals s2)) eqn:EB.
  - eexists k, _. intros k' L. cbn [ipop_loop]. rewrite (I1 k' L). cbn [bind]. rewrite E2. cbn [bind]. rewrite E3. cbn [bind q_maxf with_q_lambda]. rewrite EB. reflexivity.
  - destruct (IH (with_q_lambda (2 * q_lambda p) p) (capture ops p best (t_sol s1)) (runs ++ [mkU false p s s1]) s2 R2) as (k2 & r & E4); [cbn; lia|exact PM|cbn [q_lambda with_q_lambda]; lia|].
    exists (Nat.max k k2), r. intros k' L. cbn [ipop_loop]. rewrite I1 by lia. cbn [bind]. rewrite E2. cbn [bind]. rewrite E3. cbn [bind q_maxf with_q_lambda]. rewrite EB. apply E4. lia.
Qed.
Lemma ipop_returns rf nr p x0 n s : (2 <= q_lambda p)%nat -> q_maxf p <> -1 -> restart_new ops g p x0 n = Ok s -> Z.of_nat (q_lambda p) * 2 ^ Z.max nr 0 <= int_max ->
  exists k rc best runs s', forall k', (k <= k')%nat -> ipop ops e g nr rf k' p s = Ok (rc, best, runs, s').
Proof.
  intros PL PM H0 IM. pose proof (ready_new ops g _ _ _ _ H0) as (R & _ & _ & _).
  destruct (ipop_loop_returns rf x0 (Z.to_nat nr) p None [] s R PL PM) as (k & [[best runs] s'] & E).
  - replace (Z.of_nat (Z.to_nat nr)) with (Z.max nr 0) by lia. exact IM.
  - exists k, (restart_code best), best, runs, s'. intros k' L. unfold ipop. rewrite (E k' L). reflexivity.
Qed.
Variables (ldef : nat) (sigma : R) (m : Z) (draw : nat -> R).
Hypothesis HD : (2 <= ldef)%nat.
Hypothesis HDr : forall i, (0 <= draw i < 1)%R.
Hypothesis Hm : m <> -1.
Lemma small_run_returns rf x0 b : kept x0 (b_st b) -> (ldef <= b_ll b)%nat -> 0 <= b_b0 b ->
  exists k b', (forall k', (k <= k')%nat -> small_run ops e g ldef draw rf k' b = Ok b') /\ kept x0 (b_st b') /\ b_ll b' = b_ll b /\ b_b0 b' = b_b0 b /\ b_b1 b < b_b1 b'.
Proof.
  intros (K1 & K2 & K3) LL B0. unfold small_run. cbv zeta.
  set (p := mkRpar (r2_lambda ldef (b_ll b) (draw (b_draws b))) (r2_sigma (draw (S (b_draws b)))) (b_b0 b / 2)).
  assert (PL : (2 <= q_lambda p)%nat) by (apply r2_lambda_ge; auto).
  destruct (reset_returns p (b_st b)) as (s & Es); [lia|].
  destruct (ready_reset ops g p x0 _ _ K1 K2 ltac:(lia) Es) as (R & _).
  assert (PM : q_maxf p <> -1). { cbn. assert (0 <= b_b0 b / 2) by (apply Z.div_pos; lia). lia. }
  destruct (inner_returns p x0 s rf PL PM R) as (k & s1 & I1 & I2 & I3).
  eexists k, _. split; [intros k' L; rewrite Es; cbn [bind]; rewrite (I1 _ L); cbn [bind]; reflexivity|]. cbn [b_st b_ll b_b0 b_b1]. split; [exact I3|]. split; [auto|]. split; [auto|]. nia.
Qed.
Lemma small_loop_returns rf x0 d : forall b, kept x0 (b_st b) -> (ldef <= b_ll b)%nat -> 0 <= b_b0 b -> (Z.to_nat (b_b0 b - b_b1 b) <= d)%nat ->
  exists k b', (forall j k', (k <= j)%nat -> (k <= k')%nat -> small_loop ops e g ldef draw j rf k' b = Ok b') /\ kept x0 (b_st b') /\ b_ll b' = b_ll b /\ b_b0 b' = b_b0 b.
Proof.
  induction d as [|d IH]; intros b K LL B0 D.
  - exists 1%nat, b. split; [|auto]. intros [|j] k' L _; [lia|]. cbn [small_loop]. destruct (Z.ltb_spec (b_b1 b) (b_b0 b)); [lia|reflexivity].
  - destruct (Z.ltb_spec (b_b1 b) (b_b0 b)) as [L|L].
    + destruct (small_run_returns rf x0 b K LL B0) as (k1 & b1 & S1 & S2 & S3 & S4 & S5). destruct (IH b1) as (k2 & b2 & R1 & R2 & R3 & R4); auto; try lia.
      exists (S (Nat.max k1 k2)), b2. split; [|split; [exact R2|split; congruence]]. intros [|j] k' L1 L2; [lia|]. cbn [small_loop].
      destruct (Z.ltb_spec (b_b1 b) (b_b0 b)); [|lia]. rewrite S1 by lia. cbn [bind]. apply R1; lia.
    + exists 1%nat, b. split; [|auto]. intros [|j] k' L1 L2; [lia|]. cbn [small_loop]. destruct (Z.ltb_spec (b_b1 b) (b_b0 b)); [lia|reflexivity].
Qed.
Lemma large_run_returns rf x0 b : ready ops g (b_par b) x0 (b_st b) -> (2 <= q_lambda (b_par b))%nat -> 0 <= b_b0 b ->
  exists k b', (forall k', (k <= k')%nat -> large_run ops e g (Some m) rf k' b = Ok b') /\ kept x0 (b_st b') /\ b_ll b' = b_ll b /\ 0 <= b_b0 b'.
Proof.
  intros R PL B0. unfold large_run. cbv zeta. set (p := with_q_maxf m (b_par b)).
  destruct (inner_returns p x0 (b_st b) rf) as (k & s1 & I1 & I2 & I3); [exact PL|exact Hm|apply ready_maxf, R|].
  eexists k, _. split; [intros k' L; rewrite (I1 _ L); cbn [bind]; reflexivity|]. cbn [b_st b_ll b_b0]. split; [exact I3|]. split; [auto|]. nia.
Qed.
Lemma bipop_loop_returns rf x0 n : forall (first : bool) b, kept x0 (b_st b) -> (ldef <= b_ll b)%nat -> 0 <= b_b0 b ->
  (if first then ready ops g (b_par b) x0 (b_st b) /\ b_b0 b <= b_b1 b /\ q_lambda (b_par b) = b_ll b /\ Z.of_nat (b_ll b) * 2 ^ (Z.of_nat n - 1) <= int_max
   else Z.of_nat (b_ll b) * 2 ^ Z.of_nat n <= int_max) ->
  exists k b', forall k', (k <= k')%nat -> bipop_loop ops e g ldef (Some sigma) (Some m) draw n first rf k' b = Ok b'.
Proof.
  induction n as [|n IH]; intros first b K LL B0 C; [exists 0%nat, b; intros; reflexivity|].
  assert (Y : forall b1 b2, (exists k1, forall j k', (k1 <= j)%nat -> (k1 <= k')%nat -> small_loop ops e g ldef draw j rf k' b = Ok b1) -> (if first then Ok b1 else r1 ops g (Some sigma) b1) = Ok b2 ->
    ready ops g (b_par b2) x0 (b_st b2) -> (ldef <= b_ll b2)%nat -> (2 <= q_lambda (b_par b2))%nat -> 0 <= b_b0 b2 -> Z.of_nat (b_ll b2) * 2 ^ Z.of_nat n <= int_max ->
    exists k b', forall k', (k <= k')%nat -> bipop_loop ops e g ldef (Some sigma) (Some m) draw (S n) first rf k' b = Ok b').
  { intros b1 b2 (k1 & E1) E2 R LL2 PL B2 IM. destruct (large_run_returns rf x0 b2 R PL B2) as (k3 & b3 & E3 & K3 & L3 & B3).
    destruct (IH false b3 K3) as (k4 & b4 & E4); [lia|lia|rewrite L3; exact IM|]. exists (Nat.max k1 (Nat.max k3 k4)), b4. intros k' L. cbn [bipop_loop].
    rewrite E1 by lia. cbn [bind]. rewrite E2. cbn [bind]. rewrite E3 by lia. cbn [bind]. apply E4. lia. }
  destruct first.
  - destruct C as (R & C1 & C2 & C3). apply (Y b b); auto.
    + exists 1%nat. intros [|j] k' L1 L2; [lia|]. cbn [small_loop]. destruct (Z.ltb_spec (b_b1 b) (b_b0 b)); [lia|reflexivity].
    + lia.
    + replace (Z.of_nat (S n) - 1) with (Z.of_nat n) in C3 by lia. exact C3.
  - destruct (small_loop_returns rf x0 _ b K LL B0 (Nat.le_refl _)) as (k1 & b1 & E1 & K1 & L1 & B1).
    rewrite Nat2Z.inj_succ, Z.pow_succ_r in C by lia.
    assert (IM : 2 * Z.of_nat (b_ll b1) <= int_max). { rewrite L1. assert (1 <= 2 ^ Z.of_nat n) by (assert (0 < 2 ^ Z.of_nat n) by (apply Z.pow_pos_nonneg; lia); lia). nia. }
    set (p := with_q_sigma sigma (with_q_lambda (2 * b_ll b1) (b_par b1))).
    destruct (reset_returns p (b_st b1)) as (s & Es); [cbn; lia|]. pose proof K1 as (K1a & K1b & _).
    destruct (ready_reset ops g p x0 _ _ K1a K1b ltac:(cbn; lia) Es) as (R & _).
    assert (E2 : r1 ops g (Some sigma) b1 = Ok (mkB p (q_lambda p) (b_best b1) s (b_runs b1) (b_draws b1) (b_b0 b1) (b_b1 b1))).
    { unfold r1, lambda_double. cbn [q_lambda with_q_lambda]. destruct (Z.ltb_spec int_max (2 * Z.of_nat (b_ll b1))); [lia|]. cbn [bind].
      change (with_q_sigma sigma (with_q_lambda (2 * b_ll b1) (with_q_lambda (b_ll b1) (b_par b1)))) with p. cbv zeta. rewrite Es. reflexivity. }
    eapply Y; [exists k1; exact E1|exact E2|exact R| | | |]; cbn [b_ll b_par b_b0 b_st]; try (cbn [p q_lambda with_q_sigma with_q_lambda]; lia).
Qed.
Lemma bipop_returns rf nr p x0 n s : q_lambda p = ldef -> restart_new ops g p x0 n = Ok s -> Z.of_nat ldef * 2 ^ (Z.max nr 0 - 1) <= int_max ->
  exists k rc b, forall k', (k <= k')%nat -> bipop ops e g ldef (Some sigma) (Some m) draw nr rf k' p s = Ok (rc, b).
Proof.
  intros PL H0 IM. pose proof (ready_new ops g _ _ _ _ H0) as (R & _ & _ & _).
  destruct (bipop_loop_returns rf x0 (Z.to_nat nr) true (mkB p ldef None s [] 0 0 0)) as (k & b & E).
  - exact (ready_kept ops g _ _ _ R).
  - cbn; lia.
  - cbn; lia.
  - cbn [b_par b_st b_b0 b_b1 b_ll]. split; [exact R|]. split; [lia|]. split; [exact PL|]. replace (Z.of_nat (Z.to_nat nr) - 1) with (Z.max nr 0 - 1) by lia. exact IM.
  - exists k, (restart_code (b_best b)), b. intros k' L. unfold bipop. rewrite (E k' L). reflexivity.
Qed.
End Returns.
End Thms.
