(** Concrete instances for the restart strategies. *)
From Coq Require Import Reals Lra.
From Verif Require Import Base Dbl DblProofs Config Search SpecInvar SpecSearch SpecStop SpecSafe SearchInv CounterProofs StopProofs RunProofs Restart SpecRestart FrameProofs RestartProofs BipopProofs RestartThms Demo DemoProofs.
Local Open Scope Z_scope.

(** * Calls made by BIPOP *)
Section Calls.
Context {T N : Type}.
Variable ops : nat -> R -> numops T N.
Variable e : env T N.
Variable g : cfg T.
Hypothesis HS : forall l x, samples_ok (ops l x).
Hypothesis HE : e_restart (g_elit g) = false.
Hypothesis HPg : forall so, e_progress e so = 0.
Implicit Types (u : urun T N).
Lemma run_calls_ge u : fresh_run ops e g u -> Z.of_nat (q_lambda (u_par u)) <= run_calls u.
Proof.
  intros (n & rf & fuel & s0 & rc & s1 & H0 & H1 & _ & L & _). unfold run_calls. rewrite L, app_length.
  destruct (one_iteration (ops_at ops (u_par u)) (after (length (t_log (u_before u))) e) (cfg_at g (u_par u)) _ _ _ _ _ _ _ (HS _ _) HPg HE H0 H1) as (NI & _).
  assert (CO : counted s1). { eapply optimize_counted; [exact H1|]. unfold restart_new in H0. apply cnt_new in H0 as ((_ & _ & A1 & _) & A2 & A3 & A4 & _). split; rewrite A3; cbn; lia. }
  destruct CO as (CO & _). unfold restart_new in H0. apply cnt_new in H0 as (C0 & G0 & L0 & N0 & I0 & IE & S0 & _).
  apply optimize_unfold in H1 as (s2 & s3 & s4 & w & A1 & A2 & A3 & A4 & A5 & _).
  destruct (cnt_init _ _ _ _ _ C0 A1) as (C1 & G1 & I1 & S1 & B1 & _).
  apply loop_grows in A2 as (C2 & A2 & A2'); [|apply HS|exact C1].
  assert (X : cnt s4 /\ t_niter s4 = t_niter s3 /\ t_nevals s3 <= t_nevals s4).
  { destruct (g_edm _); [|subst; split; [exact C2|split; [reflexivity|lia]]]. destruct (cnt_edm _ _ _ _ _ C2 A3) as (D1 & D2 & D3 & D4 & _). split; [exact D1|]. split; [exact D3|]. rewrite D4. unfold gradient_calls. destruct (e_gfunc _); lia. }
  destruct X as (C4 & I4 & N4). unfold restart_wanted in A4. change (g_elit (cfg_at g (u_par u))) with (g_elit g) in A4. rewrite HE in A4. cbn in A4. injection A4 as <-.
  destruct A5 as [[_ ->]|(Q & _)]; [|discriminate]. destruct C4 as (C4 & _). change (g_lambda (cfg_at g (u_par u))) with (q_lambda (u_par u)) in A2. nia.
Qed.
Definition lambdas (us : list (urun T N)) : Z := fold_right Z.add 0 (map (fun u => Z.of_nat (q_lambda (u_par u))) us).
Lemma lambdas_app l1 l2 : lambdas (l1 ++ l2) = lambdas l1 + lambdas l2.
Proof. unfold lambdas. rewrite map_app, fold_right_app. induction l1 as [|a l IH]; cbn in *; [lia|]. unfold lambdas in IH. lia. Qed.
Lemma lambdas_le us : forall c, Forall (fresh_run ops e g) us -> consecutive c us -> forall u, nth_error us (length us - 1) = Some u -> lambdas us + Z.of_nat c <= Z.of_nat (length (t_log (u_after u))).
Proof.
  induction us as [|v us IH]; intros c F C u Q; [discriminate|]. inversion F as [|? ? F1 F2]; subst. destruct C as (C1 & C2). pose proof (run_calls_ge v F1) as RC. unfold run_calls in RC.
  destruct us as [|w us].
  - cbn in Q. injection Q as ->. unfold lambdas; cbn. lia.
  - replace (length (v :: w :: us) - 1)%nat with (S (length (w :: us) - 1)) in Q by (cbn; lia). cbn [nth_error] in Q. specialize (IH _ F2 C2 u Q). change (lambdas (v :: w :: us)) with (Z.of_nat (q_lambda (u_par v)) + lambdas (w :: us)). lia.
Qed.
Variables (ldef : nat) (sigma : R) (m : Z) (draw : nat -> R).
Hypothesis HD : (2 <= ldef)%nat.
Hypothesis HU : forall i, (0 <= draw i < 1)%R.
Lemma sched_lambdas us : sched ldef sigma m draw us -> forall k, (k <= length us)%nat -> Z.of_nat ldef * (2 ^ Z.of_nat (length (large (firstn k us))) - 1) <= lambdas (firstn k us).
Proof.
  intros H k. induction k as [|k IH]; intros L; [cbn; lia|].
  destruct (nth_error us k) as [u|] eqn:E; [|apply nth_error_None in E; lia]. specialize (IH ltac:(lia)).
  assert (FS : firstn (S k) us = firstn k us ++ [u]).
  { clear -E. revert us E. induction k; intros [|a us] E; try discriminate; cbn in *; [injection E as ->; auto|f_equal; auto]. }
  rewrite FS, lambdas_app. pose proof (H k u E) as R. unfold run_ok in R. unfold large in *. rewrite filter_app, app_length. cbn [filter].
  assert (LU : lambdas [u] = Z.of_nat (q_lambda (u_par u))) by (unfold lambdas; cbn; lia). rewrite LU.
  destruct (u_small u) eqn:ES; cbn [negb length].
  - rewrite Nat.add_0_r. lia.
  - destruct R as (_ & ->). cbn [q_lambda].
    set (j := length (filter (fun u => negb (u_small u)) (firstn k us))) in *.
    rewrite Nat2Z.inj_add, Z.pow_add_r by lia. change (2 ^ Z.of_nat 1) with 2. rewrite Nat2Z.inj_mul, Nat2Z.inj_pow. change (Z.of_nat 2) with 2. lia.
Qed.
Lemma bipop_calls_ge rf fuel nr p x0 n s rc b : q_lambda p = ldef -> q_sigma p = sigma -> restart_new ops g p x0 n = Ok s ->
  bipop ops e g ldef (Some sigma) (Some m) draw nr rf fuel p s = Ok (rc, b) -> 1 <= nr ->
  Z.of_nat ldef * (2 ^ nr - 1) <= Z.of_nat (length (t_log (b_st b))).
Proof.
  intros PL PS H0 H HN. pose proof (bipop_inv ops e g ldef sigma m draw HE HD HU _ _ _ _ _ _ _ _ _ PL H0 H) as (F & C & _ & _ & LA & _).
  apply bipop_shape in H as ((A1 & A2 & A3 & _) & _); auto.
  assert (NE : b_runs b <> []). { intros Q. rewrite Q in A3. cbn in A3. lia. }
  destruct (last_nth _ NE) as (u & Q).
  pose proof (sched_lambdas _ A1 _ (Nat.le_refl _)) as L1. rewrite firstn_all, A3 in L1. rewrite Z2Nat.id in L1 by lia.
  assert (F' : Forall (fresh_run ops e g) (b_runs b)). { eapply Forall_impl; [|exact F]. intros w (W & _). exact W. }
  pose proof (lambdas_le _ 0 F' C u Q) as L2.
  assert (EL : length (t_log (u_after u)) = length (t_log (b_st b))).
  { pose proof (consec_app (b_runs b) [mkU true p (b_st b) (b_st b)] u 0 C NE Q) as X. pose proof (LA [mkU true p (b_st b) (b_st b)]) as Y. cbn [consecutive u_before u_after] in X, Y.
    symmetry. apply X. apply Y. auto. }
  lia.
Qed.
End Calls.

(** * A progress function that stops everything after the first iteration *)
Definition once : env Z nat := mkEnv (fun _ _ => dint 1) false (fun x => Ok x) (fun so => Z.of_nat (s_num so)) isort.
Definition once_ops (l : nat) (x : R) : numops Z nat := line_no.
Definition once_g : cfg Z := set_g_max_fevals 100 (mk_cfg 1 2).
Definition once_p : rpar := mkRpar 2 1 100.
Lemma stuck_run b rf fuel : s_num (t_sol (b_st b)) <> 0%nat -> (2 <= b_ll b)%nat -> t_initel (b_st b) = false ->
  small_run once_ops once once_g 2 (fun _ => 0%R) rf fuel b = Fault Diverges \/
  exists b', small_run once_ops once once_g 2 (fun _ => 0%R) rf fuel b = Ok b' /\ b_b1 b' = b_b1 b /\ b_b0 b' = b_b0 b /\ s_num (t_sol (b_st b')) <> 0%nat /\ b_ll b' = b_ll b /\ t_initel (b_st b') = false.
Proof.
  intros HN HL HI. unfold small_run. cbv zeta. set (p := mkRpar (r2_lambda 2 (b_ll b) 0) (r2_sigma 0) (b_b0 b / 2)).
  assert (PL : (2 <= q_lambda p)%nat) by (apply r2_lambda_ge; auto; lra).
  unfold reset_search_state, sol_new. cbn [g_lambda cfg_at set_g_max_fevals set_g_reev set_g_lambda]. destruct (Z.eqb_spec (Z.of_nat (q_lambda p)) 0); [lia|]. cbn [bind].
  match goal with |- context [inner _ _ _ p rf fuel ?x] => set (s := x) end.
  assert (NN : s_num (t_sol s) <> 0%nat) by exact HN. assert (IE : t_initel s = false) by exact HI.
  assert (SS : s_status (t_sol s) = 0) by reflexivity. assert (SN : s_niter (t_sol s) = 0) by reflexivity. clearbody s.
  assert (E0 : eval_initial (ops_at once_ops p) once (cfg_at once_g p) s = Ok s).
  { unfold eval_initial. rewrite IE. reflexivity. }
  destruct fuel as [|fuel].
  - left. unfold inner. destruct rf as [|rf]; cbn [optimize]; rewrite E0; reflexivity.
  - right. assert (LL : forall body, loop (ops_at once_ops p) once (cfg_at once_g p) body (S fuel) s = Ok s).
    { intros body. apply progress_stops; [rewrite SS; lia|]. cbn. lia. }
    assert (EI : inner once_ops once once_g p rf (S fuel) s = Ok s).
    { unfold inner. destruct rf as [|rf]; cbn [optimize]; rewrite E0; cbn [bind]; rewrite LL; reflexivity. }
    rewrite EI. cbn [bind]. eexists. split; [reflexivity|]. cbn [b_b0 b_b1 b_st b_ll]. rewrite SN. repeat split; auto; lia.
Qed.
Lemma stuck rf fuel k : forall b, b_b1 b < b_b0 b -> s_num (t_sol (b_st b)) <> 0%nat -> (2 <= b_ll b)%nat -> t_initel (b_st b) = false ->
  small_loop once_ops once once_g 2 (fun _ => 0%R) k rf fuel b = Fault Diverges.
Proof.
  induction k as [|k IH]; intros b H1 H2 H3 H4; [reflexivity|]. cbn [small_loop]. destruct (Z.ltb_spec (b_b1 b) (b_b0 b)); [|lia].
  destruct (stuck_run b rf fuel H2 H3 H4) as [E|(b' & E & E1 & E2 & E3 & E4 & E5)]; rewrite E; [reflexivity|]. cbn [bind]. apply IH; auto; lia.
Qed.
Lemma bipop_step {T N} (ops : nat -> R -> numops T N) e g ldef sg mf dr n first rf fuel b :
  bipop_loop ops e g ldef sg mf dr (S n) first rf fuel b =
  do b1 <- small_loop ops e g ldef dr fuel rf fuel b; do b2 <- (if first then Ok b1 else r1 ops g sg b1); do b3 <- large_run ops e g mf rf fuel b2; bipop_loop ops e g ldef sg mf dr n false rf fuel b3.
Proof. reflexivity. Qed.
Lemma never_returns_bipop : exists s, restart_new once_ops once_g once_p [0] 0%nat = Ok s /\
  forall rf fuel, bipop once_ops once once_g 2 (Some 1%R) (Some 100) (fun _ => 0%R) 2 rf fuel once_p s = Fault Diverges.
Proof.
  eexists. split; [reflexivity|]. intros rf [|[|fuel]].
  - reflexivity.
  - unfold bipop. change (Z.to_nat 2) with 2%nat. cbn [bipop_loop].
    match goal with |- context [mkB once_p 2 None ?x [] 0 0 0] => set (s := x) end.
    change (small_loop once_ops once once_g 2 (fun _ : nat => 0%R) 1 rf 1 (mkB once_p 2 None s [] 0 0 0)) with (Ok (mkB once_p 2 None s [] 0 0 0)).
    cbn [bind]. destruct rf; vm_compute; reflexivity.
  - unfold bipop. change (Z.to_nat 2) with 2%nat. 
    match goal with |- context [mkB once_p 2 None ?x [] 0 0 0] => set (s := x) end.
    assert (X : exists s1, inner once_ops once once_g (with_q_maxf 100 once_p) rf (S (S fuel)) s = Ok s1 /\ s_num (t_sol s1) = 1%nat /\ s_niter (t_sol s1) = 1 /\ t_initel s1 = false).
    { eexists. split; [destruct rf; vm_compute; reflexivity|]. repeat split; vm_compute; reflexivity. }
    destruct X as (s1 & X1 & X2 & X3 & X4). clearbody s.
    set (F := S (S fuel)) in *. set (b0 := mkB once_p 2 None s [] 0 0 0).
    assert (S1 : small_loop once_ops once once_g 2 (fun _ => 0%R) F rf F b0 = Ok b0) by reflexivity.
    assert (S2 : exists b3, large_run once_ops once once_g (Some 100) rf F b0 = Ok b3 /\ b_b1 b3 = 0 /\ b_b0 b3 = 2 /\ b_st b3 = s1 /\ b_ll b3 = 2%nat).
    { unfold large_run. cbn [b_par b_st b0 b_b0 b_b1 b_ll b_best b_runs b_draws]. rewrite X1. cbn [bind]. eexists. split; [reflexivity|]. cbn [b_b0 b_b1 b_st b_ll q_lambda with_q_maxf once_p]. rewrite X3. auto. }
    destruct S2 as (b3 & S2 & S3 & S4 & S5 & S6).
    rewrite bipop_step, S1. cbn [bind]. rewrite S2. cbn [bind]. rewrite bipop_step, stuck; [reflexivity|lia|rewrite S5, X2; discriminate|lia|rewrite S5; exact X4].
Qed.

(** * Instances with integer points *)
Definition demo_ops (l : nat) (x : R) : numops Z nat := demo_no.
Definition ipop_g : cfg Z := set_g_max_iter 2 (mk_cfg 2 4).
Definition ipop_p : rpar := mkRpar 4 1 10.
(** The first eight calls return NaN, the others 5. *)
Definition nan_e : env Z nat := mkEnv (fun k _ => if (k <? 8)%nat then NaN else dint 5) false (fun x => Ok x) (fun _ => 0) isort.

Definition bi_g : cfg Z := set_g_max_fevals 4 (mk_cfg 2 4).
Definition bi_p : rpar := mkRpar 4 1 4.
Lemma bi_hyps : real_values demo_e /\ (forall l x, dims_ok (demo_ops l x) bi_g) /\ pheno_total demo_e bi_g /\ fixed_in_range bi_g /\ (g_gradient bi_g = true -> g_tpa bi_g <> 2) /\
  elitism_le1 bi_g /\ g_uh bi_g = false /\ pheno_returns demo_e /\ flags_wf bi_g /\ active bi_g 8 /\ (forall so, e_progress demo_e so = 0).
Proof.
  split; [apply mk_env_real|]. split; [intros; apply toy_dims; [intros; reflexivity|reflexivity]|]. split; [apply mk_env_pheno|]. split; [intros i v []|].
  split; [discriminate|]. split; [split; reflexivity|]. split; [reflexivity|]. split; [apply mk_env_pheno_returns|]. split; [reflexivity|]. split; [cbn; tauto|reflexivity].
Qed.
Lemma r2_lambda_0 ldef ll : (1 <= ldef)%nat -> (1 <= ll)%nat -> r2_lambda ldef ll 0 = ldef.
Proof.
  intros H1 H2. unfold r2_lambda. assert (0 < INR ll)%R by (apply lt_0_INR; lia). assert (0 < INR ldef)%R by (apply lt_0_INR; lia).
  rewrite Rpower_O. 2:{ assert (0 < INR ll / INR ldef)%R by (apply Rdiv_lt_0_compat; auto). lra. }
  rewrite Rmult_1_r. unfold ceilR. rewrite INR_IZR_INZ, <- opp_IZR. replace (Int_part (IZR (- Z.of_nat ldef))) with (- Z.of_nat ldef); [lia|].
  unfold Int_part. rewrite <- (tech_up (IZR (- Z.of_nat ldef)) (- Z.of_nat ldef + 1)); [lia| |]; rewrite plus_IZR; lra.
Qed.
(** Three restarts with a budget of four calls. *)
Lemma bipop_over : exists s k rc b, restart_new demo_ops bi_g bi_p [4; 4] 0%nat = Ok s /\
  (forall k', (k <= k')%nat -> bipop demo_ops demo_e bi_g 4 (Some 1%R) (Some 4) (fun _ => 0%R) 3 0 k' bi_p s = Ok (rc, b)) /\
  forall u, In u (b_runs b) -> 4 + generation_calls demo_e (cfg_at bi_g (u_par u)) < Z.of_nat (length (t_log (b_st b))).
Proof.
  destruct bi_hyps as (B1 & B2 & B3 & B4 & B5 & B6 & B7 & B8 & B9 & B10 & B11).
  assert (X : exists s, restart_new demo_ops bi_g bi_p [4; 4] 0%nat = Ok s) by (eexists; reflexivity). destruct X as (s & H0). exists s.
  assert (HU : forall i : nat, (0 <= (fun _ : nat => 0%R) i < 1)%R) by (intros; lra).
  destruct (bipop_returns demo_ops demo_e bi_g B1 B2 B3 B4 B5 B6 B7 B8 B9 B10 B11 4 1%R 4 (fun _ => 0%R) ltac:(lia) HU ltac:(lia) 0 3 bi_p _ _ _ eq_refl H0) as (k & rc & b & E).
  { vm_compute. discriminate. }
  exists k, rc, b. split; [exact H0|]. split; [exact E|]. specialize (E k (Nat.le_refl _)).
  assert (HS : forall l x, samples_ok (demo_ops l x)) by (intros; apply B2).
  pose proof (bipop_calls_ge demo_ops demo_e bi_g HS eq_refl B11 4 1%R 4 (fun _ => 0%R) ltac:(lia) HU 0 k 3 bi_p _ _ _ _ _ eq_refl eq_refl H0 E ltac:(lia)) as C.
  change (Z.of_nat 4 * (2 ^ 3 - 1)) with 28 in C.
  intros u Hu. apply In_nth_error in Hu as [i Hi]. pose proof (bipop_schedule demo_ops demo_e bi_g 4 1%R 4 (fun _ => 0%R) 0 k 3 bi_p _ _ _ eq_refl eq_refl E) as (SL & SC).
  specialize (SC i u Hi). cbv zeta in SC.
  assert (QL : (q_lambda (u_par u) <= 16)%nat).
  { set (larges := filter (fun u => negb (u_small u)) (firstn i (b_runs b))) in *.
    destruct (u_small u) eqn:ES.
    - destruct SC as (_ & _ & (j & -> & _) & _). rewrite r2_lambda_0; [lia|lia|]. apply mul_pow_pos; lia.
    - destruct SC as (_ & ->). cbn [q_lambda].
      assert (LL : (length larges < 3)%nat).
      { assert (X : b_runs b = firstn i (b_runs b) ++ u :: skipn (S i) (b_runs b)).
        { clear -Hi. revert i Hi. generalize (b_runs b). intros l. induction l as [|a l IH]; intros [|i] H; try discriminate; cbn in *; [injection H as ->; auto|f_equal; auto]. }
        rewrite X, filter_app, app_length in SL. cbn [filter] in SL. rewrite ES in SL. cbn [negb length] in SL. fold larges in SL. change (Z.to_nat 3) with 3%nat in SL. lia. }
      assert (2 ^ length larges <= 2 ^ 2)%nat by (apply Nat.pow_le_mono_r; lia). change (2 ^ 2)%nat with 4%nat in H. lia. }
  unfold generation_calls. change (g_lambda (cfg_at bi_g (u_par u))) with (q_lambda (u_par u)). cbn [g_uh g_gradient cfg_at bi_g set_g_max_fevals set_g_reev set_g_lambda mk_cfg]. lia.
Qed.
