(** A search started from a solution object: the best candidate seen, and the
    sizes of what reset creates. *)
From Coq Require Import Permutation Reals Lia Lra.
From Verif Require Import Base Dbl DblProofs Vec Params Config Search SpecSearch SpecSafe SpecUh SortProofs SearchInv CounterProofs HistProofs StopProofs NumInv Update SpecUpdate SpecInvar SpecMorph SearchThms SearchThms2 SafeProofs ParamSound DemoNum DemoNumProofs NumThms AffineThms SpecWarm WarmProofs WarmThms.
Local Open Scope Z_scope.

Section Best.
Context {T N : Type}.
Variable no : numops T N.
Variable e : env T N.
Variable g : cfg T.
Notation st := (st T N).
Implicit Types (s : st).
Hypothesis HS : samples_ok no.
Hypothesis HN : no_nan e.
Hypothesis HU : g_uh g = false.
Hypothesis HE : no_elitism g.
Hypothesis HV : g_init_fvalue g = false.
Variable b0 : cand T.
Definition binv s : Prop :=
  length (s_cands (t_sol s)) = g_lambda g /\ t_initel s = false /\ 0 <= s_niter (t_sol s) /\ (s_niter (t_sol s) = 0 -> c_x (s_best (t_sol s)) <> []) /\
  c_f (s_best (t_sol s)) <> NaN /\ dle (c_f (s_best (t_sol s))) (c_f b0) = true /\
  (forall gen c, In gen (t_gens s) -> In c gen -> dle (c_f (s_best (t_sol s))) (c_f c) = true) /\
  (s_best (t_sol s) = b0 \/ exists gen, In gen (t_gens s) /\ In (s_best (t_sol s)) gen).
Lemma binv_gen s cols phen s1 s2 : binv s -> length cols = g_lambda g ->
  eval no e g cols phen s = Ok s1 -> tell no e g s1 = Ok s2 -> binv (inc_iter s2).
Proof.
  intros (B1 & B2 & B3 & B4 & B5 & B6 & B7 & B8) HC He Ht.
  destruct (gen_effect no e g HU HE s cols phen s1 s2 B1 HC He Ht) as (Gc & Gg & l & Glog & Gin).
  set (gen := new_gen e 0 (length (t_log s)) cols phen (s_cands (t_sol s))) in *.
  assert (Gn : nonan gen) by (apply new_gen_nonan, HN).
  assert (Gl : length gen = g_lambda g) by (unfold gen; rewrite new_gen_length; auto).
  apply eval_spec in He as (_ & _ & K & _). unfold keep in K.
  injection K as K1 K2 K3 K4 K5 K6 K7 K8 K9 K10 K11 K12 K13 K14 K15.
  apply tell_effect in Ht as (_ & _ & _ & _ & T0 & _ & _ & T2 & _ & _ & _ & _ & _ & c0 & ck & cl & m & rest & lim & C1 & _ & _ & _ & _ & _ & _ & _ & C9 & _).
  unfold best_take in C9. rewrite K5, K9 in C9. rewrite Gc in *.
  assert (F0 : first_min gen = Some c0) by (rewrite <- sort_first_min; destruct (sort_cands gen); auto).
  assert (L0 : forall d, In d gen -> dle (c_f c0) (c_f d) = true) by (apply first_min_le; auto).
  assert (I0 : In c0 gen) by (apply first_min_in; auto).
  assert (NN : c_f c0 <> NaN) by (apply Gn; auto).
  assert (Q : (s_niter (t_sol s) =? 0) && match c_x (s_best (t_sol s)) with [] => true | _ => false end = false).
  { destruct (Z.eqb_spec (s_niter (t_sol s)) 0) as [E|E]; [|reflexivity]. specialize (B4 E). destruct (c_x (s_best (t_sol s))); [congruence|reflexivity]. }
  rewrite Q in C9. cbn [orb] in C9.
  unfold binv. cbn [inc_iter t_gens t_initel set_t_sol set_t_niter t_sol set_s_niter s_best s_cands s_niter].
  rewrite Gc, sort_length, T0, T2, K9, C9, Gg. split; auto. split; [congruence|]. split; [lia|]. split; [lia|].
  destruct (dlt (c_f c0) (c_f (s_best (t_sol s)))) eqn:Et.
  - split; auto. split; [apply dlt_dle; eapply dlt_le_trans; eauto|]. split.
    + intros gn c Hg Hc. apply in_app_iff in Hg as [Hg|[<-|[]]]; auto. apply dlt_dle. eapply dlt_le_trans; eauto.
    + right. exists gen. split; auto. apply in_app_iff. right. left. auto.
  - split; auto. split; auto. split.
    + intros gn c Hg Hc. apply in_app_iff in Hg as [Hg|[<-|[]]]; eauto. eapply dle_trans; [|apply L0; auto]. apply dlt_false_le; auto.
    + destruct B8 as [B8|(gn & Hg & Hi)]; auto. right. exists gn. split; auto. apply in_app_iff; auto.
Qed.
Lemma binv_calls s s' : only_calls s s' -> binv s -> binv s'.
Proof using Type.
  intros (K & G & C & _) H. unfold keep in K. injection K as K1 K2 K3 K4 K5 K6 K7 K8 K9 K10 K11 K12 K13 K14 K15.
  unfold binv in *. rewrite C, K5, K9, G. match goal with |- context [t_initel s'] => replace (t_initel s') with (t_initel s) by congruence end. exact H.
Qed.
Lemma binv_run h s0 s : binv s0 -> Forall (whole_gen g) h -> run_ops no e g h s0 = Ok s -> binv s.
Proof.
  intros W0 W H.
  refine (P_ops no e g binv (fun c => length c = g_lambda g) _ _ _ _ _ _ _ h s0 s _ W0 H).
  - intros sa pop sb _ Ha. apply ask_spec in Ha as (_ & L & _). auto.
  - intros sa pop sb P Ha. apply ask_spec in Ha as (O & _). eapply binv_calls; eauto.
  - intros; eapply binv_gen; eauto.
  - intros sa b sb P Hq. apply stop_spec in Hq as [(_ & -> & _)|(_ & _ & [(_ & _ & ->)|(_ & r & _ & _ & ->)])]; auto.
  - intros sa sb P Hq. apply eval_initial_spec in Hq as [(_ & ->)|(WI & _)]; auto. rewrite wants_init_off in WI; [discriminate|auto|apply P|auto].
  - intros sa sb P Hq. apply edm_spec in Hq as (O & _). eapply binv_calls; eauto.
  - intros sa sb P HR Hq. apply no_restart in HR; [discriminate|auto].
  - eapply Forall_impl; [|exact W]. intros [] Q; cbn in *; auto.
Qed.
End Best.
Lemma warm_best T N (no : numops T N) (e : env T N) (g : cfg T) : samples_ok no -> no_nan e -> g_uh g = false -> no_elitism g -> g_init_fvalue g = false ->
  forall so h s, length (s_cands so) = g_lambda g -> c_x (s_best so) <> [] -> c_f (s_best so) <> NaN -> Forall (whole_gen g) h ->
  run_ops no e g h (st_from_solution no so) = Ok s ->
  dle (c_f (s_best (t_sol s))) (c_f (s_best so)) = true /\
  (forall gen c, In gen (t_gens s) -> In c gen -> dle (c_f (s_best (t_sol s))) (c_f c) = true) /\
  (s_best (t_sol s) = s_best so \/ exists gen, In gen (t_gens s) /\ In (s_best (t_sol s)) gen).
Proof.
  intros HS HN HU HE HV so h s L X F W H.
  destruct (binv_run no e g HS HN HU HE HV (s_best so) h (st_from_solution no so) s) as (_ & _ & _ & _ & _ & A & B & C); auto.
  unfold binv. cbn. split; [auto|]. split; [auto|]. split; [lia|]. split; [auto|]. split; [auto|]. split; [apply dle_refl; auto|]. split; [intros gen c []|auto].
Qed.

(** Sizes. *)
Lemma warm_no_size p e g h x0 n s0 s : k_sep (p_k p) = true \/ p_upd p = Vd -> st_new (cma_num p) g x0 n = Ok s0 ->
  run_ops (cma_num p) e g h s0 = Ok s -> x_psz (s_num (t_sol (st_from_solution (cma_num p) (t_sol s)))) = 0%nat.
Proof.
  intros HSep H0 H. cbn. apply (ops_num (cma_num p) e g (fun n => x_csz n = 0%nat)) with (h := h) (s := s0); auto; cbn.
  - intros i m Q. unfold eigen_num. repeat match goal with |- context [if ?b then _ else _] => destruct b end; exact Q.
  - intros i xs m Q. rewrite Q. destruct (p_upd p) eqn:E; auto; destruct HSep as [-> | ]; try discriminate; rewrite andb_false_r; reflexivity.
  - apply st_new_num in H0. rewrite H0. reflexivity.
Qed.
Lemma warm_size p e g h x0 n s0 s : k_sep (p_k p) = false -> k_vd (p_k p) = false -> p_upd p <> Vd -> p_lazy p = false -> st_new (cma_num p) g x0 n = Ok s0 ->
  Forall (whole_gen g) h -> run_ops (cma_num p) e g h s0 = Ok s -> 0 < s_niter (t_sol s) ->
  x_psz (s_num (t_sol (st_from_solution (cma_num p) (t_sol s)))) = k_dim (p_k p).
Proof.
  intros HSep HVd HV HZ H0 HW H HI. cbn.
  assert (X : 0 <= s_niter (t_sol s) /\ (fun t m => x_fresh m = true /\ (0 < t -> x_csz m = k_dim (p_k p))) (s_niter (t_sol s)) (s_num (t_sol s))).
  { apply (iter_num_ops (cma_num p) e g (fun t m => x_fresh m = true /\ (0 < t -> x_csz m = k_dim (p_k p)))) with (h := h) (s := s0); auto; cbn.
    - intros _ _. split; [reflexivity|lia].
    - intros t i m Q. unfold eigen_num. rewrite HSep, HVd, HZ. cbn [orb negb]. rewrite orb_true_r. cbn. split; [reflexivity|apply Q].
    - intros t xs m HT [Q1 Q2]. rewrite Q1, HSep. split; [reflexivity|]. intros _. destruct (p_upd p); auto. congruence.
    - eapply Forall_impl; [|exact HW]. intros [] Q; cbn in *; auto.
    - pose proof (st_new_num _ _ _ _ _ H0) as E. apply st_new_spec in H0 as (_ & so & H0 & ->). apply sol_new_spec in H0 as (_ & ->). cbn in *. split; [lia|]. split; [reflexivity|lia]. }
  apply X, HI.
Qed.

Lemma warm_untold p g x0 n s : st_new (cma_num p) g x0 n = Ok s -> x_psz (s_num (t_sol (st_from_solution (cma_num p) (t_sol s)))) = 0%nat.
Proof. intros H. apply st_new_num in H. cbn. rewrite H. reflexivity. Qed.
Lemma with_sigma0_same p : with_sigma0 (p_sigma0 p) p = p. Proof. destruct p; reflexivity. Qed.
Lemma warm_optimize_same p e g so x0 n rf fuel :
  plain_run p e g -> same_problem p g -> good_weights (p_k p) -> pheno_keeps e g -> std_sort_ok e ->
  left_by_run (g_dim g) (g_lambda g) (g_max_hist g) so -> x_csz (s_num so) = g_dim g ->
  (1 <= g_lambda g)%nat -> (0 < p_sigma0 p)%R -> x_sigma (s_num so) = p_sigma0 p ->
  (forall i, (i < g_dim g)%nat -> init_mean p x0 i = x_mean (s_num so) i) ->
  x_pos n = x_pos (s_num so) /\ x_upos n = x_upos (s_num so) ->
  same_outcome (g_dim g) (do s <- st_new (cma_num p) g x0 n; optimize (cma_num p) e g (round (cma_num p) e g) rf fuel s)
                         (optimize (cma_num p) e g (round (cma_num p) e g) rf fuel (st_from_solution (cma_num p) so)).
Proof.
  intros A B C D E F _ L S0 S1 X Q.
  assert (S2 : (0 < x_sigma (s_num so))%R) by (rewrite S1; exact S0).
  pose proof (warm_optimize p e g so x0 n A B C D E F X Q S2 (p_sigma0 p) (eq_sym S1) rf fuel L eq_refl) as H.
  rewrite with_sigma0_same in H. exact H.
Qed.
Lemma run_snoc {T N} (no : numops T N) (e : env T N) (g : cfg T) h o : forall s0 s, run_ops no e g (h ++ [o]) s0 = Ok s ->
  exists s', run_ops no e g h s0 = Ok s' /\ do_op no e g o s' = Ok s.
Proof.
  induction h as [|o' h IH]; intros s0 s H; cbn [run_ops app] in *.
  - apply bind_ok in H as (s1 & A & B). apply Ok_inj in B. subst. eauto.
  - apply bind_ok in H as (s1 & A & B). apply IH in B as (s' & B & C). exists s'. rewrite A. auto.
Qed.
Lemma fresh_two p : p_k p = k24 -> forall x0 n, exists a b, st_new (cma_num p) (cfg_of k24) x0 n = Ok a /\ rounds (cma_num p) (cfg_of k24) point_env 2 a = Ok b.
Proof.
  intros HK x0 n. rewrite <- HK.
  assert (L2 : (2 <= k_lambda (p_k p))%nat) by (rewrite HK; cbn; lia).
  destruct (new_ok p L2 x0 n) as [a E]. exists a.
  assert (I0 : sinv (cfg_of (p_k p)) a) by (eapply sinv_new; exact E).
  assert (PT : pheno_total point_env (cfg_of (p_k p))) by (intros x _; cbn; eauto).
  assert (FX : forall i v, In (i, v) (g_fixed (cfg_of (p_k p))) -> 0 <= i < Z.of_nat (g_dim (cfg_of (p_k p)))) by (rewrite HK; intros i v []).
  assert (RS : forall b, sinv (cfg_of (p_k p)) b -> exists b', round (cma_num p) point_env (cfg_of (p_k p)) b = Ok b' /\ sinv (cfg_of (p_k p)) b').
  { apply round_safe; auto; try reflexivity; try (apply point_env_real); try (split; reflexivity); [apply dims_of; reflexivity|apply cfg_room, L2]. }
  destruct (RS a I0) as (a1 & R1 & I1). destruct (RS a1 I1) as (a2 & R2 & I2). exists a2. split; [exact E|].
  cbn [rounds]. rewrite R1. cbn [bind]. rewrite R2. reflexivity.
Qed.
Lemma warm_instance : let p := npar_of k24 Full in let g := cfg_of k24 in
  plain_run p point_env g /\ same_problem p g /\ good_weights (p_k p) /\ pheno_keeps point_env g /\ std_sort_ok point_env /\
  exists s0 s, st_new (cma_num p) g [1; 2]%R num0 = Ok s0 /\ run_ops (cma_num p) point_env g h24 s0 = Ok s /\
  let so := t_sol s in let x0 := tab 2 (x_mean (s_num so)) in
  left_by_run (g_dim g) (g_lambda g) (g_max_hist g) so /\ x_csz (s_num so) = g_dim g /\ (0 < x_sigma (s_num so))%R /\
  (forall i, (i < g_dim g)%nat -> init_mean p x0 i = x_mean (s_num so) i) /\
  exists s1, rounds (cma_num p) g point_env 2 (st_from_solution (cma_num p) so) = Ok s1.
Proof.
  intros p g.
  assert (P0 : plain_run p point_env g) by (unfold plain_run; cbn; intuition congruence).
  assert (P1 : same_problem p g) by (repeat split).
  assert (P2 : good_weights (p_k p)) by apply k24_good.
  assert (P3 : pheno_keeps point_env g) by (intros x y Hx E; cbn in E; apply Ok_inj in E; subst; exact Hx).
  assert (P4 : std_sort_ok point_env) by apply point_env_sort.
  repeat (split; [assumption|]).
  destruct (run_point p h24 ltac:(cbn; lia) eq_refl eq_refl ltac:(repeat constructor) [1; 2]%R num0) as (s0 & s & H0 & H).
  exists s0, s. split; [exact H0|]. split; [exact H|]. cbv zeta.
  assert (WG : Forall (whole_gen g) h24) by (repeat constructor).
  assert (L : left_by_run (g_dim g) (g_lambda g) (g_max_hist g) (t_sol s)) by (eapply (left_new _ _ _ p point_env g [1; 2]%R num0 s0 h24); eauto).
  split; [exact L|].
  assert (NI : 0 < s_niter (t_sol s)).
  { destruct (run_snoc (cma_num p) point_env g (firstn 4 h24) (OGen [[1; 1]; [1; 0]; [4; 4]; [0; 5]]%R []) s0 s H) as (s' & A & B).
    assert (NN : 0 <= s_niter (t_sol s')).
    { destruct (iterations_agree (cma_num p) point_env g (firstn 4 h24) _ _ _ _ H0 ltac:(repeat constructor) A) as [<- Q]. rewrite (Q eq_refl). lia. }
    cbn [do_op] in B. apply bind_ok in B as (s1 & B1 & B). apply bind_ok in B as (s2 & B2 & B). apply Ok_inj in B. subst s. cbn.
    apply eval_spec in B1 as (_ & _ & K & _). apply tell_effect in B2 as (_ & _ & _ & _ & _ & _ & _ & T2 & _). rewrite T2.
    unfold keep in K. injection K as K1 K2 K3 K4 K5 K6 K7 K8 K9 K10 K11 K12 K13 K14 K15. rewrite K9. lia. }
  assert (Z : x_csz (s_num (t_sol s)) = g_dim g) by (apply (warm_size p point_env g h24 [1; 2]%R num0 s0 s eq_refl eq_refl ltac:(discriminate) eq_refl H0 WG H NI)).
  split; [exact Z|].
  assert (SP : (0 < x_sigma (s_num (t_sol s)))%R).
  { apply (sigma_thm p point_env g h24 s0 s); [exists 2%nat, 4%nat, []; split; [lia|reflexivity]|econstructor; eauto|exact H]. }
  split; [exact SP|].
  assert (X : forall i, (i < g_dim g)%nat -> init_mean p (tab 2 (x_mean (s_num (t_sol s)))) i = x_mean (s_num (t_sol s)) i).
  { intros i Hi. destruct i as [|[|i]]; try reflexivity. cbn in Hi. lia. }
  split; [exact X|].
  pose proof (warm_rounds p point_env g (t_sol s) (tab 2 (x_mean (s_num (t_sol s)))) (s_num (t_sol s)) P0 P1 P2 P3 P4 L X (conj eq_refl eq_refl) SP _ eq_refl 1%nat ltac:(cbn; lia)) as W.
  destruct (fresh_two (with_sigma0 (x_sigma (s_num (t_sol s))) p) eq_refl (tab 2 (x_mean (s_num (t_sol s)))) (s_num (t_sol s))) as (a & a2 & E & R2).
  fold g in E, R2. rewrite E in W. cbn [bind] in W. rewrite R2 in W.
  destruct (rounds (cma_num p) g point_env 2 (st_from_solution (cma_num p) (t_sol s))) as [s1|]; [eauto|contradiction].
Qed.
