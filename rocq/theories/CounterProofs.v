(** Counters of evaluations and iterations. *)
From Verif Require Import Base Dbl DblProofs Config Search SpecSearch SortProofs SearchInv.
Local Open Scope Z_scope.

Section Counters.
Context {T N : Type}.
Variable no : numops T N.
Variable e : env T N.
Variable g : cfg T.
Notation st := (st T N).
Implicit Types (s : st).

Definition counted s := t_nevals s = Z.of_nat (length (t_log s)) /\ s_nevals (t_sol s) = Z.of_nat (length (t_log s)).

Lemma only_calls_counted s s' : only_calls s s' -> counted s -> counted s'.
Proof.
  intros (_ & _ & _ & l & L & N1 & N2) [C1 C2]. unfold counted. rewrite L, N1, N2, app_length. lia.
Qed.
Lemma eval_counted cols phen s s' : eval no e g cols phen s = Ok s' -> counted s -> counted s'.
Proof.
  intros H [C1 C2]. apply eval_spec in H as (_ & _ & _ & _ & _ & _ & _ & _ & (ys & L & _ & _ & _ & N1 & N2) & _).
  unfold counted. rewrite L, N1, N2, app_length, eval_from_length, app_length, new_points_length. lia.
Qed.
Lemma uh_nevals (s s' : sol T N) : uncertainty_handling e g s = Ok s' ->
  s_nevals s' = s_nevals s /\ s_niter s' = s_niter s /\ s_hist s' = s_hist s /\ s_khist s' = s_khist s /\
  s_bf s' = s_bf s /\ s_med s' = s_med s /\ s_best s' = s_best s /\ s_best_iter s' = s_best_iter s /\ s_worst s' = s_worst s /\
  s_init s' = s_init s /\ s_kcand s' = s_kcand s /\ s_maxhist s' = s_maxhist s /\ s_status s' = s_status s /\ s_num s' = s_num s /\
  s_reev s' = s_reev s /\ s_tpa1 s' = s_tpa1 s /\ s_tpa2 s' = s_tpa2 s.
Proof. unfold uncertainty_handling. intros H. do 4 inv_do H. injection H as <-. repeat split. Qed.
(** Fields no step of tell touches before the histories. *)
Lemma tell_effect s s' : tell no e g s = Ok s' ->
  t_log s' = t_log s /\ t_gens s' = t_gens s /\ t_nevals s' = t_nevals s /\ t_niter s' = t_niter s /\ t_initel s' = t_initel s /\ t_x0 s' = t_x0 s /\
  s_nevals (t_sol s') = s_nevals (t_sol s) /\ s_niter (t_sol s') = s_niter (t_sol s) /\ s_init (t_sol s') = s_init (t_sol s) /\
  s_kcand (t_sol s') = s_kcand (t_sol s) /\ s_maxhist (t_sol s') = s_maxhist (t_sol s) /\ s_status (t_sol s') = s_status (t_sol s) /\
  (g_uh g = false -> s_cands (t_sol s') = sort_cands (s_cands (t_sol s)) /\ compares_ok (s_cands (t_sol s)) = true) /\
  exists c0 ck cl m rest lim,
    let cs := s_cands (t_sol s') in
    nth_error cs 0 = Some c0 /\ 0 <= s_kcand (t_sol s) /\ nth_error cs (Z.to_nat (s_kcand (t_sol s))) = Some ck /\ cs = rest ++ [cl] /\
    s_hist (t_sol s') = drop_if (s_maxhist (t_sol s) <? Z.of_nat (length (s_hist (t_sol s) ++ [c0]))) (s_hist (t_sol s) ++ [c0]) /\
    s_khist (t_sol s') = drop_if (s_maxhist (t_sol s) <? Z.of_nat (length (s_hist (t_sol s) ++ [c0]))) (s_khist (t_sol s) ++ [ck]) /\
    s_bf (t_sol s') = drop_if (20 <? Z.of_nat (length (s_bf (t_sol s) ++ [c_f c0]))) (s_bf (t_sol s) ++ [c_f c0]) /\
    s_med (t_sol s') = drop_if (lim <? Z.of_nat (length (s_med (t_sol s) ++ [m]))) (s_med (t_sol s) ++ [m]) /\
    s_best (t_sol s') = (if best_take (t_sol s) c0 then c0 else s_best (t_sol s)) /\
    s_best_iter (t_sol s') = (if best_take (t_sol s) c0 then Some (s_niter (t_sol s)) else s_best_iter (t_sol s)) /\
    s_worst (t_sol s') = (if worst_take (t_sol s) cl then cl else s_worst (t_sol s)) /\
    (exists nn, let n := Z.of_nat (length cs) in
       lim = cdiv (n * s_niter (t_sol s) + 600 * n + 150 * Z.of_nat (length (n_xmean no nn))) (5 * n)) /\
    (let n := length cs in
     if Nat.even n then exists a b, nth_error cs (n / 2 - 1) = Some a /\ nth_error cs (n / 2) = Some b /\ m = dhalf (dadd (c_f a) (c_f b))
     else exists a, nth_error cs (n / 2) = Some a /\ m = c_f a).
Proof.
  intros H. apply tell_spec in H as (s1 & s2 & s3 & n4 & R & E2 & U & -> & _).
  assert (F : s_nevals s1 = s_nevals (t_sol s) /\ s_niter s1 = s_niter (t_sol s) /\ s_hist s1 = s_hist (t_sol s) /\ s_khist s1 = s_khist (t_sol s) /\
    s_bf s1 = s_bf (t_sol s) /\ s_med s1 = s_med (t_sol s) /\ s_best s1 = s_best (t_sol s) /\ s_best_iter s1 = s_best_iter (t_sol s) /\
    s_worst s1 = s_worst (t_sol s) /\ s_init s1 = s_init (t_sol s) /\ s_kcand s1 = s_kcand (t_sol s) /\ s_maxhist s1 = s_maxhist (t_sol s) /\
    s_status s1 = s_status (t_sol s) /\ (g_uh g = false -> s_cands s1 = sort_cands (s_cands (t_sol s)) /\ compares_ok (s_cands (t_sol s)) = true)).
  { destruct R as [(Eu & Ec & ->)|(Eu & R)].
    - repeat (split; [reflexivity|]). auto.
    - apply uh_nevals in R. decompose [and] R. repeat (split; [assumption|]). congruence. }
  assert (G : s_nevals s2 = s_nevals (t_sol s) /\ s_niter s2 = s_niter (t_sol s) /\ s_hist s2 = s_hist (t_sol s) /\ s_khist s2 = s_khist (t_sol s) /\
    s_bf s2 = s_bf (t_sol s) /\ s_med s2 = s_med (t_sol s) /\ s_best s2 = s_best (t_sol s) /\ s_best_iter s2 = s_best_iter (t_sol s) /\
    s_worst s2 = s_worst (t_sol s) /\ s_init s2 = s_init (t_sol s) /\ s_kcand s2 = s_kcand (t_sol s) /\ s_maxhist s2 = s_maxhist (t_sol s) /\
    s_status s2 = s_status (t_sol s) /\ (g_uh g = false -> s_cands s2 = sort_cands (s_cands (t_sol s)) /\ compares_ok (s_cands (t_sol s)) = true)).
  { rewrite E2. destruct ((g_tpa g =? 2) && (0 <? t_niter s)); exact F. }
  clear F R E2. destruct G as (G1 & G2 & G3 & G4 & G5 & G6 & G7 & G8 & G9 & G10 & G11 & G12 & G13 & G14).
  apply ubc_spec in U as (K & c0 & ck & cl & m & rest & U1 & U2 & U3 & U4 & U5 & U6 & U7 & U8 & U9 & U10 & U11 & U12).
  unfold kept_by_tell in K. injection K as K1 K2 K3 K4 K5 K6 K7 K8 K9 K10 K11 K12 K13.
  do 6 (split; [reflexivity|]).
  cbn [t_sol set_t_sol s_nevals set_s_num s_niter s_init s_kcand s_maxhist s_status s_cands s_hist s_khist s_bf s_med s_best s_best_iter s_worst].
  do 6 (split; [congruence|]). split; [rewrite K1; auto|].
  exists c0, ck, cl, m, rest, (med_lim no s2). rewrite K1.
  unfold best_take, worst_take in *. rewrite G2, G7, G8, G9 in *. rewrite G3, G4, G5, G6, G11, G12 in *.
  split; [auto|]. split; [auto|]. split; [auto|]. split; [auto|].
  do 7 (split; [assumption|]). split; [|assumption].
  exists (s_num s2). unfold med_lim. rewrite G2. reflexivity.
Qed.
Lemma tell_counted s s' : tell no e g s = Ok s' -> counted s -> counted s'.
Proof. intros H. apply tell_effect in H. unfold counted. decompose [and] H. congruence. Qed.
Lemma stop_counted s b s' : stop no e g s = Ok (b, s') -> counted s -> counted s'.
Proof. intros H. apply stop_spec in H as [(_ & -> & _)|(_ & _ & [(_ & _ & ->)|(_ & r & _ & _ & ->)])]; auto. Qed.
Lemma init_counted s s' : eval_initial no e g s = Ok s' -> counted s -> counted s'.
Proof.
  intros H [C1 C2]. apply eval_initial_spec in H as [(_ & ->)|(_ & y & _ & ->)]; [split; auto|].
  unfold counted. cbn. rewrite app_length. cbn. lia.
Qed.
Lemma reinit_counted s s' : reinit no g s = Ok s' -> counted s -> counted s'.
Proof.
  intros H [C1 C2]. apply reinit_spec in H as (so & _ & ->). unfold counted. cbn. auto.
Qed.
Lemma optimize_counted rf fuel s r s' : optimize no e g (round no e g) rf fuel s = Ok (r, s') -> counted s -> counted s'.
Proof.
  intros H C. refine (P_optimize no e g counted (fun _ => True) _ _ _ _ _ _ _ rf fuel s r s' C H); auto; intros.
  - apply ask_spec in H1 as (O & _). eapply only_calls_counted; eauto.
  - eapply eval_counted in H2; auto. eapply tell_counted in H3; auto.
  - eapply stop_counted; eauto.
  - eapply init_counted; eauto.
  - apply edm_spec in H1 as (O & _). eapply only_calls_counted; eauto.
  - eapply reinit_counted; eauto.
Qed.
Lemma op_counted o s s' : do_op no e g o s = Ok s' -> counted s -> counted s'.
Proof.
  destruct o; cbn [do_op]; intros H C.
  - inv_do H. destruct a. injection H as <-. apply ask_spec in H0 as (O & _). eapply only_calls_counted; eauto.
  - eapply eval_counted; eauto.
  - eapply tell_counted; eauto.
  - injection H as <-. destruct C; split; auto.
  - inv_do H. destruct a. injection H as <-. eapply stop_counted; eauto.
  - inv_do H. inv_do H. injection H as <-. eapply eval_counted in H0; auto. eapply tell_counted in H1; auto.
  - inv_do H. destruct a. injection H as <-. eapply optimize_counted; eauto.
Qed.
Lemma ops_counted h : forall s s', run_ops no e g h s = Ok s' -> counted s -> counted s'.
Proof.
  induction h as [|o h IH]; cbn; intros s s' H C; [injection H as <-; auto|].
  inv_do H. eapply IH; eauto. eapply op_counted; eauto.
Qed.
Lemma st_new_spec x0 n s : st_new no g x0 n = Ok s ->
  g_lambda g <> 0%nat /\ exists so, sol_new no g x0 n = Ok so /\ s = mkSt so 0 0 false x0 [] [].
Proof.
  unfold st_new. intros H. inv_do H. injection H as <-. split; [|eauto].
  unfold sol_new in H0. destruct (Z.eqb_spec (Z.of_nat (g_lambda g)) 0); [discriminate|lia].
Qed.
Lemma sol_new_spec x0 n so : sol_new no g x0 n = Ok so ->
  (1 <= g_lambda g)%nat /\
  so = mkSol (repeat cand0 (g_lambda g)) [] [] [] [] cand0 None cand0 cand0 0 0
    (Z.min (Z.of_nat (g_lambda g) - 1) (1 + cdiv (2 + 5 * Z.of_nat (g_lambda g)) 20))
    (if 0 <? g_max_hist g then g_max_hist g else 10 + 30 * Z.of_nat (g_dim g) / Z.of_nat (g_lambda g))
    0 [] 0 0 0 1 (n_new no x0 n).
Proof.
  unfold sol_new. destruct (Z.eqb_spec (Z.of_nat (g_lambda g)) 0); [discriminate|].
  intros H; injection H as <-. split; [lia|auto].
Qed.

Theorem fevals_exact h x0 n s0 s : st_new no g x0 n = Ok s0 -> run_ops no e g h s0 = Ok s ->
  t_nevals s = Z.of_nat (length (t_log s)) /\ s_nevals (t_sol s) = Z.of_nat (length (t_log s)).
Proof.
  intros H0 H. eapply ops_counted; eauto. apply st_new_spec in H0 as (_ & so & H0 & ->).
  apply sol_new_spec in H0 as (_ & ->). split; reflexivity.
Qed.
Theorem fevals_exact_from h (so : sol T N) s : run_ops no e g h (st_from_solution no so) = Ok s ->
  t_nevals s = Z.of_nat (length (t_log s)) /\ s_nevals (t_sol s) = Z.of_nat (length (t_log s)).
Proof. intros H. eapply ops_counted; eauto. split; reflexivity. Qed.

(** * Iteration counters *)
Definition same_iter s := t_niter s = s_niter (t_sol s) /\ 0 <= t_niter s.
Definition gens_iter s := e_restart (g_elit g) = false -> t_niter s = Z.of_nat (length (t_gens s)).
Lemma keep_iter s s' : keep s' = keep s -> s_niter (t_sol s') = s_niter (t_sol s) /\ t_niter s' = t_niter s.
Proof. unfold keep. intros H; injection H as K1 K2 K3 K4 K5 K6 K7 K8 K9 K10 K11 K12 K13 K14 K15. auto. Qed.
Lemma iter_ops h s s' : Forall (okop (fun _ => True)) h ->
  same_iter s /\ gens_iter s -> run_ops no e g h s = Ok s' -> same_iter s' /\ gens_iter s'.
Proof.
  intros W C H. refine (P_ops no e g (fun s => same_iter s /\ gens_iter s) (fun _ => True) _ _ _ _ _ _ _ h s s' W C H); auto;
    clear; unfold same_iter, gens_iter; intros.
  - apply ask_spec in H0 as ((K & G & _) & _). apply keep_iter in K as [-> ->]. rewrite G. auto.
  - apply eval_spec in H1 as (_ & _ & K & G & _). apply tell_effect in H2.
    destruct H2 as (_ & G2 & _ & I2 & _ & _ & _ & I3 & _). cbn. rewrite I2, I3, G2, G, app_length. cbn [length].
    apply keep_iter in K as [-> ->]. destruct H as [[H H'] H0']. split; [lia|]. intros E. rewrite H0' by auto. lia.
  - apply stop_spec in H0 as [(_ & -> & _)|(_ & _ & [(_ & _ & ->)|(_ & r & _ & _ & ->)])]; auto.
  - apply eval_initial_spec in H0 as [(_ & ->)|(_ & y & _ & ->)]; auto.
  - apply edm_spec in H0 as ((K & G & _) & _). apply keep_iter in K as [-> ->]. rewrite G. auto.
  - unfold restart_wanted in H0. destruct (e_restart (g_elit g)); [|discriminate].
    apply reinit_spec in H1 as (so & E & ->). apply sol_new_spec in E as (_ & ->). cbn. split; [lia|discriminate].
Qed.
Theorem iterations_agree h x0 n s0 s : st_new no g x0 n = Ok s0 -> Forall (okop (fun _ => True)) h -> run_ops no e g h s0 = Ok s ->
  t_niter s = s_niter (t_sol s) /\ (e_restart (g_elit g) = false -> t_niter s = Z.of_nat (length (t_gens s))).
Proof.
  intros H0 W H. edestruct iter_ops as [A B]; [exact W| |exact H|].
  - apply st_new_spec in H0 as (_ & so & H0 & ->). apply sol_new_spec in H0 as (_ & ->). split; [split; reflexivity|intros _; reflexivity].
  - destruct A. split; auto.
Qed.
End Counters.
