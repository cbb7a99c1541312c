(** Budgets and termination of optimize(). *)
From Verif Require Import Base Dbl DblProofs Config Search SpecSearch SpecStop SpecSafe SortProofs SearchInv CounterProofs HistProofs StopProofs SafeProofs.
Local Open Scope Z_scope.

Definition nodiv {A} (r : res A) : Prop := r <> Fault Diverges.
Lemma nodiv_ok {A} (a : A) : nodiv (Ok a). Proof. discriminate. Qed.
Lemma nodiv_fault {A} f : f <> Diverges -> nodiv (@Fault A f). Proof. intros H Q. injection Q. auto. Qed.
Lemma nodiv_bind {A B} (m : res A) (k : A -> res B) : nodiv m -> (forall a, m = Ok a -> nodiv (k a)) -> nodiv (bind m k).
Proof. unfold nodiv. destruct m as [a|f]; cbn; intros H1 H2; [apply H2; auto|]. intros Q; injection Q as ->; auto. Qed.
Lemma nodiv_at {A} (l : list A) i : nodiv (at_ l i).
Proof. unfold at_. destruct (_ <? _); [apply nodiv_fault; discriminate|]. destruct (nth_error _ _); [apply nodiv_ok|apply nodiv_fault; discriminate]. Qed.
Lemma nodiv_upd {A} (l : list A) i a : nodiv (upd_at l i a).
Proof. unfold upd_at. destruct (_ || _); [apply nodiv_fault; discriminate|apply nodiv_ok]. Qed.
Lemma nodiv_mapM {A B} (f : A -> res B) l : (forall a, nodiv (f a)) -> nodiv (mapM f l).
Proof.
  intros H. induction l as [|a l IH]; cbn; [apply nodiv_ok|]. apply nodiv_bind; auto. intros b _. apply nodiv_bind; auto. intros; apply nodiv_ok.
Qed.
Lemma nodiv_recent {A} k (l : list A) : nodiv (recent k l).
Proof. induction k; cbn; [apply nodiv_ok|]. apply nodiv_bind; [apply nodiv_at|]. intros. apply nodiv_bind; auto. intros; apply nodiv_ok. Qed.
Ltac nd := repeat first
  [ apply nodiv_ok | apply nodiv_at | apply nodiv_upd | apply nodiv_recent | (apply nodiv_fault; discriminate)
  | (apply nodiv_bind; [|intros]) | match goal with |- nodiv (if ?b then _ else _) => destruct b end
  | match goal with |- nodiv (let (_, _) := ?x in _) => destruct x end
  | match goal with |- nodiv (match ?x with _ => _ end) => destruct x end | progress cbv zeta ].

Section Run.
Context {T N : Type}.
Variable no : numops T N.
Variable e : env T N.
Variable g : cfg T.
Notation st := (st T N).
Implicit Types (s : st).

Section NoDiv.
Hypothesis HP : forall x, nodiv (e_pheno e x).
Lemma nodiv_fix fx : forall pop : list (list T), nodiv (fix_rows fx pop).
Proof. induction fx as [|[i v] fx IH]; cbn; intros; [apply nodiv_ok|]. apply nodiv_bind; auto. apply nodiv_mapM. intros; apply nodiv_upd. Qed.
Lemma nodiv_ask s : nodiv (ask no e g s).
Proof. unfold ask. nd; try apply HP; unfold set_col; nd; apply nodiv_fix. Qed.
Lemma nodiv_eval_cols cols : forall r phen s, nodiv (eval_cols e r cols phen s).
Proof. induction cols as [|x cols IH]; intros; cbn [eval_cols]; [apply nodiv_ok|]. nd; auto. Qed.
Lemma nodiv_eval_uh n : forall r muts s, nodiv (eval_uh e r n muts s).
Proof. induction n as [|n IH]; intros; cbn [eval_uh]; [apply nodiv_ok|]. nd; auto. Qed.
Lemma nodiv_eval cols phen s : nodiv (eval no e g cols phen s).
Proof.
  unfold eval. apply nodiv_bind; [apply nodiv_eval_cols|]. intros s1 _. cbv zeta. apply nodiv_bind.
  - destruct (g_uh g); [|apply nodiv_ok]. unfold perform_uh. nd; apply nodiv_eval_uh.
  - intros s2 _. apply nodiv_bind; [|intros; apply nodiv_ok]. unfold elitist. nd.
Qed.
Lemma nodiv_tell s : nodiv (tell no e g s).
Proof.
  unfold tell. apply nodiv_bind.
  - unfold uncertainty_handling, sort_candidates, std_sort. nd. apply nodiv_mapM. intros; apply nodiv_at.
  - intros s1 _. cbv zeta. apply nodiv_bind; [|intros; apply nodiv_ok].
    unfold update_best_candidates, update_hist, update_medians, update_seen. nd.
Qed.
Lemma nodiv_round s : nodiv (round no e g s).
Proof.
  unfold round. apply nodiv_bind; [apply nodiv_ask|]. intros [pop s1] _. apply nodiv_bind; [apply nodiv_mapM, HP|]. intros ph _.
  apply nodiv_bind; [apply nodiv_eval|]. intros s2 _. apply nodiv_bind; [apply nodiv_tell|]. intros; apply nodiv_ok.
Qed.
Lemma nodiv_median l : nodiv (median l). Proof. unfold median. nd. Qed.
Lemma nodiv_stop s : nodiv (stop no e g s).
Proof.
  unfold stop. nd. generalize (g_flags g). induction l as [|[c a] fl IH]; cbn [stop_scan]; [apply nodiv_ok|].
  destruct a; auto. apply nodiv_bind; [|intros b _; destruct b; [apply nodiv_ok|auto]].
  unfold criterion, tol_hist_fun_crit, equal_fun_vals_crit, stagnation_crit. nd; apply nodiv_median.
Qed.
Lemma nodiv_init s : nodiv (eval_initial no e g s).
Proof. unfold eval_initial. nd. apply HP. Qed.
Lemma nodiv_edm s : nodiv (edm no e g s).
Proof. unfold edm. nd. apply HP. Qed.
End NoDiv.

(** Effect of one round on the counters. *)
Lemma round_counts s s' : samples_ok no -> round no e g s = Ok s' ->
  s_niter (t_sol s') = s_niter (t_sol s) + 1 /\ t_niter s' = t_niter s + 1 /\ length (t_gens s') = S (length (t_gens s)) /\
  t_nevals s + Z.of_nat (g_lambda g) <= t_nevals s' <= t_nevals s + generation_calls e g /\
  t_nevals s' - t_nevals s = s_nevals (t_sol s') - s_nevals (t_sol s) /\
  s_status (t_sol s') = s_status (t_sol s) /\ t_initel s' = t_initel s /\
  (forall i, s_best_iter (t_sol s') = Some i -> s_best_iter (t_sol s) = Some i \/ i = s_niter (t_sol s)).
Proof.
  intros HS H. unfold round in H. inv_do H. destruct a as [pop s1]. inv_do H. rename a into ph. inv_do H. rename a into s2. inv_do H. rename a into s3.
  injection H as <-. cbn [fst snd] in *.
  apply ask_spec in H0 as ((K & G & _ & l & L & N1 & N2) & LP & LL). specialize (LP HS).
  apply eval_spec in H2 as (_ & _ & K2 & G2 & _ & _ & _ & _ & (ys & L2 & Y1 & Y2 & Y3 & N3 & N4) & _).
  apply tell_effect in H3 as (_ & G3 & T1 & T2 & T3 & _ & T4 & T5 & _ & _ & _ & T6 & _ & c0 & ck & cl & m & rest & lim & _ & _ & _ & _ & _ & _ & _ & _ & _ & BI & _).
  unfold keep in K, K2. injection K as K1 K3 K4 K5 K6 K7 K8 K9 K10 K11 K12 K13 K14 K15 K16.
  injection K2 as J1 J3 J4 J5 J6 J7 J8 J9 J10 J11 J12 J13 J14 J15 J16.
  cbn [inc_iter t_sol set_t_sol s_niter set_s_niter t_niter set_t_niter t_gens t_nevals s_nevals s_status t_initel s_best_iter].
  split; [congruence|]. split; [congruence|]. split; [rewrite G3, G2, G, app_length; cbn; lia|].
  split.
  { rewrite T1, N3, N1, LP. rewrite L, app_length in LL.
    assert (Hg : Z.of_nat (length l) = if g_gradient g then gradient_calls e g else 0).
    { unfold grad_cost in LL. unfold gradient_calls. destruct (g_gradient g), (e_gfunc e); cbn in LL; lia. }
    rewrite Hg. unfold generation_calls, gradient_calls in *. destruct (g_uh g).
    - destruct (g_gradient g), (e_gfunc e); lia.
    - rewrite Y1 by auto. cbn [length]. destruct (g_gradient g), (e_gfunc e); lia. }
  split; [lia|]. split; [congruence|]. split; [congruence|].
  intros i. rewrite BI. destruct (best_take _ _); [intros Q; injection Q as <-; right; congruence|left; congruence].
Qed.
Lemma stop_same s b s' : stop no e g s = Ok (b, s') -> exists r, s' = set_t_sol (set_s_status r (t_sol s)) s.
Proof.
  intros H. apply stop_spec in H as [(_ & -> & _)|(_ & _ & [(_ & _ & ->)|(_ & r & _ & _ & ->)])]; eauto;
    exists (s_status (t_sol s)); destruct s as [[] ? ? ? ? ? ?]; auto.
Qed.
Lemma continue_cond c s s' : flags_wf g -> active g c -> stop no e g s = Ok (false, s') -> t_niter s <> 0 -> criterion no g c (t_sol s) = Ok false.
Proof.
  intros Hf Ha H Ht. apply stop_spec in H as [(E & _)|(_ & _ & [(E & _)|(E & r & Hs & Hr & ->)])]; try congruence.
  symmetry in Hr. apply negb_false_iff, Z.eqb_eq in Hr. subst r.
  eapply scan_none; eauto. rewrite Hf. apply codes_nonzero.
Qed.
Lemma continue_iter m s s' : flags_wf g -> active g 9 -> g_max_iter g = m -> m <> -1 -> stop no e g s = Ok (false, s') -> t_niter s <> 0 -> s_niter (t_sol s) < m.
Proof.
  intros Hf Ha Hm Hm1 H Ht. apply (continue_cond 9) in H; auto. cbn in H. injection H as H. unfold max_iter_crit in H. rewrite Hm in H.
  apply andb_false_iff in H as [H|H]; [apply negb_false_iff, Z.eqb_eq in H; lia|apply Z.leb_gt in H; lia].
Qed.
Lemma continue_evals m s s' : flags_wf g -> active g 8 -> g_max_fevals g = m -> m <> -1 -> stop no e g s = Ok (false, s') -> t_niter s <> 0 -> s_nevals (t_sol s) < m.
Proof.
  intros Hf Ha Hm Hm1 H Ht. apply (continue_cond 8) in H; auto. cbn in H. injection H as H. unfold max_fevals_crit in H. rewrite Hm in H.
  apply andb_false_iff in H as [H|H]; [apply negb_false_iff, Z.eqb_eq in H; lia|apply Z.leb_gt in H; lia].
Qed.

(** Invariant of a run: counters agree. *)
Definition cnt s := t_niter s = s_niter (t_sol s) /\ 0 <= t_niter s /\ t_nevals s = s_nevals (t_sol s) /\
  (forall i, s_best_iter (t_sol s) = Some i -> 0 <= i).
Lemma cnt_stop s b s' : cnt s -> stop no e g s = Ok (b, s') -> cnt s' /\ t_niter s' = t_niter s /\ t_nevals s' = t_nevals s /\ t_gens s' = t_gens s.
Proof. intros H Hs. apply stop_same in Hs as [r ->]. split; [exact H|auto]. Qed.
Lemma cnt_round s s' : samples_ok no -> cnt s -> round no e g s = Ok s' -> cnt s'.
Proof.
  intros HS (C1 & C2 & C3 & C4) H. apply round_counts in H as (R1 & R2 & R3 & R4 & R5 & R6 & R7 & R8); auto.
  unfold cnt. repeat split; try lia. intros i Hi. apply R8 in Hi as [Hi| ->]; [auto|lia].
Qed.

Lemma loop_iter_bound m : samples_ok no -> flags_wf g -> active g 9 -> g_max_iter g = m -> m <> -1 ->
  forall fuel s s', loop no e g (round no e g) fuel s = Ok s' -> cnt s ->
  cnt s' /\ t_niter s' - t_niter s = Z.of_nat (length (t_gens s')) - Z.of_nat (length (t_gens s)) /\ t_niter s <= t_niter s' <= Z.max (t_niter s) (Z.max 1 m).
Proof.
  intros HS Hf Ha Hm Hm1. induction fuel as [|fuel IH]; cbn; intros s s' H C; [discriminate|].
  inv_do H. destruct a as [b s1]. cbn [fst snd] in H. destruct (cnt_stop _ _ _ C H0) as (C1 & N1 & N2 & N3).
  destruct b; [injection H as <-; rewrite N1, N3; split; auto; lia|].
  inv_do H. pose proof (cnt_round _ _ HS C1 H1) as C2. apply round_counts in H1 as (R1 & R2 & R3 & _); auto.
  apply IH in H as (D1 & D2 & D3); auto. split; auto. split; [rewrite N3 in R3; lia|].
  assert (t_niter s < Z.max 1 m); [|lia].
  destruct (Z.eq_dec (t_niter s) 0); [lia|]. destruct C as (C & _). eapply continue_iter in H0; eauto. lia.
Qed.
Lemma loop_evals_bound m : samples_ok no -> flags_wf g -> active g 8 -> g_max_fevals g = m -> m <> -1 ->
  forall fuel s s', loop no e g (round no e g) fuel s = Ok s' -> cnt s ->
  cnt s' /\ t_nevals s <= t_nevals s' /\
  t_nevals s' <= (if t_niter s =? 0 then Z.max (t_nevals s) (m - 1) else Z.max (t_nevals s - generation_calls e g) (m - 1)) + generation_calls e g.
Proof.
  intros HS Hf Ha Hm Hm1.
  assert (G0 : 0 <= generation_calls e g).
  { unfold generation_calls, gradient_calls. destruct (g_uh g), (g_gradient g), (e_gfunc e); lia. }
  induction fuel as [|fuel IH]; cbn [loop]; intros s s' H C; [discriminate|].
  inv_do H. destruct a as [b s1]. cbn [fst snd] in H. destruct (cnt_stop _ _ _ C H0) as (C1 & N1 & N2 & N3).
  destruct b; [injection H as <-; rewrite N2; split; auto; destruct (t_niter s =? 0); lia|].
  inv_do H. pose proof (cnt_round _ _ HS C1 H1) as C2. apply round_counts in H1 as (R1 & R2 & R3 & R4 & _); auto.
  apply IH in H as (D1 & D2 & D3); auto. split; auto. split; [lia|].
  destruct (Z.eqb_spec (t_niter a) 0) as [E|E]; [destruct C as (_ & C & _); lia|].
  destruct (Z.eqb_spec (t_niter s) 0) as [E'|E']; [lia|].
  destruct C as (CA & CB & CC & CD). eapply continue_evals in H0; eauto. lia.
Qed.

(** Termination of the loop. *)
Lemma loop_terminates_iter m : samples_ok no -> (forall x, nodiv (e_pheno e x)) -> flags_wf g -> active g 9 -> g_max_iter g = m -> m <> -1 ->
  forall fuel s, cnt s -> Z.max 1 m - t_niter s < Z.of_nat fuel -> (1 <= fuel)%nat -> nodiv (loop no e g (round no e g) fuel s).
Proof.
  intros HS HP Hf Ha Hm Hm1. induction fuel as [|fuel IH]; cbn [loop]; intros s C Hfu H1; [lia|].
  apply nodiv_bind; [apply nodiv_stop|]. intros [b s1] Es. cbn [fst snd]. destruct b; [apply nodiv_ok|].
  destruct (cnt_stop _ _ _ C Es) as (C1 & N1 & N2 & N3).
  apply nodiv_bind; [apply nodiv_round; auto|]. intros s2 Er. pose proof (cnt_round _ _ HS C1 Er) as C2. apply round_counts in Er as (R1 & R2 & R3 & _); auto.
  assert (t_niter s < Z.max 1 m).
  { destruct (Z.eq_dec (t_niter s) 0); [lia|]. destruct C as (C & _). eapply continue_iter in Es; eauto. lia. }
  apply IH; auto; lia.
Qed.
Lemma loop_terminates_evals m : samples_ok no -> (1 <= g_lambda g)%nat -> (forall x, nodiv (e_pheno e x)) -> flags_wf g -> active g 8 -> g_max_fevals g = m -> m <> -1 ->
  forall fuel s, cnt s -> (if t_niter s =? 0 then 2 else 1) + Z.max 0 (m - t_nevals s) <= Z.of_nat fuel -> nodiv (loop no e g (round no e g) fuel s).
Proof.
  intros HS Hl HP Hf Ha Hm Hm1. induction fuel as [|fuel IH]; cbn [loop]; intros s C Hfu; [destruct (t_niter s =? 0); lia|].
  apply nodiv_bind; [apply nodiv_stop|]. intros [b s1] Es. cbn [fst snd]. destruct b; [apply nodiv_ok|].
  destruct (cnt_stop _ _ _ C Es) as (C1 & N1 & N2 & N3).
  apply nodiv_bind; [apply nodiv_round; auto|]. intros s2 Er. pose proof (cnt_round _ _ HS C1 Er) as C2. apply round_counts in Er as (R1 & R2 & R3 & R4 & _); auto.
  apply IH; auto. destruct (Z.eqb_spec (t_niter s2) 0); [destruct C as (_ & C & _); lia|].
  destruct (Z.eqb_spec (t_niter s) 0); [lia|]. destruct C as (CA & CB & CC & CD). eapply continue_evals in Es; eauto. lia.
Qed.

Lemma cnt_new x0 n s : st_new no g x0 n = Ok s -> cnt s /\ t_gens s = [] /\ t_log s = [] /\ t_nevals s = 0 /\ t_niter s = 0 /\ t_initel s = false /\ s_status (t_sol s) = 0 /\ (1 <= g_lambda g)%nat.
Proof.
  intros H. apply st_new_spec in H as (Hl & so & H & ->). apply sol_new_spec in H as (_ & ->). unfold cnt; cbn. repeat split; auto; try lia; discriminate.
Qed.
Lemma cnt_init s s' : cnt s -> eval_initial no e g s = Ok s' ->
  cnt s' /\ t_gens s' = t_gens s /\ t_niter s' = t_niter s /\ s_status (t_sol s') = s_status (t_sol s) /\ t_nevals s <= t_nevals s' <= t_nevals s + 1 /\ t_initel s' = t_initel s /\
  (t_initel s = false -> t_nevals s' = t_nevals s + initial_calls g).
Proof.
  intros H Hi. apply eval_initial_spec in Hi as [(W & ->)|(W & y & _ & ->)].
  - split; [exact H|]. split; [reflexivity|]. split; [reflexivity|]. split; [reflexivity|]. split; [lia|]. split; [reflexivity|]. intros Q. unfold wants_init in W. rewrite Q in W. unfold initial_calls. cbn [orb] in W. rewrite W. lia.
  - destruct H as (C1 & C2 & C3 & C4). split; [unfold cnt; cbn; repeat split; auto; lia|]. cbn. do 3 (split; [reflexivity|]). split; [lia|]. split; [reflexivity|]. intros Q. unfold wants_init in W. rewrite Q in W. unfold initial_calls. cbn [orb] in W. rewrite W. lia.
Qed.
Lemma cnt_edm s s' : cnt s -> edm no e g s = Ok s' -> cnt s' /\ t_gens s' = t_gens s /\ t_niter s' = t_niter s /\ t_nevals s' = t_nevals s + gradient_calls e g /\
  s_best_iter (t_sol s') = s_best_iter (t_sol s).
Proof.
  intros (C1 & C2 & C3 & C4) H. apply edm_spec in H as ((K & G & _ & l & L & N1 & N2) & LL). unfold keep in K.
  injection K as K1 K2 K3 K4 K5 K6 K7 K8 K9 K10 K11 K12 K13 K14 K15. rewrite L, app_length in LL.
  split; [unfold cnt; rewrite K9, K13, K6; repeat split; auto; lia|]. repeat split; auto.
  unfold gradient_calls, edm_cost in *. destruct (e_gfunc e); lia.
Qed.

Theorem max_iter_respected m x0 n s0 rf fuel r s : samples_ok no -> flags_wf g -> active g 9 -> g_max_iter g = m -> m <> -1 ->
  e_restart (g_elit g) = false -> st_new no g x0 n = Ok s0 -> optimize no e g (round no e g) rf fuel s0 = Ok (r, s) ->
  t_niter s = Z.of_nat (length (t_gens s)) /\ s_niter (t_sol s) = t_niter s /\ t_niter s <= Z.max 1 m /\
  ((forall so, e_progress e so = 0) -> 1 <= t_niter s).
Proof.
  intros HS Hf Ha Hm Hm1 He H0 H. apply cnt_new in H0 as (C0 & G0 & L0 & N0 & I0 & IE & S0 & _).
  apply optimize_unfold in H as (s1 & s2 & s3 & w & H1 & H2 & H3 & H4 & H5 & H6).
  destruct (cnt_init _ _ C0 H1) as (C1 & G1 & I1 & S1 & _).
  pose proof (loop_iter_bound m HS Hf Ha Hm Hm1 _ _ _ H2 C1) as (C2 & G2 & I2).
  assert (X : cnt s3 /\ t_gens s3 = t_gens s2 /\ t_niter s3 = t_niter s2).
  { destruct (g_edm g); [destruct (cnt_edm _ _ C2 H3) as (? & ? & ? & _); auto|subst; auto]. }
  destruct X as (C3 & G3 & I3).
  unfold restart_wanted in H4. rewrite He in H4. cbn in H4. injection H4 as <-.
  destruct H5 as [[_ ->]|(Q & _)]; [|discriminate].
  rewrite G1, G0, I1, I0 in *. cbn [length] in G2. rewrite G3, I3. split; [lia|]. split; [destruct C3; lia|]. split; [lia|].
  intros Hpr. destruct fuel as [|fuel]; cbn [loop] in H2; [discriminate|]. inv_do H2. destruct a as [b s1']. cbn [fst snd] in H2.
  destruct b.
  - apply stop_spec in H as [(_ & _ & [Q|Q])|(_ & _ & [(_ & Q & _)|(Q & _)])]; [lia|rewrite Hpr in Q; lia|discriminate|lia].
  - apply bind_ok in H2. destruct H2 as (a & H7 & H2). destruct (cnt_stop _ _ _ C1 H) as (C1' & N1 & N2 & N3). pose proof (cnt_round _ _ HS C1' H7) as C4. apply round_counts in H7 as (R1 & R2 & R3 & _); auto.
    apply (loop_iter_bound m HS Hf Ha Hm Hm1) in H2 as (_ & _ & H2); auto. lia.
Qed.

Theorem max_fevals_respected m x0 n s0 rf fuel r s : samples_ok no -> flags_wf g -> active g 8 -> g_max_fevals g = m -> 1 <= m ->
  e_restart (g_elit g) = false -> st_new no g x0 n = Ok s0 -> optimize no e g (round no e g) rf fuel s0 = Ok (r, s) ->
  Z.of_nat (length (t_log s)) < m + generation_calls e g + initial_calls g + final_calls e g.
Proof.
  intros HS Hf Ha Hm Hm1 He H0 H. pose proof H0 as H0'. apply cnt_new in H0 as (C0 & G0 & L0 & N0 & I0 & IE & S0 & _).
  assert (CO : counted s) by (eapply optimize_counted; [exact H|]; split; apply cnt_new in H0'; decompose [and] H0'; unfold cnt in *; rewrite L0; cbn; lia).
  apply optimize_unfold in H as (s1 & s2 & s3 & w & H1 & H2 & H3 & H4 & H5 & H6).
  destruct (cnt_init _ _ C0 H1) as (C1 & G1 & I1 & S1 & _ & _ & Ni). specialize (Ni IE).
  pose proof (loop_evals_bound m HS Hf Ha Hm ltac:(lia) _ _ _ H2 C1) as (C2 & I2 & B2).
  assert (X : cnt s3 /\ t_nevals s3 = t_nevals s2 + final_calls e g).
  { unfold final_calls. destruct (g_edm g); [destruct (cnt_edm _ _ C2 H3) as (? & ? & ? & ? & _); auto|subst; split; auto; lia]. }
  destruct X as (C3 & N3).
  unfold restart_wanted in H4. rewrite He in H4. cbn in H4. injection H4 as <-.
  destruct H5 as [[_ ->]|(Q & _)]; [|discriminate].
  rewrite I1, I0 in B2. cbn [Z.eqb] in B2. destruct CO as [CO _]. rewrite <- CO, N3.
  assert (0 <= initial_calls g <= 1) by (unfold initial_calls; destruct (_ || _); lia). lia.
Qed.

(** With the elitist restart: one generation more. *)
Lemma reinit_cnt s s' : cnt s -> reinit no g s = Ok s' -> cnt s' /\ t_niter s' = 0 /\ t_nevals s' = t_nevals s /\ s_best_iter (t_sol s') = None.
Proof.
  intros C H. apply reinit_spec in H as (so & H & ->). apply sol_new_spec in H as (_ & ->). unfold cnt; cbn. repeat split; auto; try lia. discriminate.
Qed.
Lemma restart_needs s : cnt s -> restart_wanted no g s = Ok true -> 3 <= t_niter s.
Proof.
  intros (_ & _ & _ & C) H. unfold restart_wanted in H. destruct (_ && _); [|discriminate].
  destruct (s_best_iter (t_sol s)) as [i|] eqn:E; [|discriminate]. injection H as H. apply Z.leb_le in H. specialize (C i eq_refl). lia.
Qed.
(** A loop that has made three iterations under the evaluation budget. *)
Lemma loop_grows : samples_ok no -> forall fuel s s', loop no e g (round no e g) fuel s = Ok s' -> cnt s ->
  cnt s' /\ t_nevals s + Z.of_nat (g_lambda g) * (t_niter s' - t_niter s) <= t_nevals s' /\ t_niter s <= t_niter s'.
Proof.
  intros HS. induction fuel as [|fuel IH]; cbn [loop]; intros s s' H C; [discriminate|].
  inv_do H. destruct a as [b s1]. cbn [fst snd] in H. destruct (cnt_stop _ _ _ C H0) as (C1 & N1 & N2 & N3).
  destruct b; [injection H as <-; rewrite N2, N1; split; auto; lia|].
  inv_do H. pose proof (cnt_round _ _ HS C1 H1) as C2. apply round_counts in H1 as (R1 & R2 & R3 & R4 & _); auto.
  apply IH in H as (D1 & D2 & D3); auto. split; auto. split; [nia|lia].
Qed.
Lemma loop_short m : samples_ok no -> flags_wf g -> active g 8 -> g_max_fevals g = m -> m <> -1 -> forall fuel s s', loop no e g (round no e g) fuel s = Ok s' -> cnt s ->
  t_niter s = 0 -> m <= t_nevals s -> t_niter s' <= 1.
Proof.
  intros HS Hf Ha Hm Hm1 fuel s s' H C H0 HN. destruct fuel as [|fuel]; cbn [loop] in H; [discriminate|].
  inv_do H. destruct a as [b s1]. cbn [fst snd] in H. destruct (cnt_stop _ _ _ C H1) as (C1 & N1 & N2 & N3).
  destruct b; [injection H as <-; lia|]. inv_do H. pose proof (cnt_round _ _ HS C1 H2) as C2. apply round_counts in H2 as (R1 & R2 & R3 & R4 & _); auto.
  destruct fuel as [|fuel]; cbn [loop] in H; [discriminate|]. inv_do H. destruct a0 as [b s3]. cbn [fst snd] in H. destruct (cnt_stop _ _ _ C2 H2) as (C3 & M1 & M2 & M3).
  destruct b; [injection H as <-; lia|]. exfalso. eapply continue_evals in H2; eauto; [|lia]. destruct C2 as (A & B & Q & _). lia.
Qed.
Theorem optimize_terminates_evals m rf : samples_ok no -> (forall x, nodiv (e_pheno e x)) -> flags_wf g -> active g 8 -> g_max_fevals g = m -> m <> -1 -> (1 <= g_lambda g)%nat ->
  forall fuel s, cnt s -> t_niter s = 0 -> 2 + Z.max 0 (m - t_nevals s) <= Z.of_nat fuel -> Z.max 0 (m - t_nevals s) < Z.of_nat rf ->
  nodiv (optimize no e g (round no e g) rf fuel s).
Proof.
  intros HS HP Hf Ha Hm Hm1 Hl. induction rf as [|rf IH]; intros fuel s C I Hfu Hrf; [lia|].
  cbn [optimize]. apply nodiv_bind; [apply nodiv_init; auto|]. intros s1 E1. destruct (cnt_init _ _ C E1) as (C1 & G1 & I1 & S1 & B1 & _ & _).
  apply nodiv_bind.
  { eapply loop_terminates_evals; eauto. rewrite I1, I. cbn [Z.eqb]. lia. }
  intros s2 E2. pose proof (loop_grows HS _ _ _ E2 C1) as (C2 & L2 & M2).
  apply nodiv_bind; [destruct (g_edm g); [apply nodiv_edm; auto|apply nodiv_ok]|]. intros s3 E3.
  assert (X : cnt s3 /\ t_niter s3 = t_niter s2 /\ t_nevals s2 <= t_nevals s3).
  { destruct (g_edm g); [destruct (cnt_edm _ _ C2 E3) as (Q1 & Q2 & Q3 & Q4 & _)|injection E3 as <-]; (split; [assumption|split; [auto|]]); [|lia].
    rewrite Q4. unfold gradient_calls. destruct (e_gfunc e); lia. }
  destruct X as (C3 & I3 & N3).
  apply nodiv_bind; [unfold restart_wanted; nd|]. intros w Ew. apply nodiv_bind; [|intros; apply nodiv_ok].
  destruct w; [|apply nodiv_ok]. apply nodiv_bind; [unfold reinit, sol_new; nd|]. intros s4 E4.
  pose proof (restart_needs _ C3 Ew) as R3.
  assert (t_nevals s1 < m). { destruct (Z.lt_ge_cases (t_nevals s1) m); auto. assert (Q0 : t_niter s1 = 0) by lia. pose proof (loop_short m HS Hf Ha Hm Hm1 _ _ _ E2 C1 Q0 H). lia. }
  destruct (reinit_cnt _ _ C3 E4) as (C4 & I4 & N4 & _).
  apply nodiv_bind; [|intros; apply nodiv_ok]. apply IH; auto; nia.
Qed.
Theorem optimize_terminates_iter m : samples_ok no -> (forall x, nodiv (e_pheno e x)) -> flags_wf g -> active g 9 -> g_max_iter g = m -> m <> -1 ->
  e_restart (g_elit g) = false ->
  forall rf fuel s, cnt s -> Z.max 1 m - t_niter s < Z.of_nat fuel -> (1 <= fuel)%nat ->
  nodiv (optimize no e g (round no e g) rf fuel s).
Proof.
  intros HS HP Hf Ha Hm Hm1 He rf fuel s C Hfu Hf1.
  assert (X : nodiv (do s1 <- eval_initial no e g s; do s2 <- loop no e g (round no e g) fuel s1; if g_edm g then edm no e g s2 else Ok s2)).
  { apply nodiv_bind; [apply nodiv_init; auto|]. intros s1 E1. destruct (cnt_init _ _ C E1) as (C1 & G1 & I1 & S1 & B1 & _ & _).
    apply nodiv_bind; [eapply loop_terminates_iter; eauto; rewrite I1; lia|]. intros s2 _. destruct (g_edm g); [apply nodiv_edm; auto|apply nodiv_ok]. }
  revert X. destruct rf; cbn [optimize]; (destruct (eval_initial no e g s) as [s1|f1]; cbn [bind]; [|intros h Q; apply h; congruence]).
  all: destruct (loop no e g (round no e g) fuel s1) as [s2|f2]; cbn [bind]; [|intros h Q; apply h; congruence].
  all: destruct (if g_edm g then edm no e g s2 else Ok s2) as [s3|f3]; cbn [bind]; [|intros h Q; apply h; congruence].
  all: intros _; unfold restart_wanted; rewrite He; cbn; apply nodiv_ok.
Qed.

(** Evaluation budget with the elitist restart. *)
Theorem max_fevals_restart m rf : samples_ok no -> flags_wf g -> active g 8 -> g_max_fevals g = m -> 1 <= m ->
  forall fuel s r s', cnt s -> t_niter s = 0 -> optimize no e g (round no e g) rf fuel s = Ok (r, s') ->
  t_nevals s' <= Z.max (t_nevals s + 1) (m - 1 + generation_calls e g + final_calls e g + 1) + generation_calls e g + final_calls e g.
Proof.
  intros HS Hf Ha Hm Hm1.
  assert (G0 : 0 <= generation_calls e g).
  { unfold generation_calls, gradient_calls. destruct (g_uh g), (g_gradient g), (e_gfunc e); lia. }
  assert (F0 : 0 <= final_calls e g).
  { unfold final_calls, gradient_calls. destruct (g_edm g), (e_gfunc e); lia. }
  induction rf as [|rf IH]; intros fuel s r s' C I H; apply optimize_unfold in H as (s1 & s2 & s3 & w & H1 & H2 & H3 & H4 & H5 & H6).
  all: destruct (cnt_init _ _ C H1) as (C1 & G1 & I1 & S1 & B1 & _ & _).
  all: pose proof (loop_evals_bound m HS Hf Ha Hm ltac:(lia) _ _ _ H2 C1) as (C2 & I2 & B2); rewrite I1, I in B2; cbn [Z.eqb] in B2.
  all: assert (X : cnt s3 /\ t_niter s3 = t_niter s2 /\ t_nevals s3 = t_nevals s2 + final_calls e g)
    by (unfold final_calls; destruct (g_edm g); [destruct (cnt_edm _ _ C2 H3) as (? & ? & ? & ? & _); auto|subst; split; auto; split; auto; lia]).
  all: destruct X as (C3 & I3 & N3).
  - destruct H5 as [[_ ->]|(_ & rf' & s4 & r' & Q & _)]; [lia|discriminate].
  - destruct H5 as [[_ ->]|(-> & rf' & s4 & r' & Q & H5 & H7)]; [lia|]. injection Q as <-.
    pose proof (restart_needs _ C3 H4) as R3.
    assert (t_nevals s1 < m). { destruct (Z.lt_ge_cases (t_nevals s1) m); auto. assert (Q0 : t_niter s1 = 0) by lia. pose proof (loop_short m HS Hf Ha Hm ltac:(lia) _ _ _ H2 C1 Q0 H). lia. }
    destruct (reinit_cnt _ _ C3 H5) as (C4 & I4 & N4 & _). apply IH in H7; auto. rewrite N4 in H7. lia.
Qed.

(** Return code. *)
Theorem return_code body rf fuel s r s' : optimize no e g body rf fuel s = Ok (r, s') -> (r = 0 \/ r = -1) /\ (r = 0 <-> 0 <= s_status (t_sol s')).
Proof.
  intros H. apply optimize_unfold in H as (s1 & s2 & s3 & w & _ & _ & _ & _ & _ & ->).
  destruct (Z.leb_spec 0 (s_status (t_sol s'))); split; auto; split; intros; try lia; try reflexivity.
Qed.
(** Progress function. *)
Theorem progress_stops body fuel s : 0 <= s_status (t_sol s) -> e_progress e (t_sol s) <> 0 ->
  stop no e g s = Ok (true, s) /\ loop no e g body (S fuel) s = Ok s.
Proof.
  intros H1 H2. assert (E : stop no e g s = Ok (true, s)).
  { unfold stop. destruct (Z.ltb_spec (s_status (t_sol s)) 0); [lia|]. destruct (Z.eqb_spec (e_progress e (t_sol s)) 0); [congruence|reflexivity]. }
  split; auto. cbn [loop]. rewrite E. reflexivity.
Qed.
End Run.
