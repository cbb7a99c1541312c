(** Consequences for reachable states. *)
From Coq Require Import Permutation.
From Verif Require Import Base Dbl DblProofs Config Search SpecSearch SpecStop SpecSafe SortProofs SearchInv CounterProofs HistProofs StopProofs SafeProofs RunProofs.
Local Open Scope Z_scope.

Section Reach.
Context {T N : Type}.
Variable no : numops T N.
Variable e : env T N.
Variable g : cfg T.
Notation st := (st T N).
Implicit Types (s : st).
Hypothesis HV : real_values e.
Hypothesis HD : dims_ok no g.
Hypothesis HP : pheno_total e g.
Hypothesis HF : fixed_in_range g.
Hypothesis HR : room g.
Hypothesis HE : elitism_le1 g.
Hypothesis HU : g_uh g = false.

Lemma sinv_hist s : sinv g s -> hist_finite (t_sol s) /\ 1 <= window g (t_sol s) /\ (1 <= g_lambda g)%nat.
Proof.
  intros (A1 & A2 & A3 & A4 & A5 & A6 & A7 & A8). destruct HR as [R1 _].
  rewrite Forall_forall in A5, A6, A7. split; [split; [|split]|split; [|lia]].
  - intros c Hc. apply (A5 c Hc).
  - intros v Hv. apply isreal_nn, A6; auto.
  - intros v Hv. apply isreal_nn, A7; auto.
  - unfold window. rewrite A3. pose proof (hist_len_pos g). apply Z.min_glb; auto.
    assert (0 <= 30 * Z.of_nat (g_dim g) / Z.of_nat (g_lambda g)) by (apply Z.div_pos; lia). lia.
Qed.
Lemma reach_sinv h x0 n s0 s : st_new no g x0 n = Ok s0 -> Forall (proper_op g) h -> run_ops no e g h s0 = Ok s -> sinv g s.
Proof.
  intros H0 W H. destruct (ops_safe no e g HV HD HP HF HR HE HU h s0 W (sinv_new _ _ _ _ _ H0)) as [(s' & E & I)|E]; [|congruence].
  rewrite H in E. apply Ok_inj in E. subst; auto.
Qed.

(** The decision of stop() in every reachable state. *)
Lemma stop_decision h x0 n s0 s b s' : flags_wf g -> st_new no g x0 n = Ok s0 -> Forall (proper_op g) h -> run_ops no e g h s0 = Ok s ->
  stop no e g s = Ok (b, s') -> 0 <= s_status (t_sol s) -> e_progress e (t_sol s) = 0 -> t_niter s <> 0 ->
  if b then In (s_status (t_sol s')) criteria_codes /\ active g (s_status (t_sol s')) /\ condition no g (s_status (t_sol s')) (t_sol s) /\
            (forall c, active g c -> c < s_status (t_sol s') -> ~ condition no g c (t_sol s))
  else s_status (t_sol s') = 0 /\ forall c, active g c -> ~ condition no g c (t_sol s).
Proof.
  intros Hf H0 W H Hs Hst Hp Ht. pose proof (sinv_hist s (reach_sinv h x0 n s0 s H0 W H)) as (A & B & C). destruct b.
  - destruct (stop_first_active no e g s s' Hf C A B Hst Hp Ht Hs) as (X1 & X2 & X3 & X4 & _). auto.
  - apply (continue_none_active no e g s s'); auto.
Qed.

Lemma condition_status c r (so : sol T N) : condition no g c (set_s_status r so) <-> condition no g c so.
Proof. split; intros H; exact H. Qed.

(** The status reported by a run. *)
Lemma loop_status fuel : forall s s', flags_wf g -> sinv g s -> s_status (t_sol s) = 0 -> loop no e g (round no e g) fuel s = Ok s' ->
  (s_status (t_sol s') = 0 /\ e_progress e (t_sol s') <> 0) \/
  (In (s_status (t_sol s')) criteria_codes /\ active g (s_status (t_sol s')) /\ condition no g (s_status (t_sol s')) (t_sol s') /\
   forall c, active g c -> c < s_status (t_sol s') -> ~ condition no g c (t_sol s')).
Proof.
  induction fuel as [|fuel IH]; intros s s' Hf I S0 H; [discriminate|]. cbn [loop] in H. apply bind_ok in H as ([b s1] & E & H). cbn [fst snd] in H.
  destruct (sinv_hist s I) as (A & B & C). destruct b.
  - apply Ok_inj in H. subst s'. pose proof E as E'. apply stop_spec in E as [(_ & -> & [E|E])|(Hs & Hp & [(_ & Q & _)|(Ht & r & Hr & _ & ->)])]; try lia; try discriminate.
    all: try (left; auto; fail).
    right. destruct (stop_first_active no e g s _ Hf C A B Hs Hp Ht E') as (X1 & X2 & X3 & X4 & _).
    split; [exact X1|]. split; [exact X2|]. split; [exact X3|]. exact X4.
  - apply bind_ok in H as (s2 & Er & H). destruct (stop_safe no e g HR s I) as (b' & s1' & E' & I1). rewrite E in E'. apply Ok_inj in E'. injection E' as <- <-.
    destruct (round_safe no e g HV HD HP HF HR HE HU s1 I1) as (s2' & Er' & I2). rewrite Er in Er'. apply Ok_inj in Er'. subst s2'.
    apply (IH s2); auto.
    assert (S1 : s_status (t_sol s1) = 0).
    { apply stop_spec in E as [(Q & _)|(Hs & Hp & [(_ & _ & ->)|(Ht & r & Hr & Q & ->)])]; [discriminate|auto|]. symmetry in Q. apply negb_false_iff, Z.eqb_eq in Q. subst r. reflexivity. }
    unfold round in Er. apply bind_ok in Er as ([pop sa] & Ea & Er). apply bind_ok in Er as (ph & _ & Er). apply bind_ok in Er as (sb & Eb & Er).
    apply bind_ok in Er as (sc & Ec & Er). apply Ok_inj in Er. subst s2. cbn [fst snd] in *.
    apply tell_status in Ec. apply eval_spec in Eb as (_ & _ & K & _). apply keep_status in K. apply ask_spec in Ea as ((Ka & _) & _). apply keep_status in Ka.
    cbn. congruence.
Qed.
Lemma run_status x0 n s0 rf fuel r s : flags_wf g -> g_edm g = false -> st_new no g x0 n = Ok s0 -> optimize no e g (round no e g) rf fuel s0 = Ok (r, s) ->
  (s_status (t_sol s) = 0 /\ e_progress e (t_sol s) <> 0) \/
  (In (s_status (t_sol s)) criteria_codes /\ active g (s_status (t_sol s)) /\ condition no g (s_status (t_sol s)) (t_sol s) /\
   forall c, active g c -> c < s_status (t_sol s) -> ~ condition no g c (t_sol s)).
Proof.
  intros Hf Hedm H0 H. pose proof (sinv_new no g _ _ _ H0) as I0. apply cnt_new in H0 as (_ & _ & _ & _ & _ & _ & S0 & _).
  apply optimize_unfold in H as (s1 & s2 & s3 & w & H1 & H2 & H3 & H4 & H5 & H6).
  destruct (init_safe no e g HV HD HP s0 I0) as (s1' & E1 & I1). rewrite H1 in E1. apply Ok_inj in E1. subst s1'.
  assert (S1 : s_status (t_sol s1) = 0) by (apply eval_initial_spec in H1 as [(_ & ->)|(_ & y & _ & ->)]; auto).
  rewrite Hedm in H3. subst s3.
  assert (w = false). { unfold restart_wanted in H4. rewrite (proj2 HE) in H4. cbn in H4. apply Ok_inj in H4. auto. }
  subst w. destruct H5 as [[_ ->]|[Q _]]; [|discriminate].
  apply (loop_status fuel s1); auto.
Qed.

(** A budget makes optimize() return. *)
Hypothesis HPR : pheno_returns e.
Lemma returns_evals m x0 n s0 fuel rf : flags_wf g -> active g 8 -> g_max_fevals g = m -> m <> -1 -> st_new no g x0 n = Ok s0 ->
  2 + Z.max 0 m <= Z.of_nat fuel -> exists r s, optimize no e g (round no e g) rf fuel s0 = Ok (r, s).
Proof.
  intros Hf Ha Hm Hm1 H0 Hfu. pose proof (sinv_new no g _ _ _ H0) as I0. pose proof H0 as C0. apply cnt_new in C0 as (C0 & _ & _ & N0 & K0 & _ & _ & _).
  destruct (optimize_safe no e g HV HD HP HF HR HE HU rf fuel s0 I0) as [(r & s' & E & _)|(_ & s1 & I1 & E1 & E)]; [eauto|]. exfalso.
  destruct (cnt_init no e g _ _ C0 E1) as (C1 & _ & K1 & _ & B1 & _). destruct HR as [R1 _].
  apply (loop_terminates_evals no e g m) with (fuel := fuel) (s := s1) in E; auto; [apply HD|lia|].
  rewrite K1, K0. cbn [Z.eqb]. lia.
Qed.
Lemma returns_iter m x0 n s0 fuel rf : flags_wf g -> active g 9 -> g_max_iter g = m -> m <> -1 -> st_new no g x0 n = Ok s0 ->
  1 + Z.max 1 m <= Z.of_nat fuel -> exists r s, optimize no e g (round no e g) rf fuel s0 = Ok (r, s).
Proof.
  intros Hf Ha Hm Hm1 H0 Hfu. pose proof (sinv_new no g _ _ _ H0) as I0. pose proof H0 as C0. apply cnt_new in C0 as (C0 & _ & _ & N0 & K0 & _ & _ & _).
  destruct (optimize_safe no e g HV HD HP HF HR HE HU rf fuel s0 I0) as [(r & s' & E & _)|(_ & s1 & I1 & E1 & E)]; [eauto|]. exfalso.
  destruct (cnt_init no e g _ _ C0 E1) as (C1 & _ & K1 & _ & B1 & _).
  apply (loop_terminates_iter no e g m) with (fuel := fuel) (s := s1) in E; auto; [apply HD|lia..].
Qed.

(** FTARGET. *)
Lemma target_stops h x0 n s0 s : flags_wf g -> active g 10 -> st_new no g x0 n = Ok s0 -> Forall (proper_op g) h -> run_ops no e g h s0 = Ok s ->
  t_niter s <> 0 -> target_reached no g (t_sol s) -> exists s', stop no e g s = Ok (true, s').
Proof.
  intros Hf Ha H0 W H Ht HT. pose proof (reach_sinv h x0 n s0 s H0 W H) as I.
  destruct (stop_safe no e g HR s I) as (b & s' & E & _). destruct b; [eauto|]. exfalso.
  destruct (sinv_hist s I) as (A & B & C). destruct (continue_none_active no e g s s' Hf C A B E Ht) as [_ X]. apply (X 10 Ha).
  unfold condition. repeat split; intros; try lia; try apply HT; auto.
Qed.
Lemma target_reported h x0 n s0 s b s' : flags_wf g -> st_new no g x0 n = Ok s0 -> Forall (proper_op g) h -> run_ops no e g h s0 = Ok s ->
  stop no e g s = Ok (b, s') -> s_status (t_sol s) <> 10 -> s_status (t_sol s') = 10 -> active g 10 /\ target_reached no g (t_sol s).
Proof.
  intros Hf H0 W H E Hn Hs. pose proof (reach_sinv h x0 n s0 s H0 W H) as I. destruct (sinv_hist s I) as (A & B & C).
  pose proof E as E'. apply stop_spec in E as [(_ & -> & _)|(Hs0 & Hp & [(_ & _ & ->)|(Ht & r & Hr & Q & ->)])]; try congruence.
  cbn in Hs. subst r. cbn in Q. subst b.
  destruct (stop_first_active no e g s _ Hf C A B Hs0 Hp Ht E') as (X1 & X2 & X3 & _). split; auto. apply X3. reflexivity.
Qed.
End Reach.
