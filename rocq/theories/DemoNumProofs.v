(** Runs of the numeric instances. *)
From Coq Require Import Reals List Lia Lra Psatz.
From Verif Require Import Base Dbl Vec VecProofs Params SpecParams ParamsProofs Config Search SpecSearch SpecStop SpecSafe SpecUh SearchInv StopProofs SafeProofs NumInv Demo DemoProofs Update SpecUpdate UpdateProofs ParamSound DemoNum.
Import ListNotations.
Local Open Scope R_scope.

Lemma call_env_real f : real_values (call_env f).
Proof. intros j x. exact (mk_env_real (fun j _ => f j) j []). Qed.
Lemma call_env_sort f : std_sort_ok (call_env f).
Proof. intros cmp l H. exact (mk_env_sort (fun j _ => f j) cmp l H). Qed.
Lemma dims_of p g : g_dim g = k_dim (p_k p) -> dims_ok (cma_num p) g.
Proof.
  intros E. split; [intros c n; cbn; now rewrite map_length, seq_length|]. split; [|split; [|split]].
  - intros c n x H. cbn in H. apply in_map_iff in H as (j & <- & _). rewrite E. apply tab_length.
  - intros n. rewrite E. apply tab_length.
  - intros gr n x H. cbn in H. unfold grad_col in H. destruct (forallb _ _); [discriminate|]. injection H as <-. rewrite E. apply tab_length.
  - intros n. cbn. rewrite E. split; apply tab_length.
Qed.

Section Run.
Variable p : npar.
Let k := p_k p.
Hypothesis HL : (2 <= k_lambda k)%nat.
Hypothesis HF : forall i v, In (i, v) (k_fixed k) -> (0 <= i < Z.of_nat (k_dim k))%Z.
Let g := cfg_of k.
Lemma cfg_room : room g.
Proof using HL. split; [exact HL|discriminate]. Qed.
Lemma new_ok x0 n : exists s0, st_new (cma_num p) g x0 n = Ok s0.
Proof using HL. unfold st_new, sol_new. destruct (Z.eqb_spec (Z.of_nat (g_lambda g)) 0) as [E|E]; [cbn in E; lia|]. cbn [bind]. eauto. Qed.
(** Any calls that end have a result. *)
Lemma runs f h x0 n s0 : st_new (cma_num p) g x0 n = Ok s0 -> Forall (proper_op g) h ->
  (exists s, run_ops (cma_num p) (call_env f) g h s0 = Ok s) \/ run_ops (cma_num p) (call_env f) g h s0 = Fault Diverges.
Proof using HL HF.
  intros H0 W. eapply (no_fault (cma_num p) (call_env f) g); eauto.
  - apply call_env_real.
  - apply dims_of; reflexivity.
  - intros x _. cbn. eauto.
  - apply cfg_room.
  - split; reflexivity.
Qed.
Fixpoint no_optimize (h : list (op R)) : bool := match h with [] => true | OOptimize _ _ :: _ => false | _ :: h' => no_optimize h' end.
Lemma runs_ok f h : no_optimize h = true -> forall x0 n s0, st_new (cma_num p) g x0 n = Ok s0 -> Forall (proper_op g) h ->
  exists s, run_ops (cma_num p) (call_env f) g h s0 = Ok s.
Proof using HL HF.
  intros NO x0 n s0 H0 W.
  assert (HV := call_env_real f). assert (HD := dims_of p g eq_refl).
  assert (HP : pheno_total (call_env f) g) by (intros x _; cbn; eauto).
  assert (HR := cfg_room). assert (HE : elitism_le1 g) by (split; reflexivity).
  assert (X : forall s, sinv g s -> exists s', run_ops (cma_num p) (call_env f) g h s = Ok s'); [|exact (X s0 (sinv_new (cma_num p) g x0 n s0 H0))].
  clear s0 H0. induction h as [|o h IH]; intros s I; cbn [run_ops]; [eauto|]. inversion W; subst.
  assert (Y : exists s', do_op (cma_num p) (call_env f) g o s = Ok s' /\ sinv g s').
  { destruct o; cbn [proper_op do_op] in *; try contradiction; try discriminate.
    - destruct (ask_safe (cma_num p) (call_env f) g HD HP HF HR s I) as (pop & s1 & E & _ & I1). rewrite E. cbn. eauto.
    - destruct (stop_safe (cma_num p) (call_env f) g HR s I) as (b & s1 & E & I1). rewrite E. cbn. eauto.
    - destruct H1 as [W1 W2].
      destruct (eval_safe (cma_num p) (call_env f) g HR eq_refl s cols phen I W1 W2) as [s2 E2]. rewrite E2. cbn [bind].
      destruct (eval_real (cma_num p) (call_env f) g HV HE s cols phen s2 I W1 E2) as [I2 F2].
      destruct (tell_safe (cma_num p) (call_env f) g HR eq_refl s2 I2 F2) as (s3 & E3 & I3). rewrite E3. cbn. eauto. }
  destruct Y as (s' & -> & I'). cbn [bind]. apply IH; auto. destruct o; auto; discriminate.
Qed.
Lemma sort_flat (l : list (cand R)) v : Forall (fun c => c_f c = v) l -> dlt v v = false -> sort_cands l = l.
Proof using Type.
  intros F D. induction F as [|c l Hc F IH]; [reflexivity|]. cbn. rewrite IH. destruct F as [|c' l Hc' F]; [reflexivity|].
  cbn. rewrite Hc, Hc', D. reflexivity.
Qed.
(** One generation of given points under a constant objective keeps their order. *)
Lemma flat_generation_from cols s0 : length cols = k_lambda k -> sinv g s0 -> t_niter s0 = 0%Z ->
  exists s, run_ops (cma_num p) flat_env g [OGen cols []] s0 = Ok s /\ s_num (t_sol s) = update_num p 0 cols (s_num (t_sol s0)) /\ s_niter (t_sol s) = 1%Z.
Proof using HL HF.
  intros HC I I3.
  assert (HV := call_env_real (fun _ => 0%Z)). assert (HR := cfg_room). assert (HE : elitism_le1 g) by (split; reflexivity).
  destruct (eval_safe (cma_num p) flat_env g HR eq_refl s0 cols [] I HC (or_introl eq_refl)) as [s1 E1].
  destruct (eval_real (cma_num p) flat_env g HV HE s0 cols [] s1 I HC E1) as [J1 F1].
  destruct (tell_safe (cma_num p) flat_env g HR eq_refl s1 J1 F1) as (s2 & E2 & J2).
  exists (inc_iter s2). split; [unfold run_ops, do_op; rewrite E1; cbn [bind]; rewrite E2; reflexivity|].
  destruct I as (I2 & _ & _ & _ & _ & _ & _ & _ & I1 & _). rewrite I3 in I1. symmetry in I1.
  apply eval_spec in E1 as (_ & _ & K & _ & L & _ & _ & N & _ & C & _). specialize (N eq_refl). unfold keep in K. injection K as _ _ _ _ _ _ _ _ KN _ _ _ KT _ _.
  assert (C1 : s_cands (t_sol s1) = new_gen flat_env 0 (length (t_log s0)) cols [] (s_cands (t_sol s0))).
  { destruct C as [[-> _]|(Q & _)]; [|unfold elit_on in Q; rewrite I3 in Q; discriminate]. unfold mid_cands. rewrite skipn_all2 by (rewrite I2; fold k in HC |- *; cbn; lia). apply app_nil_r. }
  apply tell_spec in E2 as (s3 & s4 & s5 & n6 & R & E4 & E5 & -> & Q). specialize (Q eq_refl). destruct R as [(_ & _ & E3)|[R _]]; [|discriminate].
  assert (T : t_niter s1 = 0%Z) by congruence. rewrite T, andb_false_r in E4. subst s4.
  apply ubc_spec in E5 as [K5 _]. unfold kept_by_tell in K5. injection K5 as K51 _ K53 _ _ _ _ K52 _ _ _ _ _.
  assert (X : map c_x (s_cands s5) = cols).
  { rewrite K51, E3. cbn [s_cands set_s_cands]. rewrite C1, (sort_flat _ (dint 0)); [apply new_gen_x| |reflexivity].
    apply Forall_forall. intros c Hc. apply (in_map c_f) in Hc. rewrite new_gen_f in Hc. apply in_map_iff in Hc as (q & <- & Hq).
    unfold eval_from in Hq. apply in_map_iff in Hq as (r & <- & _). reflexivity. }
  subst s3. cbn [s_niter s_num set_s_cands] in K53, K52.
  split; [|cbn; lia].
  change (n6 = update_num p 0 cols (s_num (t_sol s0))). rewrite Q, X, K53, K52. cbn [n_update cma_num]. rewrite KN, I1, N. reflexivity.
Qed.
Lemma flat_generation cols x0 n : length cols = k_lambda k ->
  exists s0 s, st_new (cma_num p) g x0 n = Ok s0 /\ run_ops (cma_num p) flat_env g [OGen cols []] s0 = Ok s /\ s_num (t_sol s) = update_num p 0 cols (new_num p x0 n) /\ s_niter (t_sol s) = 1%Z.
Proof using HL HF.
  intros HC. destruct (new_ok x0 n) as [s0 E0].
  destruct (flat_generation_from cols s0 HC (sinv_new (cma_num p) g x0 n s0 E0)) as (s & E & A & B).
  { unfold st_new, sol_new in E0. destruct (_ =? 0)%Z; [discriminate|]. cbn [bind] in E0. apply Ok_inj in E0. subst s0. reflexivity. }
  exists s0, s. split; [exact E0|]. split; [exact E|]. split; [|exact B]. rewrite A. apply st_new_num in E0. rewrite E0. reflexivity.
Qed.
(** The same after ask. *)
Lemma ask_flat_generation cols x0 n : length cols = k_lambda k ->
  exists s0 s m, st_new (cma_num p) g x0 n = Ok s0 /\ run_ops (cma_num p) flat_env g [OAsk; OGen cols []] s0 = Ok s /\ s_num (t_sol s) = update_num p 0 cols (with_pos (eigen_num p 0 (new_num p x0 n)) m (x_upos n)) /\ s_niter (t_sol s) = 1%Z.
Proof using HL HF.
  intros HC. destruct (new_ok x0 n) as [s0 E0]. pose proof (sinv_new (cma_num p) g x0 n s0 E0) as I.
  assert (HP : pheno_total flat_env g) by (intros x _; cbn; eauto).
  destruct (ask_safe (cma_num p) flat_env g (dims_of p g eq_refl) HP HF cfg_room s0 I) as (pop & s1 & E1 & _ & I1).
  assert (Z0 : t_niter s0 = 0%Z /\ s_num (t_sol s0) = new_num p x0 n).
  { split; [|apply st_new_num in E0; exact E0]. unfold st_new, sol_new in E0. destruct (_ =? 0)%Z; [discriminate|]. cbn [bind] in E0. apply Ok_inj in E0. subst s0. reflexivity. }
  destruct Z0 as [Z0 Z1].
  assert (Z2 : t_niter s1 = 0%Z /\ exists m, s_num (t_sol s1) = with_pos (eigen_num p 0 (new_num p x0 n)) m (x_upos n)).
  { pose proof E1 as E2. apply ask_spec in E2 as ((K & _) & _). unfold keep in K. injection K as _ _ _ _ _ _ _ _ _ _ _ _ KT _ _. split; [congruence|].
    unfold ask in E1. cbn [n_sample cma_num sample_num n_eigen] in E1. rewrite Z0 in E1. cbn [g cfg_of g_gradient bind] in E1.
    cbn [t_niter set_t_sol] in E1. rewrite Z0, andb_false_r in E1. cbn [bind] in E1. apply bind_ok in E1 as (pop4 & _ & E1). apply Ok_inj in E1. injection E1 as _ <-.
    cbn [t_sol set_t_sol s_num set_s_num]. rewrite Z1. eexists. f_equal.
    unfold eigen_num. destruct (_ || _); [reflexivity|]. destruct (_ || _ || _); reflexivity. }
  destruct Z2 as (Z2 & m & Z3).
  destruct (flat_generation_from cols s1 HC I1 Z2) as (s & E & A & B).
  exists s0, s, m. split; [exact E0|]. split; [|split; [rewrite A, Z3; reflexivity|exact B]].
  change (run_ops (cma_num p) flat_env g [OAsk; OGen cols []] s0) with (do s1 <- do_op (cma_num p) flat_env g OAsk s0; run_ops (cma_num p) flat_env g [OGen cols []] s1).
  unfold do_op. rewrite E1. cbn [bind]. exact E.
Qed.
End Run.
