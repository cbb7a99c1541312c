(** Second evaluations: instances. *)
From Coq Require Import Reals List Lia Lra ZArith.
From Verif Require Import Base Dbl Vec VecProofs SpecBounds SpecGeno GenoPheno BoundsExtra PwqProofs GenoPhenoProofs Params SpecParams Config Search SpecSearch SpecSafe SpecUh SafeProofs UhProofs SafeAllProofs Demo DemoProofs SearchInv Update SpecUpdate DemoNum DemoNumProofs NumInv NumThms SpecSample SpecGrad GradProofs GradThms SpecReev ReevProofs.
Import ListNotations.
Local Open Scope R_scope.

Definition uh_cfg (k : cpar) : cfg R := set_g_uh true (cfg_of k).
Lemma four_rl k : k_rlambda k = Rmax 0.1 (2 / INR 4) -> k_lambda k = 4%nat -> k_rlambda k * INR (k_lambda k) = 2.
Proof. intros -> ->. change (INR 4) with (1 + 1 + 1 + 1). rewrite Rmax_right by lra. lra. Qed.
Lemma uh_eval p e x0 s cols phen : k_lambda (p_k p) = 4%nat -> std_sort_ok e -> st_new (cma_num p) (uh_cfg (p_k p)) x0 num0 = Ok s ->
  length cols = 4%nat -> (phen = [] \/ length phen = 4%nat) ->
  exists s1, eval (cma_num p) e (uh_cfg (p_k p)) cols phen s = Ok s1.
Proof.
  intros L HS HI HC HP. apply (eval_all_safe (cma_num p) e (uh_cfg (p_k p))).
  - split; [cbn; lia|discriminate].
  - intros _. split; [|exact HS]. split; [cbn; lia|]. intros c n. cbn [cma_num n_mutate]. unfold mutate_num. cbn [fst]. rewrite map_length, seq_length. reflexivity.
  - split; [eapply sinv_new, HI|]. intros Q. discriminate Q.
  - cbn. congruence.
  - destruct HP as [->|HP]; [left; reflexivity|right; cbn; lia].
Qed.
(** The first candidate is evaluated again, moved by the first draws. *)
Lemma first_again p e x0 s cols phen x rest s1 : k_lambda (p_k p) = 4%nat -> k_rlambda (p_k p) = Rmax 0.1 (2 / INR 4) -> p_sigma0 p = 1 -> k_vd (p_k p) = false ->
  st_new (cma_num p) (uh_cfg (p_k p)) x0 num0 = Ok s -> (phen = [] \/ length phen = length cols) -> evaluated cols phen = x :: rest ->
  eval (cma_num p) e (uh_cfg (p_k p)) cols phen s = Ok s1 ->
  exists y v, In (y, v) (t_log s1) /\ perturbed p (p_epsuh p) 0 x y.
Proof.
  intros L R SG V E0 HP EV H. pose proof (four_rl _ R L) as RL.
  destruct (reev_thm p e (uh_cfg (p_k p)) s s1 cols phen eq_refl) as (r & ys & CO & _ & LY & (log & E1 & E2) & PT & _).
  { rewrite RL. change (INR (g_reev (uh_cfg (p_k p)))) with 2. lra. }
  { exact HP. } { exact H. }
  destruct CO as (fl & C1 & C2 & C3). assert (R1 : (1 <= r)%nat) by (destruct (Rlt_dec (p_unif p (coins s)) (k_rlambda (p_k p) * INR (k_lambda (p_k p)) - INR fl)) as [Q|Q]; [rewrite (C2 Q)|rewrite (C3 (Rnot_lt_le _ _ Q))]; lia).
  destruct ys as [|y ys]; [cbn in LY; lia|]. specialize (PT 0%nat x y). rewrite EV in PT. specialize (PT eq_refl eq_refl).
  assert (IY : In y (map fst log)) by (rewrite E2; apply in_or_app; right; left; reflexivity). apply in_map_iff in IY as ([y' v] & Q & IY). cbn in Q. subst y'.
  exists y, v. split; [rewrite E1; apply in_or_app; right; exact IY|].
  assert (Z : sigma_of s = 1 /\ drawn s = 0%nat).
  { apply st_new_num in E0. unfold sigma_of, drawn. rewrite E0. cbn [cma_num n_new new_num x_sigma x_pos]. unfold init_sigma. rewrite SG, V. destruct (Rlt_dec 0 1); [auto|lra]. }
  destruct Z as [-> ->] in PT. rewrite Rmult_1_r in PT. exact PT.
Qed.
(** The upper bound is left. *)
Lemma outside_bounds : exists p e g gp lb ub x0 s cols phen s1 y v,
  constructed (p_k p) /\ uses_gp p e gp /\ std_sort_ok e /\ ordered lb ub /\ gp_bounds None lb ub = Ok gp /\ g_uh g = true /\
  st_new (cma_num p) g x0 num0 = Ok s /\ mapM (pheno gp) cols = Ok phen /\ length cols = g_lambda g /\ Forall (inside lb ub) phen /\
  eval (cma_num p) e g cols phen s = Ok s1 /\ In (y, v) (t_log s1) /\ ~ inside lb ub y.
Proof.
  assert (G : exists gp, gp_bounds None [0] [1] = Ok gp) by (eexists; reflexivity). destruct G as [gp EG].
  assert (HO : ordered [0] [1]) by (repeat constructor; lra).
  assert (HI : inside [0] [1] [1]). { repeat split; destruct i as [|[|i]]; cbn in *; try discriminate; injection H as <-; injection H0 as <-; injection H1 as <-; lra. }
  destruct (round_trip [0] [1] gp [1] HO EG HI) as (x & _ & PX).
  pose (p := gp_par k14 gp). pose (e := gp_env gp (fun _ => dint 0)). pose (g := uh_cfg k14).
  assert (HS : std_sort_ok e) by (intros cmp l; apply isort_ok).
  assert (E0 : exists s0, st_new (cma_num p) g [1] num0 = Ok s0) by (eexists; reflexivity). destruct E0 as [s E0].
  destruct (uh_eval p e [1] s (repeat x 4) (repeat [1] 4) eq_refl HS E0 eq_refl (or_intror eq_refl)) as [s1 E1].
  destruct (first_again p e [1] s (repeat x 4) (repeat [1] 4) [1] (repeat [1] 3) s1 eq_refl eq_refl eq_refl eq_refl E0 (or_intror eq_refl) eq_refl E1) as (y & v & IY & LY & PY).
  exists p, e, g, gp, [0], [1], [1], s, (repeat x 4), (repeat [1] 4), s1, y, v.
  split. { exists 1%nat, 4%nat, []. repeat split; auto. } split; [apply gp_uses|]. split; [exact HS|]. split; [exact HO|]. split; [exact EG|]. split; [reflexivity|]. split; [exact E0|].
  split. { cbn [repeat mapM]. rewrite PX. reflexivity. } split; [reflexivity|]. split; [exact (Forall_cons _ HI (Forall_cons _ HI (Forall_cons _ HI (Forall_cons _ HI (Forall_nil _)))))|]. split; [exact E1|]. split; [exact IY|].
  intros (_ & _ & Q). change (k_dim (p_k p)) with 1%nat in *. destruct y as [|y0 [|]]; try discriminate LY.
  specialize (PY 0%nat ltac:(lia)). unfold at0 in PY. cbn [nth] in PY. change (p_epsuh p) with (/ 10000000) in PY. change (p_normal p (0 + 0)%nat) with 1 in PY.
  specialize (Q 0%nat 0 1 y0 eq_refl eq_refl eq_refl). lra.
Qed.
(** A fixed parameter is moved. *)
Definition k24f : cpar := set_fixed_p 1 7 k24.
Lemma fixed_moved : exists p e g x0 s cols s1 y v,
  constructed (p_k p) /\ same_problem p g /\ fixed_ok p /\ std_sort_ok e /\ g_uh g = true /\ (forall x, p_scale p x = x) /\ (forall x, e_pheno e x = Ok x) /\
  st_new (cma_num p) g x0 num0 = Ok s /\ length cols = g_lambda g /\ Forall (has_fixed (g_fixed g)) cols /\
  eval (cma_num p) e g cols [] s = Ok s1 /\ In (y, v) (t_log s1) /\ ~ has_fixed (g_fixed g) y.
Proof.
  pose (p := npar_of k24f Full). pose (e := flat_env). pose (g := uh_cfg k24f).
  assert (HS : std_sort_ok e) by (intros cmp l; apply isort_ok).
  assert (E0 : exists s0, st_new (cma_num p) g [1; 7] num0 = Ok s0) by (eexists; reflexivity). destruct E0 as [s E0].
  destruct (uh_eval p e [1; 7] s (repeat [1; 7] 4) [] eq_refl HS E0 eq_refl (or_introl eq_refl)) as [s1 E1].
  destruct (first_again p e [1; 7] s (repeat [1; 7] 4) [] [1; 7] (repeat [1; 7] 3) s1 eq_refl eq_refl eq_refl eq_refl E0 (or_introl eq_refl) eq_refl E1) as (y & v & IY & LY & PY).
  assert (FX : g_fixed g = [(1%Z, 7)]) by reflexivity.
  exists p, e, g, [1; 7], s, (repeat [1; 7] 4), s1, y, v.
  split. { exists 2%nat, 4%nat, [SpecParams.Fix 1 7]. repeat split; auto. } split; [repeat split|].
  split. { split; [repeat constructor; intros []|]. intros i w [Q|[]]. injection Q as <- _. cbn. lia. }
  split; [exact HS|]. split; [reflexivity|]. split; [reflexivity|]. split; [reflexivity|]. split; [exact E0|]. split; [reflexivity|].
  split. { rewrite FX. repeat constructor; intros i w [Q|[]]; injection Q as <- <-; reflexivity. }
  split; [exact E1|]. split; [exact IY|]. rewrite FX. intros Q. specialize (Q 1%Z 7 (or_introl eq_refl)). change (Z.to_nat 1) with 1%nat in Q.
  specialize (PY 1%nat ltac:(cbn; lia)). rewrite (nth_error_nth y 1%nat 0 Q : at0 y 1%nat = 7) in PY. unfold at0 in PY. cbn [nth] in PY. change (p_epsuh p) with (/ 10000000) in PY.
  change (p_normal p (0 + 1)%nat) with (INR 2) in PY. change (INR 2) with 2 in PY. lra.
Qed.
Lemma reev_example : let p := npar_of k24 Full in let g := uh_cfg k24 in
  g_uh g = true /\ INR (g_reev g) <= k_rlambda (p_k p) * INR (k_lambda (p_k p)) < INR (g_reev g) + 1 /\
  exists s s1, st_new (cma_num p) g [1; 1] num0 = Ok s /\ eval (cma_num p) flat_env g (repeat [1; 1] 4) [] s = Ok s1 /\
  reev_count (k_rlambda (p_k p) * INR (k_lambda (p_k p))) (p_unif p (coins s)) 2.
Proof.
  intros p g. assert (RL : k_rlambda (p_k p) * INR (k_lambda (p_k p)) = 2) by (apply four_rl; reflexivity).
  split; [reflexivity|]. rewrite RL. change (INR (g_reev g)) with 2. split; [lra|].
  assert (E0 : exists s0, st_new (cma_num p) g [1; 1] num0 = Ok s0) by (eexists; reflexivity). destruct E0 as [s E0].
  destruct (uh_eval p flat_env [1; 1] s (repeat [1; 1] 4) [] eq_refl) as [s1 E1].
  { intros cmp l; apply isort_ok. } { exact E0. } { reflexivity. } { left; reflexivity. }
  exists s, s1. split; [exact E0|]. split; [exact E1|]. exists 2%nat. change (INR 2) with 2. split; [lra|].
  change (p_unif p (coins s)) with (/ 2) || change (p_unif p (coins s)) with (1 / 2) || idtac. split; [intros; lra|reflexivity].
Qed.
