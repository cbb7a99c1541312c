From Coq Require Import Reals List ZArith Lia Lra Psatz.
From Verif Require Import Base Dbl Params SpecParams Config Pwq PwqProofs Scaling GenoPheno SpecBounds SpecGeno GenoPhenoProofs ScalingProofs Search SpecSearch SpecSafe Demo DemoProofs DemoNum DemoNumProofs NumThms SortProofs SearchInv CounterProofs LogProofs StopProofs Vec VecProofs Update SpecUpdate Start SpecStart StartProofs.
Import ListNotations.
Open Scope R_scope.

(** * No bounds *)
Lemma start_default dim lo hi fx u : box dim lo hi -> draws dim u -> fixed_in dim fx -> starts_between gp_default_nb dim lo hi fx u.
Proof. apply start_no_bounds; reflexivity || exact I. Qed.
Lemma start_nb_lin lb ub g lo hi fx u : ordered lb ub -> gp_nb_lin None lb ub = Ok g ->
  box (length lb) lo hi -> draws (length lb) u -> fixed_in (length lb) fx -> starts_between g (length lb) lo hi fx u.
Proof.
  intros O E. unfold gp_nb_lin in E. apply bind_ok in E. destruct E as [l [Hl E]]. injection E as <-.
  apply start_no_bounds; try reflexivity. eapply lin_scale_ok; eauto.
Qed.
Lemma start_scaling sc sh g lo hi fx u : (forall i s, nth_error sc i = Some s -> s <> 0) -> gp_scaling_nb sc sh = Ok g ->
  box (length sc) lo hi -> draws (length sc) u -> fixed_in (length sc) fx -> starts_between g (length sc) lo hi fx u.
Proof.
  intros O E. unfold gp_scaling_nb in E. apply bind_ok in E. destruct E as [l [Hl E]]. injection E as <-.
  apply start_no_bounds; try reflexivity. eapply user_scale_ok; eauto.
Qed.
(** * Bounds *)
Lemma point_length dim lo hi fx y : box dim lo hi -> start_point lo hi fx y -> length y = dim.
Proof. intros (L & _) (L' & _). lia. Qed.
Lemma start_pwq lb ub g lo hi fx u : ordered lb ub -> gp_bounds None lb ub = Ok g ->
  box (length lb) lo hi -> draws (length lb) u -> fixed_in (length lb) fx ->
  (forall y, start_point lo hi fx y -> off_strips lb ub y) -> starts_between g (length lb) lo hi fx u.
Proof.
  intros O E B D N C. unfold gp_bounds in E. apply bind_ok in E. destruct E as [p [Hp E]]. injection E as <-.
  destruct (pwq_make_nth _ _ _ Hp) as (L1 & L2 & _).
  eapply (start_bounds _ p); try reflexivity; try assumption; [eapply pwq_make_good; eauto|].
  intros y m P Hm. cbn in Hm. injection Hm as <-. apply (bounds_core lb ub p y O Hp); [eapply point_length; eauto|auto].
Qed.
Lemma at_pwq lb ub g x0 u : ordered lb ub -> gp_bounds None lb ub = Ok g -> inside lb ub x0 ->
  box (length lb) x0 x0 -> draws (length lb) u -> (starts_at g (length lb) x0 u <-> off_strips lb ub x0).
Proof.
  intros O E I0 B D. unfold gp_bounds in E. apply bind_ok in E. destruct E as [p [Hp E]]. injection E as <-.
  destruct (pwq_make_nth _ _ _ Hp) as (L1 & L2 & _).
  destruct (start_exact (mkGP (PwqBound p) None NoScaling) p (length lb) x0 u eq_refl eq_refl I (pwq_make_good _ _ _ O Hp) ltac:(lia) B D) as (m & Hm & K).
  cbn in Hm. injection Hm as <-. rewrite K by (eapply bounds_inside; eauto). apply bounds_core; [exact O|exact Hp|apply B].
Qed.
Lemma start_lin lb ub g lo hi fx u : ordered lb ub -> gp_bounds_lin None lb ub = Ok g ->
  box (length lb) lo hi -> draws (length lb) u -> fixed_in (length lb) fx ->
  (forall y, start_point lo hi fx y -> off_scaled_strips lb ub y) -> starts_between g (length lb) lo hi fx u.
Proof.
  intros O E B D N C. destruct (gp_bounds_lin_inv _ _ _ _ O E) as (l & p & -> & Hl & G & L & Hn).
  pose proof (lin_scale_ok _ _ _ O Hl) as SO.
  eapply (start_bounds _ p); try reflexivity; try assumption.
  intros y m P Hm. cbn [gp_scale scale_i_step] in Hm. destruct SO as (Q & _). rewrite Q in Hm.
  apply (lin_core lb ub l p y m O Hl L Hn); [eapply point_length; eauto|exact Hm|auto].
Qed.
Lemma at_lin lb ub g x0 u : ordered lb ub -> gp_bounds_lin None lb ub = Ok g -> inside lb ub x0 ->
  box (length lb) x0 x0 -> draws (length lb) u -> (starts_at g (length lb) x0 u <-> off_scaled_strips lb ub x0).
Proof.
  intros O E I0 B D. destruct (gp_bounds_lin_inv _ _ _ _ O E) as (l & p & -> & Hl & G & L & Hn).
  pose proof (lin_scale_ok _ _ _ O Hl) as SO.
  destruct (start_exact (mkGP (PwqBound p) None (LinScaling l)) p (length lb) x0 u eq_refl eq_refl SO G L B D) as (m & Hm & K).
  cbn [gp_scale scale_i_step] in Hm. destruct SO as (Q & _). rewrite Q in Hm.
  rewrite K. { apply (lin_core lb ub l p x0 m O Hl L Hn); [apply B|exact Hm]. }
  destruct (scale_bounds lb ub l x0 O Hl I0) as (z & Hz & I1). rewrite Hm in Hz. injection Hz as <-.
  intros i q v Hq Hv. pose proof (Forall2_length_R _ _ _ O) as Lbu. destruct (nth_error_same_len p lb i q ltac:(lia) Hq) as [a Ha]. destruct (nth_error_same_len p ub i q ltac:(lia) Hq) as [b Hb].
  pose proof (Hn i a b Ha Hb) as Q2. rewrite Hq in Q2. injection Q2 as ->. cbn [pwq_coord q_lb q_ub].
  destruct I1 as (_ & _ & I1). assert (Hi : (i < length lb)%nat) by (apply nth_error_Some; congruence).
  apply (I1 i 0 10 v); [apply nth_error_repeat; exact Hi|apply nth_error_repeat; exact Hi|exact Hv].
Qed.
Lemma user_core sc sh lb ub l nlb nub p y m : lin_user sc sh = Ok l -> ordered nlb nub ->
  scale_to_internal l lb = Ok nlb -> scale_to_internal l ub = Ok nub -> pwq_make nlb nub = Ok p -> length y = length lb ->
  scale_to_internal l y = Ok m -> (core p m <-> off_user_strips sc sh lb ub y).
Proof.
  intros Hl O Hlb Hub Hp Ly Hm. destruct (lin_user_nth _ _ _ Hl) as (_ & L1 & L2 & Hn).
  unfold scale_to_internal in *. destruct (mapM2_ok_length _ _ _ _ Hlb) as [A1 A2]. destruct (mapM2_ok_length _ _ _ _ Hub) as [B1 B2]. destruct (mapM2_ok_length _ _ _ _ Hm) as [C1 C2].
  rewrite (bounds_core nlb nub p m O Hp) by lia. split.
  - intros C i s h a b v Hs Hh Ha Hb Hv. pose proof (Hn i s h Hs Hh) as P.
    destruct (mapM2_nth _ _ _ _ Hlb i _ a P Ha) as [na [Na E1]]. injection E1 as E1.
    destruct (mapM2_nth _ _ _ _ Hub i _ b P Hb) as [nb [Nb E2]]. injection E2 as E2.
    destruct (mapM2_nth _ _ _ _ Hm i _ v P Hv) as [w [Nw E3]]. injection E3 as E3. cbn [fst snd] in E1, E2, E3. cbv zeta.
    rewrite (Rmult_comm s a), (Rmult_comm s b), (Rmult_comm s v), ?E1, ?E2, ?E3 || rewrite E1, E2, E3. exact (C i na nb w Na Nb Nw).
  - intros C i na nb w Na Nb Nw.
    destruct (nth_error_same_len nlb sc i na ltac:(lia) Na) as [s Hs]. destruct (nth_error_same_len nlb sh i na ltac:(lia) Na) as [h Hh].
    destruct (nth_error_same_len nlb lb i na ltac:(lia) Na) as [a Ha]. destruct (nth_error_same_len nlb ub i na ltac:(lia) Na) as [b Hb].
    destruct (nth_error_same_len nlb y i na ltac:(lia) Na) as [v Hv]. pose proof (Hn i s h Hs Hh) as P.
    destruct (mapM2_nth _ _ _ _ Hlb i _ a P Ha) as [na' [Na' E1]]. injection E1 as E1. rewrite Na in Na'. injection Na' as <-.
    destruct (mapM2_nth _ _ _ _ Hub i _ b P Hb) as [nb' [Nb' E2]]. injection E2 as E2. rewrite Nb in Nb'. injection Nb' as <-.
    destruct (mapM2_nth _ _ _ _ Hm i _ v P Hv) as [w' [Nw' E3]]. injection E3 as E3. rewrite Nw in Nw'. injection Nw' as <-. cbn [fst snd] in E1, E2, E3.
    specialize (C i s h a b v Hs Hh Ha Hb Hv). cbv zeta in C. rewrite (Rmult_comm s a), (Rmult_comm s b), (Rmult_comm s v), E1, E2, E3 in C || rewrite E1, E2, E3 in C. exact C.
Qed.
Lemma start_user sc sh lb ub g lo hi fx u : (forall i s, nth_error sc i = Some s -> 0 < s) -> ordered lb ub ->
  gp_scaling_pwq sc sh (Some (lb, ub)) = Ok g ->
  box (length sc) lo hi -> draws (length sc) u -> fixed_in (length sc) fx ->
  (forall y, start_point lo hi fx y -> off_user_strips sc sh lb ub y) -> starts_between g (length sc) lo hi fx u.
Proof.
  intros Hs O Hg B D N C. unfold gp_scaling_pwq in Hg.
  apply bind_ok in Hg; destruct Hg as [l [Hl Hg]].
  apply bind_ok in Hg; destruct Hg as [nlb [Hnl Hg]].
  apply bind_ok in Hg; destruct Hg as [nub [Hnu Hg]].
  apply bind_ok in Hg; destruct Hg as [p [Hp E]]; injection E as <-.
  pose proof (scaled_ordered _ _ _ _ _ _ _ Hl Hs O Hnl Hnu) as Hno. destruct (pwq_make_nth _ _ _ Hp) as (Lp & _ & _).
  assert (SO : scale_ok (length sc) (LinScaling l)) by (eapply user_scale_ok; [|exact Hl]; intros i s Q; specialize (Hs i s Q); lra).
  assert (Ln : length nlb = length sc /\ length lb = length sc) by (unfold scale_to_internal in Hnl; destruct (mapM2_ok_length _ _ _ _ Hnl); destruct SO as (_ & _ & ?); lia).
  eapply (start_bounds _ p); try reflexivity; try assumption; [eapply pwq_make_good; eauto|lia|].
  intros y m P Hm. cbn [gp_scale scale_i_step] in Hm. destruct SO as (Q & _). rewrite Q in Hm.
  apply (user_core sc sh lb ub l nlb nub p y m Hl Hno Hnl Hnu Hp); [pose proof (point_length _ _ _ _ _ B P); lia|exact Hm|auto].
Qed.
Lemma start_auto dim u : draws dim u -> exists m y, initial_mean gp_default_nb dim (set_x0_value dim (- dbl_max_R)) [] u = Ok m /\
  pheno gp_default_nb m = Ok y /\ length y = dim /\ Forall (fun v => -4 <= v <= 4) y.
Proof.
  intros D. destruct (auto_ok dim u D) as (x & Hx & L & F). exists x, x. unfold initial_mean. rewrite Hx. cbn. auto.
Qed.
Lemma start_custom ge ph dim lo hi fx u : box dim lo hi -> draws dim u -> fixed_in dim fx ->
  exists m y, initial_mean (mkGP NoBound (Some (ge, ph)) NoScaling) dim (set_x0_box lo hi) fx u = Ok m /\
    pheno (mkGP NoBound (Some (ge, ph)) NoScaling) m = Ok (ph y) /\ start_point lo hi fx y.
Proof.
  intros B D N. destruct (mean_of_point (mkGP NoBound (Some (ge, ph)) NoScaling) _ _ _ _ _ B D N) as (y & P & L & E). exists y, y. unfold set_x0_box. rewrite E. auto.
Qed.

(** * The first call of the objective *)
Section First.
Context {T N : Type}.
Variable no : numops T N.
Variable e : env T N.
Variable g : cfg T.
Variable a : list T * dbl.
Definition first (s : st T N) : Prop := exists l, t_log s = a :: l.
Lemma first_more (s s' : st T N) ys : t_log s' = t_log s ++ ys -> first s -> first s'.
Proof. intros E (l & H). exists (l ++ ys). rewrite E, H. reflexivity. Qed.
Lemma first_same (s s' : st T N) : t_log s' = t_log s -> first s -> first s'.
Proof. intros E. apply (first_more s s' []). rewrite app_nil_r. exact E. Qed.
Lemma gradf_first x (s : st T N) r s' : gradf no e g x s = (r, s') -> first s -> first s'.
Proof. intros H C. apply gradf_spec in H as [(_ & _ & ->)|(_ & _ & ->)]; auto. eapply first_more; [|exact C]. reflexivity. Qed.
Lemma ask_first (s : st T N) pop s' : ask no e g s = Ok (pop, s') -> first s -> first s'.
Proof.
  unfold ask. destruct (n_sample no (g_lambda g) _) as [pop1 n2] eqn:Es. intros H C.
  apply bind_ok in H as ([pop2 s2] & H1 & H). apply bind_ok in H as ([pop3 s3] & H2 & H). apply bind_ok in H as (pop4 & H3 & H). apply Ok_inj in H. injection H as <- <-.
  assert (C2 : first s2).
  { destruct (g_gradient g).
    - apply bind_ok in H1 as (x & _ & H1). destruct (gradf no e g x _) as [gr s2'] eqn:Eg. apply gradf_first in Eg; [|apply (first_same s); auto].
      destruct (n_gradcol no gr _).
      + apply bind_ok in H1 as (pp & _ & H1). apply Ok_inj in H1. injection H1 as <- <-. auto.
      + apply Ok_inj in H1. injection H1 as <- <-. auto.
    - apply Ok_inj in H1. injection H1 as <- <-. apply (first_same s); auto. }
  destruct ((g_tpa g =? 2)%Z && (0 <? t_niter s2)%Z).
  - destruct (n_tpa_points no (s_num (t_sol s2))) as [[x1 x2] n3]. apply bind_ok in H2 as (pa & _ & H2). apply bind_ok in H2 as (pb & _ & H2). apply Ok_inj in H2. injection H2 as <- <-.
    apply (first_same s2); auto.
  - apply Ok_inj in H2. injection H2 as <- <-. auto.
Qed.
Lemma init_first (s : st T N) s' : eval_initial no e g s = Ok s' -> first s -> first s'.
Proof. intros H C. apply eval_initial_spec in H as [(_ & ->)|(_ & y & _ & ->)]; auto. eapply first_more; [|exact C]. reflexivity. Qed.
Lemma edm_first (s : st T N) s' : edm no e g s = Ok s' -> first s -> first s'.
Proof.
  unfold edm. intros H C. apply bind_ok in H as (x & _ & H). destruct (gradf no e g x s) as [gr s1] eqn:Eg. apply Ok_inj in H. subst s'.
  apply gradf_first in Eg; auto.
Qed.
Lemma gen_first (s : st T N) cols phen s1 s2 : eval no e g cols phen s = Ok s1 -> tell no e g s1 = Ok s2 -> first s -> first (inc_iter s2).
Proof.
  intros H1 H2 C. apply tell_effect in H2 as (L & _). apply (first_same s1); [exact L|].
  apply eval_spec in H1 as (_ & _ & _ & _ & _ & _ & _ & _ & (ys & L1 & _) & _). eapply first_more; eauto.
Qed.
Lemma stop_first (s : st T N) b s' : stop no e g s = Ok (b, s') -> first s -> first s'.
Proof. intros E. apply stop_spec in E as [(_ & -> & _)|(_ & _ & [(_ & _ & ->)|(_ & r & _ & _ & ->)])]; auto. Qed.
Lemma first_kept rf fuel (s s1 : st T N) r s' : eval_initial no e g s = Ok s1 -> first s1 ->
  optimize no e g (round no e g) rf fuel s = Ok (r, s') -> first s'.
Proof.
  intros E F H. apply optimize_unfold in H as (s1' & s2 & s3 & w & H1 & H2 & H3 & H4 & H5 & _). rewrite E in H1. apply Ok_inj in H1. subst s1'.
  assert (F2 : first s2).
  { refine (P_loop no e g first (fun _ => True) _ _ _ _ fuel s1 s2 F H2); auto; intros.
    - eapply ask_first; eauto.
    - eapply gen_first; eauto.
    - eapply stop_first; eauto. }
  assert (F3 : first s3) by (destruct (g_edm g); [eapply edm_first; eauto|subst; auto]).
  destruct H5 as [(_ & ->)|(_ & rf' & s4 & r' & _ & H5 & H6)]; [exact F3|].
  apply reinit_spec in H5 as (so & _ & ->).
  refine (P_optimize no e g first (fun _ => True) _ _ _ _ _ _ _ rf' fuel _ r' s' _ H6); auto; intros.
  - eapply ask_first; eauto.
  - eapply gen_first; eauto.
  - eapply stop_first; eauto.
  - eapply init_first; eauto.
  - eapply edm_first; eauto.
  - apply reinit_spec in H1 as (so' & _ & ->). auto.
Qed.
End First.

Lemma put_fixed_at fx : forall (x : list R) y, set_fixed fx x = Ok y -> forall j, (j < length x)%nat -> put_fixed fx (at0 x) j = at0 y j.
Proof.
  assert (K : forall fx v w j, (v j = w j) -> put_fixed fx v j = put_fixed fx w j).
  { clear. induction fx as [|[i c] fx IH]; intros v w j H; cbn; [exact H|]. apply IH. rewrite H. reflexivity. }
  induction fx as [|[i v] fx IH]; intros x y H j Hj; cbn [set_fixed put_fixed] in *; [injection H as <-; reflexivity|].
  destruct (_ && _)%bool eqn:E; [|discriminate]. apply andb_prop in E. destruct E as [E1 E2]. apply Z.leb_le in E1. apply Z.ltb_lt in E2.
  rewrite <- (IH _ _ H j) by (rewrite set_nth_length; exact Hj). apply K. unfold at0.
  destruct (Z.of_nat j =? i)%Z eqn:Q.
  - apply Z.eqb_eq in Q. assert (A : nth_error (set_nth (Z.to_nat i) v x) j = Some v).
    { rewrite set_nth_at. replace (Z.to_nat i) with j by lia. rewrite Nat.eqb_refl. destruct (nth_error x j) eqn:N; [reflexivity|]. apply nth_error_None in N. lia. }
    symmetry. apply nth_error_nth. exact A.
  - apply Z.eqb_neq in Q. assert (A : nth_error (set_nth (Z.to_nat i) v x) j = nth_error x j).
    { rewrite set_nth_at. assert (B : Nat.eqb j (Z.to_nat i) = false) by (apply Nat.eqb_neq; lia). rewrite B. reflexivity. }
    destruct (nth_error x j) eqn:N.
    + rewrite (nth_error_nth _ _ _ N). symmetry. apply nth_error_nth. exact A.
    + apply nth_error_None in N. lia.
Qed.

Lemma first_call p e g gp dim lo hi u x0 n s0 rf fuel r s : same_problem p g -> dim = g_dim g ->
  box dim lo hi -> draws dim u -> initial_point dim (set_x0_box lo hi) u = Ok x0 -> starts_between gp dim lo hi (g_fixed g) u ->
  (forall x z, scale_i_step (gp_scale gp) x = Ok z -> p_scale p x = z) -> (forall x, e_pheno e x = pheno gp x) ->
  g_init_fvalue g = true -> st_new (cma_num p) g x0 n = Ok s0 -> optimize (cma_num p) e g (round (cma_num p) e g) rf fuel s0 = Ok (r, s) ->
  exists y v l, t_log s = (y, v) :: l /\ start_point lo hi (g_fixed g) y.
Proof.
  intros (Sd & _ & Sf) Hd B D Hx (m & y & Hm & Hy & P) Sc Ph Gi Hn Ho. exists y, (e_f e 0%nat y).
  destruct (point_ok dim lo hi u B D) as (x0' & Hx' & Lx & _). unfold set_x0_box in Hx. rewrite Hx in Hx'. injection Hx' as <-. destruct B as (L & _).
  unfold initial_mean in Hm. unfold set_x0_box in Hm. rewrite Hx in Hm. cbn [bind] in Hm. apply bind_ok in Hm. destruct Hm as (w & Hw & Hm).
  unfold st_new in Hn. apply bind_ok in Hn. destruct Hn as (so & Hso & Hn). apply Ok_inj in Hn. subst s0.
  assert (M : n_xmean (cma_num p) (s_num so) = m).
  { unfold sol_new in Hso. destruct (_ =? 0)%Z; [discriminate|]. apply Ok_inj in Hso. subst so. cbn [s_num cma_num n_xmean n_new new_num x_mean]. unfold init_mean.
    assert (W : tab (k_dim (p_k p)) (put_fixed (k_fixed (p_k p)) (at0 x0)) = w).
    { rewrite <- Sd, <- Sf, <- Hd. assert (Lw : length w = dim).
      { clear -Hw Lx L. assert (K : forall fx x y, set_fixed fx x = Ok y -> length y = length x).
        { induction fx as [|[i v] fx IH]; intros x y H; cbn in H; [injection H as <-; reflexivity|]. destruct (_ && _)%bool; [|discriminate]. apply IH in H. rewrite set_nth_length in H. exact H. }
        rewrite (K _ _ _ Hw). lia. }
      rewrite <- (tab_at0 dim w Lw). apply tab_ext. intros i Hi. apply put_fixed_at; [exact Hw|lia]. }
    rewrite W. rewrite (Sc _ _ Hm). apply tab_at0.
    destruct (gp_scale gp) as [|lsc]; cbn [scale_i_step] in Hm.
    - injection Hm as <-. rewrite <- W. apply tab_length.
    - destruct (l_id lsc); [injection Hm as <-; rewrite <- W; apply tab_length|].
      unfold scale_to_internal in Hm. destruct (mapM2_ok_length _ _ _ _ Hm) as [A1 A2]. rewrite A2, A1, <- W. apply tab_length. }
  pose proof Ho as Ho'. apply optimize_unfold in Ho' as (s1 & _ & _ & _ & H1 & _).
  pose proof H1 as E1. apply eval_initial_spec in H1 as [(F & _)|(_ & y' & Hy' & H1)].
  - exfalso. unfold wants_init in F. rewrite Gi in F. rewrite !Bool.orb_true_r in F. discriminate.
  - cbn [t_sol] in Hy'. rewrite M, Ph, Hy in Hy'. injection Hy' as <-. cbn [t_log length] in H1.
    destruct (first_kept (cma_num p) e g (y, e_f e 0%nat y) rf fuel _ s1 r s E1) as (l & Hl); [|exact Ho|exists l; auto].
    exists []. subst s1. reflexivity.
Qed.

(** * Fixed parameters with a scaling: candidates take the value as it was
    given, and the objective gets it unscaled. *)
Lemma scaled_fixed p e g sc sh gp s pop s' i v k h c y : same_problem p g -> fixed_ok p -> gp_scaling_nb sc sh = Ok gp ->
  In (i, v) (g_fixed g) -> nth_error sc (Z.to_nat i) = Some k -> nth_error sh (Z.to_nat i) = Some h -> k <> 0 ->
  ask (cma_num p) e g s = Ok (pop, s') -> In c pop -> pheno gp c = Ok y -> nth_error y (Z.to_nat i) = Some ((v - h) / k).
Proof.
  intros SP FO Hg Hi Hk Hh K Ha Hc Hy. destruct (NumThms.fixed_candidates p e g s pop s' SP FO Ha) as [_ F].
  rewrite Forall_forall in F. specialize (F c Hc i v Hi). unfold gp_scaling_nb in Hg. apply bind_ok in Hg. destruct Hg as [l [Hl E]]. injection E as <-.
  destruct (lin_user_nth _ _ _ Hl) as (_ & _ & _ & Hn). cbn [pheno gp_bound gp_scale] in Hy. unfold custom_pheno in Hy. cbn [gp_custom] in Hy. unfold scale_to_f in Hy.
  destruct (mapM2_nth _ _ _ _ Hy _ _ v (Hn _ k h Hk Hh) F) as (w & Hw & E). cbn [fst snd] in E. rewrite rdiv_nz in E by exact K. injection E as <-. exact Hw.
Qed.
Definition scaled_env : env R num :=
  mkEnv (fun _ _ => dint 0) false (pheno (mkGP NoBound None (LinScaling (mkLin [(2, 0)] false)))) (fun _ => 0%Z) isort.
Lemma fixed_scaled_seen : exists p e g gp x0 n s0 s y v, constructed (p_k p) /\ same_problem p g /\ fixed_ok p /\
  gp_scaling_nb [2] [0] = Ok gp /\ (forall x z, scale_i_step (gp_scale gp) x = Ok z -> p_scale p x = z) /\ (forall x, e_pheno e x = pheno gp x) /\
  g_gradient g = false /\ st_new (cma_num p) g x0 n = Ok s0 /\ round (cma_num p) e g s0 = Ok s /\ In (y, v) (t_log s) /\ ~ has_fixed (g_fixed g) y.
Proof.
  pose (p := scaled_npar kfix). pose (g := cfg_of kfix). pose (gp := mkGP NoBound None (LinScaling (mkLin [(2, 0)] false))).
  assert (E0 : exists s0, st_new (cma_num p) g [1] num0 = Ok s0) by (eexists; reflexivity). destruct E0 as [s0 E0].
  assert (HD : dims_ok (cma_num p) g) by (apply dims_of; reflexivity).
  assert (LO : lin_ok (mkLin [(2, 0)] false)). { intros [|[|i]] q Hq; cbn in Hq; try discriminate. injection Hq as <-. cbn. lra. }
  assert (HP : pheno_total scaled_env g).
  { intros x Hx. cbn [e_pheno scaled_env pheno gp_bound gp_scale custom_pheno gp_custom]. apply scale_f_total; [exact LO|exact Hx]. }
  assert (HF : fixed_in_range g). { intros i v [Q|[]]. injection Q as <- <-. cbn. lia. }
  assert (HR : room g) by (split; [cbn; lia|cbn; discriminate]).
  assert (HV : real_values scaled_env) by (intros k x; apply dint_finite).
  assert (HE : elitism_le1 g) by (split; reflexivity).
  destruct (SafeProofs.round_safe (cma_num p) scaled_env g HV HD HP HF HR HE eq_refl s0 (SafeProofs.sinv_new (cma_num p) g _ _ _ E0)) as (s & E & _).
  assert (SP : same_problem p g) by (repeat split).
  assert (FO : fixed_ok p). { split; [repeat constructor; intros []|]. intros i v [Q|[]]. injection Q as <- <-. cbn. lia. }
  assert (Gp : gp_scaling_nb [2] [0] = Ok gp) by reflexivity.
  assert (V : exists y v, In (y, v) (t_log s) /\ ~ has_fixed (g_fixed g) y).
  { unfold round in E. apply bind_ok in E as ([pop s1] & Ea & E). cbn [fst snd] in E. apply bind_ok in E as (ph & Em & E). apply bind_ok in E as (s2 & Ee & E). apply bind_ok in E as (s3 & Et & E).
    apply Ok_inj in E. subst s. destruct (NumThms.fixed_candidates p scaled_env g s0 pop s1 SP FO Ea) as [Lp _].
    destruct pop as [|c pop]; [discriminate Lp|]. cbn [mapM] in Em. apply bind_ok in Em as (y & Hy & Em). apply bind_ok in Em as (ys & _ & Em). apply Ok_inj in Em. subst ph.
    apply tell_effect in Et as (L & _). apply eval_spec in Ee as (_ & _ & _ & _ & _ & _ & _ & _ & (zs & L1 & _) & _).
    exists y. eexists. split.
    - change (t_log (inc_iter s3)) with (t_log s3). rewrite L, L1. apply in_or_app. right. cbn [new_points app]. rewrite eval_from_cons. left. reflexivity.
    - intros Q. specialize (Q 0%Z 3 (or_introl eq_refl)).
      pose proof (scaled_fixed p scaled_env g [2] [0] gp s0 (c :: pop) s1 0%Z 3 2 0 c y SP FO Gp (or_introl eq_refl) eq_refl eq_refl ltac:(lra) Ea (or_introl eq_refl) Hy) as K.
      rewrite K in Q. injection Q as Q. lra. }
  destruct V as (y & v & V1 & V2). exists p, scaled_env, g, gp, [1], num0, s0, s, y, v.
  split; [apply kfix_constructed|]. split; [exact SP|]. split; [exact FO|]. split; [exact Gp|].
  split; [|split; [reflexivity|]; split; [reflexivity|]; split; [exact E0|]; split; [exact E|]; auto].
  intros [|x [|x' l]] z H; cbn in H; try discriminate. injection H as <-. cbn. f_equal. ring.
Qed.
