(** The search is unchanged by x -> c x + t. *)
From Coq Require Import Reals List Lia Lra Permutation.
From Verif Require Import Base Dbl Vec VecProofs Params Config Search SpecSearch SpecInvar SpecMorph SpecSafe SpecUh SortProofs SearchInv RankProofs MorphProofs Update SpecUpdate UpdateProofs DemoNumProofs SpecAffine.
Import ListNotations.
Local Open Scope R_scope.

Lemma vmax_ext n u v : (forall i, (i < n)%nat -> u i = v i) -> vmax n u = vmax n v.
Proof. induction n as [|n IH]; intros H; auto. cbn. destruct n; [apply H; lia|]. rewrite IH by (intros; apply H; lia). rewrite H by lia. auto. Qed.
Lemma vmin_ext n u v : (forall i, (i < n)%nat -> u i = v i) -> vmin n u = vmin n v.
Proof. induction n as [|n IH]; intros H; auto. cbn. destruct n; [apply H; lia|]. rewrite IH by (intros; apply H; lia). rewrite H by lia. auto. Qed.
Lemma mtab_ext n a b : (forall i j, (i < n)%nat -> (j < n)%nat -> a i j = b i j) -> mtab n a = mtab n b.
Proof.
  intros H. unfold mtab. apply map_ext_in. intros i Hi. apply in_seq in Hi. apply tab_ext. intros j Hj. apply H; lia.
Qed.
Lemma forallb_ext_in {A} (f g : A -> bool) l : (forall a, In a l -> f a = g a) -> forallb f l = forallb g l.
Proof. induction l as [|a l IH]; intros H; cbn; auto. rewrite H, IH; auto; [intros; apply H|]; cbn; auto. Qed.

Section Affine.
Variables (c : R) (t : nat -> R).
Hypothesis Hc : 0 < c.
Let h := aff c t.
Lemma aff_at x i : (i < length x)%nat -> at0 (h x) i = c * at0 x i + t i.
Proof. intros H. unfold h, aff. now rewrite at0_tab. Qed.
Lemma aff_len x : length (h x) = length x.
Proof. apply tab_length. Qed.
Lemma cc1 a y : c * a * (/ c * y) = a * y.
Proof using Hc. field. lra. Qed.
Lemma cc2 a y : 1 * (/ c * y) * (c * a) = 1 * y * a.
Proof using Hc. field. lra. Qed.
Lemma aff_nil : h [] = []. Proof. reflexivity. Qed.
Lemma aff_cons x l : h (x :: l) <> []. Proof. discriminate. Qed.
Lemma unaff_aff x : unaff c t (h x) = x.
Proof using Hc.
  unfold unaff. rewrite aff_len. rewrite <- (tab_at0 (length x) x) at 2 by auto. apply tab_ext. intros i Hi. rewrite aff_at by auto. field. lra.
Qed.
Lemma aff_tab n v : h (tab n v) = tab n (fun i => c * v i + t i).
Proof. unfold h, aff. rewrite tab_length. apply tab_ext. intros i Hi. now rewrite at0_tab. Qed.
Lemma list_at0 (a b : list R) : length a = length b -> (forall i, (i < length a)%nat -> at0 a i = at0 b i) -> a = b.
Proof. intros L H. rewrite <- (tab_at0 (length a) a), <- (tab_at0 (length a) b) by auto. apply tab_ext. auto. Qed.
Lemma aff_upd x i v : upd_at (h x) i (c * v + t (Z.to_nat i)) = rmap h (upd_at x i v).
Proof.
  unfold upd_at. rewrite aff_len. destruct ((i <? 0)%Z || _) eqn:E; auto. cbn [rmap]. f_equal.
  apply Bool.orb_false_iff in E as [E1 E2]. apply Z.ltb_ge in E1.
  assert (L : (Z.to_nat i < length x)%nat) by lia.
  assert (LX : forall w, length (firstn (Z.to_nat i) x ++ w :: skipn (S (Z.to_nat i)) x) = length x).
  { intros w. rewrite app_length, firstn_length, Nat.min_l by lia. cbn [length]. rewrite skipn_length. lia. }
  apply list_at0.
  - rewrite aff_len, LX, app_length, firstn_length, aff_len, Nat.min_l by lia. cbn [length]. rewrite skipn_length, aff_len. lia.
  - intros j Hj.
    assert (Hj' : (j < length x)%nat).
    { rewrite app_length, firstn_length, aff_len, Nat.min_l in Hj by lia. cbn [length] in Hj. rewrite skipn_length, aff_len in Hj. lia. }
    rewrite aff_at by (now rewrite LX).
    assert (A : forall (y : list R) w, (Z.to_nat i < length y)%nat -> at0 (firstn (Z.to_nat i) y ++ w :: skipn (S (Z.to_nat i)) y) j = if Nat.eqb j (Z.to_nat i) then w else at0 y j).
    { intros y w Ly. unfold at0. destruct (Nat.eqb_spec j (Z.to_nat i)) as [->|N].
      - rewrite app_nth2; rewrite firstn_length, Nat.min_l by lia; [|lia]. now rewrite Nat.sub_diag.
      - destruct (Nat.lt_ge_cases j (Z.to_nat i)).
        + rewrite app_nth1 by (rewrite firstn_length; lia). rewrite <- (firstn_skipn (Z.to_nat i) y) at 2. rewrite app_nth1 by (rewrite firstn_length; lia). auto.
        + rewrite app_nth2; rewrite firstn_length, Nat.min_l by lia; [|lia]. destruct (j - Z.to_nat i)%nat as [|m] eqn:Em; [lia|]. cbn [nth].
          rewrite <- (firstn_skipn (S (Z.to_nat i)) y) at 2. rewrite app_nth2; rewrite firstn_length, Nat.min_l by lia; [|lia]. f_equal. lia. }
    rewrite !A by (rewrite ?aff_len; auto). destruct (Nat.eqb_spec j (Z.to_nat i)) as [->|]; auto. now rewrite aff_at.
Qed.
Lemma aff_fix fx : forall pop, fix_rows (moved_fixed c t fx) (map h pop) = rmap (map h) (fix_rows fx pop).
Proof.
  induction fx as [|[i v] fx IH]; intros pop; cbn [moved_fixed map fix_rows fst snd]; auto.
  assert (S : set_row i (c * v + t (Z.to_nat i)) (map h pop) = rmap (map h) (set_row i v pop)).
  { unfold set_row. clear IH. induction pop as [|x pop IH]; cbn [map mapM]; auto. rewrite aff_upd, bind_rmap, rmap_bind. apply bind_ext'. intros a. rewrite IH, bind_rmap, rmap_bind. apply bind_ext'. reflexivity. }
  rewrite S, bind_rmap, rmap_bind. apply bind_ext'. intros a. apply IH.
Qed.
Lemma put_fixed_aff fx : forall x y i, y i = c * x i + t i -> put_fixed (moved_fixed c t fx) y i = c * put_fixed fx x i + t i.
Proof.
  induction fx as [|[j v] fx IH]; intros x y i H; cbn; auto. apply IH. destruct (Z.eqb_spec (Z.of_nat i) j) as [<-|]; auto. now rewrite Nat2Z.id.
Qed.

Variable p : npar.
Let k := p_k p.
Let d := k_dim k.
Let p' := moved_par c t p.
Hypothesis HW : good_weights k.
Hypothesis HS : 0 < p_sigma0 p \/ c = 1.
Hypothesis HScale : forall x, p_scale p x = x.
Let RR := moved_num d c t.
Lemma init_sigma_aff : init_sigma p' = c * init_sigma p.
Proof using Hc HS.
  unfold init_sigma. cbn [p' moved_par p_sigma0 p_k moved_cpar k_dim]. destruct HS as [H| ->].
  - destruct (Rlt_dec 0 (p_sigma0 p)); [|lra]. destruct (Rlt_dec 0 (c * p_sigma0 p)) as [|N]; auto. exfalso. apply N. now apply Rmult_lt_0_compat.
  - rewrite !Rmult_1_l. auto.
Qed.
Definition start_aff (n n' : num) : Prop :=
  x_pos n' = x_pos n /\ x_upos n' = x_upos n /\ (forall i, (i < d)%nat -> x_smean n' i = c * x_smean n i + t i) /\ x_dec n' = x_dec n.
Lemma stream_start n n' : same_stream c t n n' -> start_aff n n'.
Proof using Type. intros (S1 & S2 & S3 & S4). repeat split; auto. Qed.
Lemma rr_start n n' : RR n n' -> start_aff n n'.
Proof using Type. intros HR. split; [apply HR|split; [apply HR|split; apply HR]]. Qed.
Lemma new_aff x0 n n' : length x0 = d -> start_aff n n' -> RR (new_num p x0 n) (new_num p' (h x0) n').
Proof using Hc HS HScale.
  intros L (S1 & S2 & S3 & S4). unfold RR, moved_num, new_num. cbn [x_mean x_sigma x_cov x_sep x_v x_psigma x_pc x_tpas x_prev x_smean x_leig x_csqinv x_lvec x_dec x_maxev x_minev x_fresh x_eigiter x_pos x_upos].
  assert (M : forall i, (i < d)%nat -> init_mean p' (h x0) i = c * init_mean p x0 i + t i).
  { intros i Hi. unfold init_mean. cbn [p' moved_par p_scale p_k moved_cpar k_dim k_fixed]. rewrite !HScale. rewrite !at0_tab by exact Hi. apply put_fixed_aff. apply aff_at. fold d in L. lia. }
  split; [exact M|]. split; [apply init_sigma_aff|]. split; [auto|]. split; [auto|]. split.
  { intros i _. unfold init_v. cbn [p' moved_par p_k moved_cpar k_dim k_vd p_normal]. rewrite S1. reflexivity. }
  repeat split; auto. cbn [p' moved_par p_k moved_cpar k_vd k_dim]. rewrite S1. reflexivity.
Qed.

Lemma mu_le : (k_mu k <= k_lambda k)%nat /\ (1 <= k_lambda k)%nat.
Proof using HW. destruct HW as (_ & H1 & H2 & _). split; lia. Qed.
Section Step.
Variables n n' : num.
Hypothesis HR : RR n n'.
Let Rm : forall i, (i < d)%nat -> x_mean n' i = c * x_mean n i + t i := proj1 HR.
Let Rs : x_sigma n' = c * x_sigma n := proj1 (proj2 HR).
Let Rcov : forall i j, (i < d)%nat -> (j < d)%nat -> x_cov n' i j = x_cov n i j := proj1 (proj2 (proj2 HR)).
Lemma rest : (forall i, (i < d)%nat -> x_sep n' i = x_sep n i) /\
  (forall i, (i < d)%nat -> x_v n' i = x_v n i) /\
  (forall i, (i < d)%nat -> x_psigma n' i = x_psigma n i) /\
  (forall i, (i < d)%nat -> x_pc n' i = x_pc n i) /\
  x_tpas n' = x_tpas n /\
  (forall i, (i < d)%nat -> x_prev n' i = c * x_prev n i + t i) /\
  (forall i, (i < d)%nat -> x_smean n' i = c * x_smean n i + t i) /\
  (forall i, (i < d)%nat -> x_leig n' i = x_leig n i) /\
  (forall i j, (i < d)%nat -> (j < d)%nat -> x_csqinv n' i j = x_csqinv n i j) /\
  x_lvec n' = x_lvec n /\ x_dec n' = x_dec n /\
  x_maxev n' = x_maxev n /\ x_minev n' = x_minev n /\
  x_fresh n' = x_fresh n /\ x_eigiter n' = x_eigiter n /\ x_pos n' = x_pos n /\ x_upos n' = x_upos n.
Proof. exact (proj2 (proj2 (proj2 HR))). Qed.

Ltac redp := cbn [p' moved_par moved_cpar p_k p_upd p_sigma0 p_lazy p_xtol p_tpac p_epsuh p_eig p_normal p_unif p_scale p_pheno k_dim k_lambda k_mu k_w k_muw k_csigma k_cc k_c1 k_cmu k_dsigma k_fact_ps k_fact_pc k_chi k_lazy k_rlambda k_alphathuh k_sep k_vd k_algo k_tpa k_fixed].
Ltac projs := cbn [x_mean x_sigma x_cov x_sep x_v x_psigma x_pc x_tpas x_prev x_smean x_leig x_csqinv x_lvec x_dec x_maxev x_minev x_fresh x_eigiter x_pos x_upos].
Ltac parts := destruct rest as (Rsep & Rv & Rps & Rpc & Rtp & Rpr & Rsm & Rle & Rcs & Rlv & Rdec & Rmx & Rmn & Rfr & Rei & Rpos & Rup).

Lemma xmean_aff : tab d (x_mean n') = h (tab d (x_mean n)).
Proof. rewrite aff_tab. apply tab_ext. exact Rm. Qed.
Lemma solver_aff f i m m' dc : (forall j, (j < d)%nat -> m' j = c * m j + t j) -> RR (with_solver n f i m dc) (with_solver n' f i m' dc).
Proof. intros H. parts. unfold RR, moved_num, with_solver. projs. repeat split; auto. Qed.
Lemma eigen_aff it : RR (eigen_num p it n) (eigen_num p' it n').
Proof.
  unfold eigen_num. redp. parts. rewrite Rfr, Rei, Rdec.
  destruct (k_sep (p_k p) || k_vd (p_k p)); [apply solver_aff, Rm|].
  destruct (_ || _).
  - rewrite (mtab_ext _ (x_cov n') (x_cov n)) by exact Rcov. apply solver_aff, Rm.
  - apply solver_aff, Rsm.
Qed.
Lemma pos_aff a b : RR (with_pos n a b) (with_pos n' a b).
Proof. parts. unfold RR, moved_num, with_pos. projs. repeat split; auto. Qed.
Lemma sample_col_aff z i : (i < d)%nat -> sample_col p' n' z i = c * sample_col p n z i + t i.
Proof.
  intros Hi. unfold sample_col. redp. parts. rewrite Rdec, Rs. fold k d. destruct (k_sep k).
  - rewrite Rsep, Rsm by auto. ring.
  - destruct (k_vd k).
    + cbv zeta. rewrite Rm, Rsep, Rv by auto.
      rewrite (dot_ext d (x_v n') (x_v n) (x_v n') (x_v n)) by auto.
      rewrite (dot_ext d (fun i0 => x_v n' i0 / sqrt (dot d (x_v n) (x_v n))) (fun i0 => x_v n i0 / sqrt (dot d (x_v n) (x_v n))) z z) by (intros; rewrite ?Rv; auto). ring.
    + rewrite Rsm by auto. ring.
Qed.
Lemma sample_aff m : fst (sample_num p' m n') = map h (fst (sample_num p m n)) /\ RR (snd (sample_num p m n)) (snd (sample_num p' m n')).
Proof.
  unfold sample_num. cbn [fst snd]. redp. parts. rewrite Rpos, Rup. split; [|apply pos_aff].
  rewrite map_map. apply map_ext. intros j. rewrite aff_tab. apply tab_ext. intros i Hi. apply sample_col_aff, Hi.
Qed.
Lemma shift_norm_aff : shift_norm p' n' = shift_norm p n.
Proof.
  unfold shift_norm. redp. parts. rewrite Rs, Rdec. fold k d.
  assert (E : forall u v, (forall i, (i < d)%nat -> u i = c * v i) -> norm d u / (c * x_sigma n) = norm d v / x_sigma n).
  { intros u v H. rewrite (norm_ext d u (fun i => c * v i)) by auto. rewrite norm_scal. rewrite Rabs_pos_eq by lra. unfold Rdiv. rewrite Rinv_mult. apply cc1. }
  destruct (_ || _).
  - apply E. intros i Hi. rewrite Rm, Rpr, Rsep by auto. unfold Rdiv. ring.
  - apply E. intros i Hi. unfold Rdiv. rewrite <- Rmult_assoc. f_equal. unfold mv. rewrite <- rsum_scal. apply rsum_ext. intros j Hj. rewrite Rm, Rpr by auto. ring.
Qed.
Lemma tpa_points_aff :
  fst (tpa_points p' n') = (h (fst (fst (tpa_points p n))), h (snd (fst (tpa_points p n)))) /\ RR (snd (tpa_points p n)) (snd (tpa_points p' n')).
Proof.
  unfold tpa_points. cbn [fst snd]. rewrite shift_norm_aff. redp. parts. rewrite Rpos, Rup. split; [|apply pos_aff].
  rewrite !aff_tab. f_equal; apply tab_ext; intros i Hi; rewrite Rm, Rpr by exact Hi; unfold Rdiv; ring.
Qed.
Lemma coin_aff : fst (coin_num p' n') = fst (coin_num p n) /\ RR (snd (coin_num p n)) (snd (coin_num p' n')).
Proof. unfold coin_num. cbn [fst snd]. redp. parts. rewrite Rpos, Rup. split; [reflexivity|apply pos_aff]. Qed.
Lemma mutate_aff l : Forall (fun x => length x = d) l ->
  fst (mutate_num p' (map h l) n') = map h (fst (mutate_num p l n)) /\ RR (snd (mutate_num p l n)) (snd (mutate_num p' (map h l) n')).
Proof.
  intros F. unfold mutate_num. cbn [fst snd]. redp. parts. rewrite Rpos, Rup, map_length. split; [|apply pos_aff].
  rewrite map_map. apply map_ext_in. intros j Hj. apply in_seq in Hj. rewrite aff_tab. apply tab_ext. intros i Hi.
  change (nth j (map h l) []) with (nth j (map h l) (h [])). rewrite map_nth. rewrite aff_at; [rewrite Rs; ring|].
  replace (length (nth j l [])) with d; [exact Hi|]. symmetry. apply (proj1 (Forall_forall _ _) F), nth_In. lia.
Qed.
Lemma tpa_aff z : RR (tpa_num p z n) (tpa_num p' z n').
Proof. unfold tpa_num. redp. parts. rewrite Rtp. unfold RR, moved_num, with_tpas. projs. repeat split; auto. Qed.
Lemma scale_aff : RR (uh_scale_num p n) (uh_scale_num p' n').
Proof. parts. unfold RR, moved_num, uh_scale_num. redp. projs. repeat split; auto. rewrite Rs. ring. Qed.

(** Criteria. *)
Lemma ratio_aff : x_sigma n' / init_sigma p' = x_sigma n / init_sigma p.
Proof using HR Hc HS. rewrite Rs, init_sigma_aff. unfold Rdiv. rewrite Rinv_mult. apply cc1. Qed.
Lemma variance_aff i : (i < d)%nat -> variance p' n' i = variance p n i.
Proof. intros Hi. unfold variance. redp. parts. destruct (_ || _); auto. Qed.
Lemma all_ext f f' : (forall i, (i < d)%nat -> f i = f' i) -> all_below p' f = all_below p f'.
Proof. intros H. unfold all_below. apply forallb_ext_in. intros i Hi. apply in_seq in Hi. apply H. redp. unfold d, k. lia. Qed.
Lemma crit_aff cc : crit_num p' cc n' = crit_num p cc n.
Proof using HR Hc HS.
  parts. unfold crit_num.
  assert (K : forall i x x', (i < d)%nat -> x' = c * x ->
    (if Req_EM_T (x_mean n' i) (x_mean n' i + x') then true else false) = (if Req_EM_T (x_mean n i) (x_mean n i + x) then true else false)).
  { intros i x x' Hi ->. rewrite Rm by auto. destruct (Req_EM_T (c * x_mean n i + t i) _) as [E|E], (Req_EM_T (x_mean n i) _) as [E'|E']; auto; exfalso.
    - apply E'. assert (c * x = 0) by lra. destruct (Rmult_integral _ _ H); lra.
    - apply E. assert (x = 0) by lra. subst x. lra. }
  destruct (cc =? 2)%Z.
  { unfold tol_x. rewrite ratio_aff. cbv zeta. redp. f_equal; apply all_ext; intros i Hi; [rewrite Rpc by auto|rewrite variance_aff by auto]; reflexivity. }
  destruct (cc =? -13)%Z; [unfold tol_up_sigma; rewrite ratio_aff, Rmx; reflexivity|].
  destruct (cc =? -15)%Z; [unfold condition_cov; rewrite Rmx, Rmn; reflexivity|].
  destruct (cc =? 3)%Z.
  { unfold no_effect_axis. apply all_ext. intros i Hi. apply all_ext. intros j Hj. apply K; auto. redp. rewrite Rs, Rle, Rlv by auto. destruct (_ || _); ring. }
  destruct (cc =? 4)%Z; auto.
  unfold no_effect_coor. apply all_ext. intros i Hi. apply K; auto. rewrite Rs, variance_aff by auto. ring.
Qed.

(** Updates. *)
Section Upd.
Variable xs : list (list R).
Hypothesis Hx : Forall (fun x => length x = d) xs.
Hypothesis Hl : length xs = k_lambda k.
Let ys := map h xs.
Lemma pt_aff l i : (l < k_lambda k)%nat -> (i < d)%nat -> pt ys l i = c * pt xs l i + t i.
Proof using Hx Hl.
  intros H Hi. unfold pt, ys. change (nth l (map h xs) []) with (nth l (map h xs) (h [])). rewrite map_nth. rewrite aff_at; auto.
  replace (length (nth l xs [])) with d; auto. symmetry. apply (proj1 (Forall_forall _ _) Hx), nth_In. lia.
Qed.
Lemma wsum : rsum (k_mu k) (fun i => wgt p i) = 1.
Proof using HW.
  destruct HW as (L & _ & _ & _ & S). rewrite sumR_rsum, L in S. exact S.
Qed.
Lemma mean_aff i : (i < d)%nat -> new_mean p' ys n' i = c * new_mean p xs n i + t i.
Proof using HR Hx Hl HW.
  intros Hi. unfold new_mean. redp. fold k.
  assert (A : rsum (k_mu k) (fun l => wgt p l * pt ys l i) = c * rsum (k_mu k) (fun l => wgt p l * pt xs l i) + t i).
  { rewrite (rsum_ext _ _ (fun l => c * (wgt p l * pt xs l i) + t i * wgt p l)).
    - rewrite rsum_plus, !rsum_scal. replace (rsum (k_mu k) (wgt p)) with 1 by (symmetry; exact wsum). ring.
    - intros l H. rewrite pt_aff; auto; [ring|]. pose proof mu_le. lia. }
  destruct (p_upd p); auto.
  rewrite Rm by auto.
  rewrite (rsum_ext _ _ (fun l => c * (wgt p l * (pt xs l i - x_mean n i)))); [rewrite rsum_scal; ring|].
  intros l H. change (wgt p' l) with (wgt p l). rewrite pt_aff; auto; [ring|]. pose proof mu_le. lia.
Qed.
Lemma step_aff i : (i < d)%nat -> mean_step p' ys n' i = mean_step p xs n i.
Proof using HR Hx Hl HW Hc.
  intros Hi. unfold mean_step. redp. rewrite mean_aff, Rm, Rs by auto.
  destruct (p_upd p); unfold Rdiv, cm; rewrite !Rinv_mult; generalize (/ x_sigma n); intros y; field; lra.
Qed.
Lemma csq_aff i j : (i < d)%nat -> (j < d)%nat -> new_csqinv p' n' i j = new_csqinv p n i j.
Proof. intros Hi Hj. unfold new_csqinv. redp. parts. rewrite Rfr, Rdec. destruct (_ && _); auto. Qed.
Lemma psigma_aff i : (i < d)%nat -> new_psigma p' ys n' i = new_psigma p xs n i.
Proof using HR Hx Hl HW Hc.
  intros Hi. unfold new_psigma. redp. parts. rewrite Rps, step_aff by auto. fold k d. 
  replace (mv d (new_csqinv p' n') (mean_step p' ys n') i) with (mv d (new_csqinv p n) (mean_step p xs n) i).
  - rewrite Rv, Rsep by auto. reflexivity.
  - symmetry. apply mv_ext; [intros; apply csq_aff|intros; apply step_aff]; auto.
Qed.
Lemma hsig_aff it : hsig p' it ys n' = hsig p it xs n.
Proof using HR Hx Hl HW Hc.
  unfold hsig. redp. unfold moved_fixed. rewrite map_length. fold k d. rewrite (norm_ext d (new_psigma p' ys n') (new_psigma p xs n)) by (intros; apply psigma_aff; auto). reflexivity.
Qed.
Lemma pc_aff it i : (i < d)%nat -> new_pc p' it ys n' i = new_pc p it xs n i.
Proof using HR Hx Hl HW Hc. intros Hi. unfold new_pc. redp. parts. rewrite hsig_aff, Rpc, step_aff by auto. reflexivity. Qed.
Lemma spread_aff q q' i j : (i < d)%nat -> (j < d)%nat -> (forall l u, (l < k_mu k)%nat -> (u < d)%nat -> q' l u = c * q l u + t u) ->
  spread p' q' n' i j = spread p q n i j.
Proof using HR Hc.
  intros Hi Hj H. unfold spread. redp. fold k. rewrite Rs.
  rewrite (rsum_ext _ _ (fun l => c * c * (wgt p l * ((q l i - x_mean n i) * (q l j - x_mean n j))))).
  - rewrite rsum_scal. unfold Rdiv. rewrite !Rinv_mult. generalize (/ x_sigma n); intros y. field. lra.
  - intros l Hll. change (wgt p' l) with (wgt p l). rewrite !H, !Rm by auto. ring.
Qed.
Lemma best_aff l u : (l < k_mu k)%nat -> (u < d)%nat -> best_of ys l u = c * best_of xs l u + t u.
Proof using HR Hx Hl HW. intros. apply pt_aff; auto. pose proof mu_le. lia. Qed.
Lemma worst_aff l u : (l < k_mu k)%nat -> (u < d)%nat -> worst_of p' ys l u = c * worst_of p xs l u + t u.
Proof using HR Hx Hl HW. intros. unfold worst_of. redp. apply pt_aff; auto. fold k. pose proof mu_le. lia. Qed.
Lemma cov_aff it i j : (i < d)%nat -> (j < d)%nat -> rank_mu_cov p' it ys n' i j = rank_mu_cov p it xs n i j.
Proof using HR Hx Hl HW Hc.
  intros Hi Hj. unfold rank_mu_cov, keep_rate. redp. rewrite hsig_aff, Rcov, !pc_aff by auto. rewrite (spread_aff (best_of xs) (best_of ys)); auto. apply best_aff.
Qed.
Lemma sep_aff it i : (i < d)%nat -> rank_mu_sep p' it ys n' i = rank_mu_sep p it xs n i.
Proof using HR Hx Hl HW Hc.
  intros Hi. parts. unfold rank_mu_sep, keep_rate. redp. rewrite hsig_aff, Rsep, !pc_aff by auto. rewrite (spread_aff (best_of xs) (best_of ys)); auto. apply best_aff.
Qed.
Lemma worst_spread i j : (i < d)%nat -> (j < d)%nat -> spread p' (worst_of p' ys) n' i j = spread p (worst_of p xs) n i j.
Proof using HR Hx Hl HW Hc. intros. apply spread_aff; auto. apply worst_aff. Qed.
Lemma cminus_aff : cminus p' ys n' = cminus p xs n.
Proof using HR Hx Hl HW Hc.
  unfold cminus. cbv zeta.
  assert (E : cminus_denom p' ys n' = cminus_denom p xs n).
  { unfold cminus_denom. redp. parts. fold k d. destruct (k_sep k).
    - apply vmax_ext. intros i Hi. rewrite Rsep, worst_spread by auto. reflexivity.
    - f_equal. f_equal. f_equal. apply mtab_ext. intros i j Hi Hj. unfold mm. apply rsum_ext. intros l Hll. rewrite csq_aff by auto. f_equal.
      apply rsum_ext. intros m Hm. rewrite csq_aff, worst_spread by auto. reflexivity. }
  rewrite E. reflexivity.
Qed.
Lemma acov_aff it i j : (i < d)%nat -> (j < d)%nat -> active_cov p' it ys n' i j = active_cov p it xs n i j.
Proof using HR Hx Hl HW Hc.
  intros Hi Hj. unfold active_cov. rewrite cminus_aff. redp. rewrite Rcov, !pc_aff, worst_spread by auto. rewrite (spread_aff (best_of xs) (best_of ys)); auto. apply best_aff.
Qed.
Lemma asep_aff it i : (i < d)%nat -> active_sep p' it ys n' i = active_sep p it xs n i.
Proof using HR Hx Hl HW Hc.
  intros Hi. parts. unfold active_sep. rewrite cminus_aff. redp. rewrite Rsep, !pc_aff, worst_spread by auto. rewrite (spread_aff (best_of xs) (best_of ys)); auto. apply best_aff.
Qed.
Lemma sigma_aff it : new_sigma p' it ys n' = c * new_sigma p it xs n.
Proof using HR Hx Hl HW Hc.
  unfold new_sigma. redp. parts. fold k d. rewrite (norm_ext d (new_psigma p' ys n') (new_psigma p xs n)) by (intros; apply psigma_aff; auto). rewrite Rs, Rtp.
  destruct (_ <? 2)%Z; [ring|]. destruct (_ <? _)%Z; ring.
Qed.

(** vd. *)
Lemma v_at i : (i < d)%nat -> x_v n' i = x_v n i. Proof. parts. auto. Qed.
Lemma dd_at i : (i < d)%nat -> x_sep n' i = x_sep n i. Proof. parts. auto. Qed.
Lemma nv_aff : dot d (x_v n') (x_v n') = dot d (x_v n) (x_v n).
Proof. apply dot_ext; apply v_at. Qed.
Lemma alpha_aff : vd_alpha p' n' = vd_alpha p n.
Proof.
  unfold vd_alpha. redp. fold k d. rewrite nv_aff.
  rewrite (vmax_ext d _ (fun i => x_v n i / sqrt (dot d (x_v n) (x_v n)) * (x_v n i / sqrt (dot d (x_v n) (x_v n))))) by (intros i Hi; now rewrite v_at). reflexivity.
Qed.
Lemma b_aff : vd_b p' n' = vd_b p n.
Proof. unfold vd_b. rewrite alpha_aff. redp. fold k d. rewrite nv_aff. reflexivity. Qed.
Lemma ainv_aff i : (i < d)%nat -> vd_ainv p' n' i = vd_ainv p n i.
Proof. intros Hi. unfold vd_ainv. rewrite alpha_aff, b_aff. redp. fold k d. rewrite nv_aff, v_at by auto. reflexivity. Qed.
Lemma vbar_dot y y' : (forall i, (i < d)%nat -> y' i = y i) ->
  dot d (fun i => x_v n' i / sqrt (dot d (x_v n) (x_v n))) y' = dot d (fun i => x_v n i / sqrt (dot d (x_v n) (x_v n))) y.
Proof. intros H. apply dot_ext; auto. intros i Hi. now rewrite v_at. Qed.
Lemma vdp_aff y y' i : (i < d)%nat -> (forall i, (i < d)%nat -> y' i = y i) -> vd_p p' n' y' i = vd_p p n y i.
Proof. intros Hi H. unfold vd_p. redp. fold k d. rewrite nv_aff, (vbar_dot y y'), v_at, H by auto. reflexivity. Qed.
Lemma vdq_aff y y' i : (i < d)%nat -> (forall i, (i < d)%nat -> y' i = y i) -> vd_q p' n' y' i = vd_q p n y i.
Proof. intros Hi H. unfold vd_q. redp. fold k d. rewrite nv_aff, (vbar_dot y y'), v_at, H by auto. reflexivity. Qed.
Lemma vdy_aff l i : (l < k_mu k)%nat -> (i < d)%nat -> vd_y ys n' l i = vd_y xs n l i.
Proof using HR Hx Hl HW Hc.
  intros Hll Hi. unfold vd_y. rewrite pt_aff, Rm, Rs, dd_at; auto; [|pose proof mu_le; lia].
  unfold Rdiv. rewrite Rinv_mult. generalize (/ x_sigma n) (/ x_sep n i). intros y z. field. lra.
Qed.
Lemma mix_aff it (f f' : vec -> vec) i : (i < d)%nat -> (forall y y', (forall j, (j < d)%nat -> y' j = y j) -> f' y' i = f y i) ->
  vd_mix p' it ys n' f' i = vd_mix p it xs n f i.
Proof using HR Hx Hl HW Hc.
  intros Hi H. unfold vd_mix. redp. fold k. rewrite hsig_aff.
  rewrite (H (vd_ym p it xs n) (vd_ym p' it ys n')); [|intros j Hj; unfold vd_ym; now rewrite dd_at, pc_aff by auto].
  f_equal. f_equal. apply rsum_ext. intros l Hll. change (wgt p' l) with (wgt p l). rewrite (H (vd_y xs n l) (vd_y ys n' l)); auto. intros j Hj. apply vdy_aff; auto.
Qed.
Lemma pvec_aff it i : (i < d)%nat -> vd_pvec p' it ys n' i = vd_pvec p it xs n i.
Proof using HR Hx Hl HW Hc. intros Hi. apply mix_aff; auto. intros; apply vdp_aff; auto. Qed.
Lemma qvec_aff it i : (i < d)%nat -> vd_qvec p' it ys n' i = vd_qvec p it xs n i.
Proof using HR Hx Hl HW Hc. intros Hi. apply mix_aff; auto. intros; apply vdq_aff; auto. Qed.
Lemma vdr_aff it i : (i < d)%nat -> vd_r p' it ys n' i = vd_r p it xs n i.
Proof using HR Hx Hl HW Hc.
  intros Hi. unfold vd_r. rewrite alpha_aff. redp. fold k d. rewrite nv_aff, pvec_aff, qvec_aff, v_at by auto. rewrite (vbar_dot (vd_qvec p it xs n)) by (intros; apply qvec_aff; auto). reflexivity.
Qed.
Lemma vds_aff it i : (i < d)%nat -> vd_s p' it ys n' i = vd_s p it xs n i.
Proof using HR Hx Hl HW Hc.
  intros Hi. unfold vd_s. rewrite b_aff. redp. fold k d. rewrite nv_aff, vdr_aff, ainv_aff, v_at by auto.
  set (q := sqrt (dot d (x_v n) (x_v n))).
  rewrite (dot_ext d (fun i0 => vd_ainv p' n' i0 * (x_v n' i0 / q * (x_v n' i0 / q))) (fun i0 => vd_ainv p n i0 * (x_v n i0 / q * (x_v n i0 / q))) (vd_r p' it ys n') (vd_r p it xs n));
    [|intros j Hj; now rewrite ainv_aff, v_at by auto|intros; apply vdr_aff; auto].
  rewrite (dot_ext d (fun i0 => vd_ainv p' n' i0 * (x_v n' i0 / q * (x_v n' i0 / q))) (fun i0 => vd_ainv p n i0 * (x_v n i0 / q * (x_v n i0 / q))) (fun i0 => x_v n' i0 / q * (x_v n' i0 / q)) (fun i0 => x_v n i0 / q * (x_v n i0 / q)));
    [|intros j Hj; now rewrite ainv_aff, v_at by auto|intros j Hj; now rewrite v_at by auto].
  reflexivity.
Qed.
Lemma vdtest_aff it : vd_test p' it ys n' = vd_test p it xs n.
Proof using HR Hx Hl HW Hc. unfold vd_test. redp. rewrite hsig_aff. reflexivity. Qed.
Lemma newv_aff it i : (i < d)%nat -> new_v p' it ys n' i = new_v p it xs n i.
Proof using HR Hx Hl HW Hc.
  intros Hi. unfold new_v. rewrite vdtest_aff. destruct (vd_test p it xs n); [|apply v_at; auto]. rewrite v_at by auto. f_equal.
  unfold vd_ngv. rewrite alpha_aff. redp. fold k d. rewrite nv_aff, qvec_aff, vds_aff, v_at by auto. set (q := sqrt (dot d (x_v n) (x_v n))).
  rewrite (dot_ext d (vd_s p' it ys n') (vd_s p it xs n) (fun i0 => x_v n' i0 / q * (x_v n' i0 / q)) (fun i0 => x_v n i0 / q * (x_v n i0 / q)));
    [|intros; apply vds_aff; auto|intros j Hj; now rewrite v_at by auto].
  reflexivity.
Qed.
Lemma newsep_aff it i : (i < d)%nat -> new_vd_sep p' it ys n' i = new_vd_sep p it xs n i.
Proof using HR Hx Hl HW Hc. intros Hi. unfold new_vd_sep. rewrite vdtest_aff. destruct (vd_test p it xs n); rewrite ?vds_aff, dd_at by auto; reflexivity. Qed.

Lemma update_aff it : RR (update_num p it xs n) (update_num p' it ys n').
Proof using HR Hx Hl HW Hc.
  parts. unfold RR, moved_num, update_num. projs. redp. fold k d.
  assert (SEP : forall i, (i < d)%nat ->
    (match p_upd p with Full => if k_sep k then rank_mu_sep p' it ys n' else x_sep n' | Active => if k_sep k then active_sep p' it ys n' else x_sep n' | Vd => new_vd_sep p' it ys n' end) i =
    (match p_upd p with Full => if k_sep k then rank_mu_sep p it xs n else x_sep n | Active => if k_sep k then active_sep p it xs n else x_sep n | Vd => new_vd_sep p it xs n end) i).
  { intros i Hi. destruct (p_upd p), (k_sep k); auto using sep_aff, asep_aff, newsep_aff. }
  assert (EV : forall i, (i < d)%nat ->
    (if k_sep k || k_vd k then match p_upd p with Full => if k_sep k then rank_mu_sep p' it ys n' else x_sep n' | Active => if k_sep k then active_sep p' it ys n' else x_sep n' | Vd => new_vd_sep p' it ys n' end else fst (x_dec n')) i =
    (if k_sep k || k_vd k then match p_upd p with Full => if k_sep k then rank_mu_sep p it xs n else x_sep n | Active => if k_sep k then active_sep p it xs n else x_sep n | Vd => new_vd_sep p it xs n end else fst (x_dec n)) i).
  { intros i Hi. rewrite Rdec. destruct (k_sep k || k_vd k); auto. }
  split; [apply mean_aff|]. split; [apply sigma_aff|]. split; [intros i j Hi Hj; destruct (p_upd p), (k_sep k); auto using cov_aff, acov_aff|].
  split; [exact SEP|]. split; [intros i Hi; destruct (p_upd p); auto using newv_aff|]. split; [apply psigma_aff|]. split; [intros; apply pc_aff; auto|].
  split; [auto|]. split; [intros i Hi; destruct (p_upd p); try destruct (k_tpa k =? 0)%Z; auto|]. split; [auto|]. split; [exact EV|].
  split; [intros i j Hi Hj; destruct (p_upd p); auto using csq_aff|]. rewrite !Rdec. split; [auto|]. split; [auto|].
  rewrite Rdec in EV. split; [apply vmax_ext, EV|]. split; [apply vmin_ext, EV|]. repeat split; auto.
Qed.
End Upd.
End Step.

(** Main statement. *)
Variables (e : env R num) (g : cfg R) (pr : sol R num -> Z).
Hypothesis HG : same_problem p g.
Hypothesis HP : plain_space p e g.
Hypothesis HU : std_sort_ok e.
Hypothesis HPr : forall so so', moved_sol h RR so so' -> pr so' = e_progress e so.
Let e' := moved_env c t pr e.
Let g' := moved_cfg c t g.
Let okx (x : list R) : Prop := length x = g_dim g.
Lemma okx_d x : okx x <-> length x = d. Proof. unfold okx. destruct HG as [-> _]. reflexivity. Qed.
Lemma affine_history x0 n n' hs : length x0 = d -> same_stream c t n n' -> Forall (point_op g) hs -> initial_known g hs ->
  moved_result h RR (do s <- st_new (cma_num p) g x0 n; run_ops (cma_num p) e g hs s)
                    (do s <- st_new (cma_num p') g' (h x0) n'; run_ops (cma_num p') e' g' (map (move_op h) hs) s).
Proof.
  intros HX HN F HI. pose proof HP as (P1 & P2 & P3 & P4). pose proof HG as (G1 & G2 & G3).
  refine (morph_history (cma_num p) (cma_num p') e e' g (moved_fixed c t (g_fixed g)) h RR _ _ _ _ _ _ _ _ _ _ _ _ _ _ _ _ _ P3 (dims_of p g G1) _ _ _ P4 HU x0 n n' hs _ _ HI).
  - apply aff_nil.
  - apply aff_cons.
  - intros m m' HR. split; [apply xmean_aff, HR|]. cbn [cma_num n_xmean]. rewrite !tab_length. reflexivity.
  - intros i m m' HR. apply eigen_aff, HR.
  - intros j m m' HR. apply sample_aff, HR.
  - intros m m' HR. apply tpa_points_aff, HR.
  - intros m m' HR. apply coin_aff, HR.
  - intros _ l m m' HR Fl. apply mutate_aff; [exact HR|]. unfold d, k. rewrite <- G1. exact Fl.
  - intros z m m' HR. apply tpa_aff, HR.
  - intros i xs m m' HR Fx Lx. apply update_aff; [exact HR|unfold d, k; rewrite <- G1; exact Fx|unfold k; congruence].
  - intros m m' HR. apply scale_aff, HR.
  - intros z m m' _ HR. apply crit_aff, HR.
  - apply aff_fix.
  - intros j x _. cbn. f_equal. apply unaff_aff.
  - intros x _. cbn. now rewrite !P1.
  - reflexivity.
  - exact HPr.
  - intros l m _. cbn. rewrite map_length, seq_length. split; auto. apply Forall_forall. intros x Hxx. apply in_map_iff in Hxx as (j & <- & _). rewrite G1. apply tab_length.
  - intros x y Hxx E. rewrite P1 in E. injection E as <-. exact Hxx.
  - intros _ x m m' HR Hxx. apply new_aff; [exact (eq_trans Hxx G1)|apply rr_start, HR].
  - apply new_aff; auto. apply stream_start, HN.
  - eapply Forall_impl; [|exact F]. intros o. destruct o; cbn; auto.
Qed.
Lemma affine_rounds x0 n n' rd : length x0 = d -> same_stream c t n n' -> needs_initial g = false ->
  moved_result h RR (do s <- st_new (cma_num p) g x0 n; rounds (cma_num p) g e rd s)
                    (do s <- st_new (cma_num p') g' (h x0) n'; rounds (cma_num p') g' e' rd s).
Proof.
  intros HX HN HI. pose proof HP as (P1 & P2 & P3 & P4). pose proof HG as (G1 & G2 & G3).
  refine (morph_rounds (cma_num p) (cma_num p') e e' g (moved_fixed c t (g_fixed g)) h RR _ _ _ _ _ _ _ _ _ _ _ _ _ _ _ _ _ P3 (dims_of p g G1) _ _ _ P4 HU x0 n n' rd _ HI).
  - apply aff_nil.
  - apply aff_cons.
  - intros m m' HR. split; [apply xmean_aff, HR|]. cbn [cma_num n_xmean]. rewrite !tab_length. reflexivity.
  - intros i m m' HR. apply eigen_aff, HR.
  - intros j m m' HR. apply sample_aff, HR.
  - intros m m' HR. apply tpa_points_aff, HR.
  - intros m m' HR. apply coin_aff, HR.
  - intros _ l m m' HR Fl. apply mutate_aff; [exact HR|]. unfold d, k. rewrite <- G1. exact Fl.
  - intros z m m' HR. apply tpa_aff, HR.
  - intros i xs m m' HR Fx Lx. apply update_aff; [exact HR|unfold d, k; rewrite <- G1; exact Fx|unfold k; congruence].
  - intros m m' HR. apply scale_aff, HR.
  - intros z m m' _ HR. apply crit_aff, HR.
  - apply aff_fix.
  - intros j x _. cbn. f_equal. apply unaff_aff.
  - intros x _. cbn. now rewrite !P1.
  - reflexivity.
  - exact HPr.
  - intros l m _. cbn. rewrite map_length, seq_length. split; auto. apply Forall_forall. intros x Hxx. apply in_map_iff in Hxx as (j & <- & _). rewrite G1. apply tab_length.
  - intros x y Hxx E. rewrite P1 in E. injection E as <-. exact Hxx.
  - intros _ x m m' HR Hxx. apply new_aff; [exact (eq_trans Hxx G1)|apply rr_start, HR].
  - apply new_aff; auto. apply stream_start, HN.
Qed.
End Affine.
