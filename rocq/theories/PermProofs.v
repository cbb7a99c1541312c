(** A search without a full covariance is unchanged by renaming the parameters. *)
From Coq Require Import Reals List Lia Lra Permutation Arith.
From Verif Require Import Base Dbl Vec VecProofs Params Config Search SpecSearch SpecInvar SpecMorph SpecSafe SpecUh SortProofs SearchInv RankProofs MorphProofs Update SpecUpdate UpdateProofs DemoNumProofs SpecAffine AffineProofs SpecRot SpecPerm ActiveProofs.
Import ListNotations.
Local Open Scope R_scope.

Lemma vmax_at n u : (0 < n)%nat -> exists i, (i < n)%nat /\ vmax n u = u i.
Proof.
  induction n as [|n IH]; intros H; [lia|]. destruct n as [|n]; [exists 0%nat; split; auto|].
  change (vmax (S (S n)) u) with (Rmax (vmax (S n) u) (u (S n))). destruct IH as (i & Hi & E); [lia|].
  unfold Rmax. destruct (Rle_dec _ _); [exists (S n)|exists i]; split; auto; lia.
Qed.
Lemma vmin_at n u : (0 < n)%nat -> exists i, (i < n)%nat /\ vmin n u = u i.
Proof.
  induction n as [|n IH]; intros H; [lia|]. destruct n as [|n]; [exists 0%nat; split; auto|].
  change (vmin (S (S n)) u) with (Rmin (vmin (S n) u) (u (S n))). destruct IH as (i & Hi & E); [lia|].
  unfold Rmin. destruct (Rle_dec _ _); [exists i|exists (S n)]; split; auto; lia.
Qed.
Lemma vmin_le m (u : vec) i : (i < m)%nat -> vmin m u <= u i.
Proof.
  induction m as [|m IH]; intros H; [lia|]. destruct m as [|m]; [replace i with 0%nat by lia; cbn; lra|].
  change (vmin (S (S m)) u) with (Rmin (vmin (S m) u) (u (S m))). destruct (Nat.eq_dec i (S m)) as [->|]; [apply Rmin_r|].
  apply Rle_trans with (vmin (S m) u); [apply Rmin_l|apply IH; lia].
Qed.

Section Perm.
Variables (s r : nat -> nat).
Let h := perm s.
Lemma perm_len q x : length (perm q x) = length x. Proof. apply tab_length. Qed.
Lemma perm_at x i : (i < length x)%nat -> at0 (h x) i = at0 x (s i).
Proof. intros H. unfold h, perm. now rewrite at0_tab. Qed.
Lemma perm_nil : h [] = []. Proof. reflexivity. Qed.
Lemma perm_cons x l : h (x :: l) <> []. Proof. discriminate. Qed.

Variable p : npar.
Let k := p_k p.
Let d := k_dim k.
Hypothesis HQ : renames d s r.
Hypothesis HS : no_matrix p.
Hypothesis HScale : forall x, p_scale p x = x.
Let p' := perm_par s p.
Let RR := permuted_num d s.

Lemma sd i : (i < d)%nat -> (s i < d)%nat. Proof using HQ. intros H. apply HQ, H. Qed.
Lemma perm_tab v : h (tab d v) = tab d (fun i => v (s i)).
Proof using HQ. unfold h, perm. rewrite tab_length. apply tab_ext. intros i Hi. rewrite at0_tab; auto. apply sd, Hi. Qed.
Lemma unperm_perm x : length x = d -> perm r (h x) = x.
Proof using HQ.
  intros L. unfold perm at 1. unfold h at 1. rewrite perm_len, L. transitivity (tab d (at0 x)); [|apply tab_at0; auto]. apply tab_ext. intros i Hi.
  destruct (HQ i Hi) as (_ & R1 & _ & R2). rewrite perm_at by lia. now rewrite R2.
Qed.
Lemma rsum_perm f : rsum d (fun i => f (s i)) = rsum d f.
Proof using HQ.
  rewrite (rsum_ext d (fun i => f (s i)) (fun i => rsum d (fun j => if Nat.eq_dec (s i) j then f j else 0))).
  - rewrite rsum_swap. apply rsum_ext. intros j Hj. destruct (HQ j Hj) as (_ & R1 & _ & R2). rewrite (rsum_single d _ (r j)); auto.
    + destruct (Nat.eq_dec (s (r j)) j); congruence.
    + intros i Hi N. destruct (Nat.eq_dec (s i) j) as [E|]; auto. exfalso. apply N. rewrite <- E. symmetry. apply HQ, Hi.
  - intros i Hi. rewrite (rsum_single d _ (s i)); [|apply sd, Hi|]; [destruct (Nat.eq_dec (s i) (s i)); congruence|].
    intros j _ N. destruct (Nat.eq_dec (s i) j); congruence.
Qed.
Lemma dot_perm u u' v v' : (forall i, (i < d)%nat -> u' i = u (s i)) -> (forall i, (i < d)%nat -> v' i = v (s i)) -> dot d u' v' = dot d u v.
Proof using HQ.
  intros H H'. unfold dot. rewrite <- (rsum_perm (fun i => u i * v i)). apply rsum_ext. intros i Hi. rewrite H, H' by auto. reflexivity.
Qed.
Lemma norm_perm u u' : (forall i, (i < d)%nat -> u' i = u (s i)) -> norm d u' = norm d u.
Proof using HQ.
  intros H. unfold norm, dot. f_equal. rewrite <- (rsum_perm (fun i => u i * u i)). apply rsum_ext. intros i Hi. rewrite H by auto. reflexivity.
Qed.
Lemma vmax_perm u u' : (forall i, (i < d)%nat -> u' i = u (s i)) -> vmax d u' = vmax d u.
Proof using HQ.
  intros H. destruct (Nat.eq_dec d 0) as [E|E]; [rewrite E; reflexivity|]. apply Rle_antisym.
  - destruct (vmax_at d u') as (i & Hi & ->); [lia|]. rewrite H by auto. apply vmax_ge, sd, Hi.
  - destruct (vmax_at d u) as (i & Hi & ->); [lia|]. destruct (HQ i Hi) as (_ & R1 & _ & R2). rewrite <- R2, <- H by auto. apply vmax_ge, R1.
Qed.
Lemma vmin_perm u u' : (forall i, (i < d)%nat -> u' i = u (s i)) -> vmin d u' = vmin d u.
Proof using HQ.
  intros H. destruct (Nat.eq_dec d 0) as [E|E]; [rewrite E; reflexivity|]. apply Rle_antisym.
  - destruct (vmin_at d u) as (i & Hi & ->); [lia|]. destruct (HQ i Hi) as (_ & R1 & _ & R2). rewrite <- R2, <- H by auto. apply vmin_le, R1.
  - destruct (vmin_at d u') as (i & Hi & ->); [lia|]. rewrite H by auto. apply vmin_le, sd, Hi.
Qed.
Lemma all_perm f f' : (forall i, (i < d)%nat -> f' i = f (s i)) -> all_below p' f' = all_below p f.
Proof using HQ.
  intros H. unfold all_below. change (k_dim (p_k p')) with d. change (k_dim (p_k p)) with d. apply Bool.eq_iff_eq_true. rewrite !forallb_forall. split; intros A i Hi; apply in_seq in Hi.
  - destruct (HQ i) as (_ & R1 & _ & R2); [lia|]. rewrite <- R2, <- H by auto. apply A, in_seq. lia.
  - rewrite H by lia. apply A, in_seq. pose proof (sd i). lia.
Qed.
Lemma draw_at a c i : (i < d)%nat -> p_normal p' (a * d + c * d + i)%nat = p_normal p (a * d + c * d + s i)%nat.
Proof using Type.
  intros Hi. unfold p', perm_par, perm_draws. cbn [with_source p_normal]. fold k d.
  replace (a * d + c * d + i)%nat with (i + (a + c) * d)%nat by lia. rewrite Nat.div_add, Nat.mod_add, Nat.div_small, Nat.mod_small by lia.
  f_equal. lia.
Qed.

Ltac redp := cbn [p' perm_par with_source p_k p_upd p_sigma0 p_lazy p_xtol p_tpac p_epsuh p_eig p_unif p_scale p_pheno].
Ltac projs := cbn [x_mean x_sigma x_cov x_sep x_v x_psigma x_pc x_tpas x_prev x_smean x_leig x_csqinv x_lvec x_dec x_maxev x_minev x_fresh x_eigiter x_pos x_upos].
Lemma new_perm x0 n n' : length x0 = d -> perm_stream d s n n' -> RR (new_num p x0 n) (new_num p' (h x0) n').
Proof using HQ HS HScale.
  intros L (S1 & S2 & S3 & S4). destruct HS as (Q1 & Q3 & Q4). unfold RR, permuted_num, new_num. projs.
  assert (M : forall i, (i < d)%nat -> init_mean p' (h x0) i = init_mean p x0 (s i)).
  { intros i Hi. unfold init_mean. redp. rewrite !HScale, Q4. cbn [put_fixed]. fold k d. rewrite !at0_tab by auto using sd. apply perm_at. lia. }
  destruct S2 as [a Ha]. redp. fold k d. repeat split; auto.
  - intros i Hi. destruct (k_vd k); auto. unfold init_v. change (k_dim (p_k p')) with d. change (k_dim (p_k p)) with d. f_equal. rewrite S1, Ha. pose proof (draw_at a 0 i Hi) as D. cbn [Nat.mul] in D. rewrite !Nat.add_0_r in D. exact D.
  - rewrite S1. reflexivity.
  - destruct (k_vd k); [exists (a + 1)%nat; lia|eauto].
Qed.

Section Step.
Variables n n' : num.
Hypothesis HR : RR n n'.
Lemma rr_parts : RR n n'. Proof. exact HR. Qed.
Ltac parts := destruct rr_parts as (Rm & Rs & Rsep & Rv & Rps & Rpc & Rtp & Rpr & Rsm & Rle & Rmx & Rmn & Rpos & Ral & Rup); destruct HS as (Q1 & Q3 & Q4).
Lemma rr_perm_stream : perm_stream d s n n'.
Proof using HR HS. parts. repeat split; auto. Qed.
Lemma xmean_perm : tab d (x_mean n') = h (tab d (x_mean n)).
Proof using HR HQ HS. parts. rewrite perm_tab. apply tab_ext. exact Rm. Qed.
Lemma eigen_perm it : RR (eigen_num p it n) (eigen_num p' it n').
Proof using HR HS. unfold eigen_num. redp. parts. rewrite Q1. unfold RR, permuted_num, with_solver. projs. repeat split; auto. Qed.
Lemma pos_perm a b b' : b = b' -> (exists c, a = (c * d)%nat) -> RR (with_pos n a b) (with_pos n' a b').
Proof using HR HS. intros <-. parts. unfold RR, permuted_num, with_pos. projs. repeat split; auto. Qed.
Lemma sample_perm m : fst (sample_num p' m n') = map h (fst (sample_num p m n)) /\ RR (snd (sample_num p m n)) (snd (sample_num p' m n')).
Proof using HR HQ HS.
  unfold sample_num. cbn [fst snd]. change (k_dim (p_k p')) with d. change (k_dim (p_k p)) with d. parts. destruct Ral as [a Ha]. rewrite Rpos. split.
  - rewrite map_map. apply map_ext. intros j. rewrite perm_tab. apply tab_ext. intros i Hi. unfold sample_col. redp. fold k d. fold k in Q1.
    destruct (k_sep k); [rewrite Ha, draw_at, Rs, Rsep, Rsm by auto; reflexivity|]. cbn [orb] in Q1. rewrite Q1. cbv zeta.
    rewrite (dot_perm (x_v n) (x_v n') (x_v n) (x_v n')) by auto.
    rewrite (dot_perm (fun i0 => x_v n i0 / sqrt (dot d (x_v n) (x_v n))) (fun i0 => x_v n' i0 / sqrt (dot d (x_v n) (x_v n)))
      (fun i0 => p_normal p (x_pos n + j * d + i0)%nat) (fun i0 => p_normal p' (x_pos n + j * d + i0)%nat)); [|intros u Hu; rewrite Rv by auto; reflexivity|intros u Hu; rewrite Ha; apply draw_at, Hu].
    rewrite Ha, draw_at, Rm, Rs, Rsep, Rv by auto. reflexivity.
  - apply pos_perm; auto. exists (a + m)%nat. rewrite Ha. lia.
Qed.
Lemma shift_perm : shift_norm p' n' = shift_norm p n.
Proof using HR HQ HS.
  unfold shift_norm. redp. parts. fold k d. fold k in Q1. rewrite Q1. rewrite Rs. f_equal. apply norm_perm. intros i Hi. rewrite Rm, Rpr, Rsep by auto. reflexivity.
Qed.
Lemma tpa_points_perm :
  fst (tpa_points p' n') = (h (fst (fst (tpa_points p n))), h (snd (fst (tpa_points p n)))) /\ RR (snd (tpa_points p n)) (snd (tpa_points p' n')).
Proof using HR HQ HS.
  unfold tpa_points. cbn [fst snd]. rewrite shift_perm. change (k_dim (p_k p')) with d. change (k_dim (p_k p)) with d. parts. destruct Ral as [a Ha]. rewrite Rpos.
  assert (N : norm d (fun j => p_normal p' (x_pos n + j)%nat) = norm d (fun j => p_normal p (x_pos n + j)%nat)).
  { apply norm_perm. intros i Hi. rewrite Ha. pose proof (draw_at a 0 i Hi) as D. cbn [Nat.mul] in D. rewrite !Nat.add_0_r in D. exact D. }
  split.
  - rewrite N, !perm_tab. f_equal; apply tab_ext; intros i Hi; rewrite Rm, Rpr by exact Hi; reflexivity.
  - apply pos_perm; auto. exists (a + 1)%nat. rewrite Ha. lia.
Qed.
Lemma coin_perm : fst (coin_num p' n') = fst (coin_num p n) /\ RR (snd (coin_num p n)) (snd (coin_num p' n')).
Proof using HR HS. unfold coin_num. cbn [fst snd]. redp. parts. rewrite Rpos, Rup. split; [reflexivity|apply pos_perm; auto]. Qed.
Lemma mutate_perm l : Forall (fun x => length x = d) l ->
  fst (mutate_num p' (map h l) n') = map h (fst (mutate_num p l n)) /\ RR (snd (mutate_num p l n)) (snd (mutate_num p' (map h l) n')).
Proof using HR HQ HS.
  intros F. unfold mutate_num. cbn [fst snd]. change (k_dim (p_k p')) with d. change (k_dim (p_k p)) with d. parts. destruct Ral as [a Ha]. rewrite Rpos, map_length. split.
  - rewrite map_map. apply map_ext_in. intros j Hj. apply in_seq in Hj. rewrite perm_tab. apply tab_ext. intros i Hi.
    change (nth j (map h l) []) with (nth j (map h l) (h [])). rewrite map_nth. rewrite Ha, draw_at by auto. rewrite perm_at; [rewrite Rs; reflexivity|].
    replace (length (nth j l [])) with d; [exact Hi|]. symmetry. apply (proj1 (Forall_forall _ _) F), nth_In. lia.
  - apply pos_perm; auto. exists (a + length l)%nat. rewrite Ha. lia.
Qed.
Lemma tpa_perm z : RR (tpa_num p z n) (tpa_num p' z n').
Proof using HR HS. unfold tpa_num. redp. parts. rewrite Rtp. unfold RR, permuted_num, with_tpas. projs. repeat split; auto. Qed.
Lemma scale_perm : RR (uh_scale_num p n) (uh_scale_num p' n').
Proof using HR HS. parts. unfold RR, permuted_num, uh_scale_num. redp. projs. rewrite Rs. repeat split; auto. Qed.
Lemma variance_perm i : (i < d)%nat -> variance p' n' i = variance p n (s i).
Proof using HR HS. intros Hi. unfold variance. redp. parts. rewrite Q1. auto. Qed.
Lemma crit_perm cc : crit_num p' cc n' = crit_num p cc n.
Proof using HR HQ HS.
  pose proof variance_perm as V. parts. unfold crit_num. change (init_sigma p') with (init_sigma p).
  destruct (cc =? 2)%Z.
  { unfold tol_x. change (init_sigma p') with (init_sigma p). cbv zeta. redp. rewrite Rs. f_equal; apply all_perm; intros i Hi; [rewrite Rpc by auto|rewrite V by auto]; reflexivity. }
  destruct (cc =? -13)%Z; [unfold tol_up_sigma; change (init_sigma p') with (init_sigma p); rewrite Rs, Rmx; reflexivity|].
  destruct (cc =? -15)%Z; [unfold condition_cov; rewrite Rmx, Rmn; reflexivity|].
  destruct (cc =? 3)%Z.
  { unfold no_effect_axis. apply all_perm. intros i Hi. cbv zeta.
    apply (all_perm (fun j => if Req_EM_T (x_mean n (s i)) (x_mean n (s i) + (if k_sep (p_k p) || k_vd (p_k p) then 0.1 * x_sigma n * sqrt (x_leig n (s i)) else 0.1 * x_sigma n * sqrt (x_leig n (s i)) * x_lvec n (s i) j)) then true else false)).
    intros j Hj. redp. rewrite Q1. rewrite Rs, Rm, Rle by auto. reflexivity. }
  destruct (cc =? 4)%Z; auto.
  unfold no_effect_coor. apply all_perm. intros i Hi. rewrite Rm, Rs, V by auto. reflexivity.
Qed.

(** Updates. *)
Section Upd.
Variable xs : list (list R).
Hypothesis Hx : Forall (fun x => length x = d) xs.
Let ys := map h xs.
Lemma pt_perm l i : (i < d)%nat -> pt ys l i = pt xs l (s i).
Proof using Hx.
  intros Hi. unfold pt, ys. change (nth l (map h xs) []) with (nth l (map h xs) (h [])). rewrite map_nth.
  destruct (Nat.lt_ge_cases l (length xs)) as [H|H].
  - apply perm_at. replace (length (nth l xs [])) with d; auto. symmetry. apply (proj1 (Forall_forall _ _) Hx), nth_In, H.
  - rewrite (nth_overflow xs) by exact H. unfold at0. cbn. destruct i, (s _); reflexivity.
Qed.
Lemma mean_perm i : (i < d)%nat -> new_mean p' ys n' i = new_mean p xs n (s i).
Proof using HR HQ HS Hx.
  intros Hi. unfold new_mean. redp. parts. destruct (p_upd p); try (apply rsum_ext; intros l _; rewrite pt_perm by auto; reflexivity).
  rewrite Rm by auto. f_equal. f_equal. apply rsum_ext. intros l _. rewrite pt_perm by auto. reflexivity.
Qed.
Lemma step_perm i : (i < d)%nat -> mean_step p' ys n' i = mean_step p xs n (s i).
Proof using HR HQ HS Hx. intros Hi. unfold mean_step. rewrite mean_perm by auto. redp. parts. rewrite Rs, Rm by auto. reflexivity. Qed.
Lemma psigma_perm i : (i < d)%nat -> new_psigma p' ys n' i = new_psigma p xs n (s i).
Proof using HR HQ HS Hx.
  intros Hi. unfold new_psigma. rewrite step_perm by auto. redp. parts. rewrite Rps by auto. f_equal. f_equal. destruct Q3 as [U|U]; [rewrite U, Rv, Rsep by auto; reflexivity|]. rewrite U, Rv, Rsep by auto. destruct (p_upd p); reflexivity.
Qed.
Lemma hsig_perm it : hsig p' it ys n' = hsig p it xs n.
Proof using HR HQ HS Hx.
  unfold hsig. redp. fold k d. rewrite (norm_perm (new_psigma p xs n) (new_psigma p' ys n')) by (intros; apply psigma_perm; auto). reflexivity.
Qed.
Lemma pc_perm it i : (i < d)%nat -> new_pc p' it ys n' i = new_pc p it xs n (s i).
Proof using HR HQ HS Hx. intros Hi. unfold new_pc. rewrite hsig_perm, step_perm by auto. redp. parts. rewrite Rpc by auto. reflexivity. Qed.
Lemma spread_perm q q' i j : (i < d)%nat -> (j < d)%nat -> (forall l u, (u < d)%nat -> q' l u = q l (s u)) ->
  spread p' q' n' i j = spread p q n (s i) (s j).
Proof using HR HS.
  intros Hi Hj H. unfold spread. redp. parts. rewrite Rs. f_equal. apply rsum_ext. intros l _. rewrite !H, !Rm by auto. reflexivity.
Qed.
Lemma best_perm l u : (u < d)%nat -> best_of ys l u = best_of xs l (s u).
Proof using Hx. apply pt_perm. Qed.
Lemma worst_perm l u : (u < d)%nat -> worst_of p' ys l u = worst_of p xs l (s u).
Proof using Hx. intros. unfold worst_of. redp. apply pt_perm; auto. Qed.
Lemma cminus_perm : k_sep k = true -> cminus p' ys n' = cminus p xs n.
Proof using HR HQ HS Hx.
  intros K. unfold k in K. unfold cminus. cbv zeta.
  assert (E : cminus_denom p' ys n' = cminus_denom p xs n); [|rewrite E; reflexivity].
  unfold cminus_denom. redp. parts. rewrite K. apply vmax_perm. intros i Hi. rewrite Rsep by auto.
  rewrite (spread_perm (worst_of p xs) (worst_of p' ys)); auto. apply worst_perm.
Qed.
Lemma sep_perm it i : (i < d)%nat -> rank_mu_sep p' it ys n' i = rank_mu_sep p it xs n (s i).
Proof using HR HQ HS Hx.
  intros Hi. unfold rank_mu_sep, keep_rate. rewrite hsig_perm, !pc_perm by auto. rewrite (spread_perm (best_of xs) (best_of ys)); auto using best_perm. redp. parts. rewrite Rsep by auto. reflexivity.
Qed.
Lemma asep_perm it i : k_sep k = true -> (i < d)%nat -> active_sep p' it ys n' i = active_sep p it xs n (s i).
Proof using HR HQ HS Hx.
  intros K Hi. unfold active_sep. rewrite cminus_perm, !pc_perm by auto. rewrite (spread_perm (best_of xs) (best_of ys)); auto using best_perm.
  rewrite (spread_perm (worst_of p xs) (worst_of p' ys)); auto using worst_perm. redp. parts. rewrite Rsep by auto. reflexivity.
Qed.
Lemma sigma_perm it : new_sigma p' it ys n' = new_sigma p it xs n.
Proof using HR HQ HS Hx.
  unfold new_sigma. redp. fold k d. rewrite (norm_perm (new_psigma p xs n) (new_psigma p' ys n')) by (intros; apply psigma_perm; auto). parts. rewrite Rs, Rtp. reflexivity.
Qed.
Lemma v_at_perm i : (i < d)%nat -> x_v n' i = x_v n (s i). Proof using HR HS. parts. auto. Qed.
Lemma dd_at_perm i : (i < d)%nat -> x_sep n' i = x_sep n (s i). Proof using HR HS. parts. auto. Qed.
Lemma nv_perm : dot d (x_v n') (x_v n') = dot d (x_v n) (x_v n).
Proof using HR HQ HS. apply dot_perm; apply v_at_perm. Qed.
Lemma alpha_perm : vd_alpha p' n' = vd_alpha p n.
Proof using HR HQ HS.
  unfold vd_alpha. redp. fold k d. rewrite nv_perm.
  rewrite (vmax_perm (fun i => x_v n i / sqrt (dot d (x_v n) (x_v n)) * (x_v n i / sqrt (dot d (x_v n) (x_v n))))
    (fun i => x_v n' i / sqrt (dot d (x_v n) (x_v n)) * (x_v n' i / sqrt (dot d (x_v n) (x_v n))))) by (intros i Hi; now rewrite v_at_perm). reflexivity.
Qed.
Lemma b_perm : vd_b p' n' = vd_b p n.
Proof using HR HQ HS. unfold vd_b. rewrite alpha_perm. redp. fold k d. rewrite nv_perm. reflexivity. Qed.
Lemma ainv_perm i : (i < d)%nat -> vd_ainv p' n' i = vd_ainv p n (s i).
Proof using HR HQ HS. intros Hi. unfold vd_ainv. rewrite alpha_perm, b_perm. redp. fold k d. rewrite nv_perm, v_at_perm by auto. reflexivity. Qed.
Lemma vbar_dot_perm y y' : (forall i, (i < d)%nat -> y' i = y (s i)) ->
  dot d (fun i => x_v n' i / sqrt (dot d (x_v n) (x_v n))) y' = dot d (fun i => x_v n i / sqrt (dot d (x_v n) (x_v n))) y.
Proof using HR HQ HS. intros H. apply dot_perm; auto. intros i Hi. now rewrite v_at_perm. Qed.
Lemma vdp_perm y y' i : (i < d)%nat -> (forall i, (i < d)%nat -> y' i = y (s i)) -> vd_p p' n' y' i = vd_p p n y (s i).
Proof using HR HQ HS. intros Hi H. unfold vd_p. redp. fold k d. rewrite nv_perm, (vbar_dot_perm y y'), v_at_perm, H by auto. reflexivity. Qed.
Lemma vdq_perm y y' i : (i < d)%nat -> (forall i, (i < d)%nat -> y' i = y (s i)) -> vd_q p' n' y' i = vd_q p n y (s i).
Proof using HR HQ HS. intros Hi H. unfold vd_q. redp. fold k d. rewrite nv_perm, (vbar_dot_perm y y'), v_at_perm, H by auto. reflexivity. Qed.
Lemma vdy_perm l i : (i < d)%nat -> vd_y ys n' l i = vd_y xs n l (s i).
Proof using HR HS Hx. intros Hi. unfold vd_y. parts. rewrite pt_perm, Rm, Rs, Rsep by auto. reflexivity. Qed.
Lemma mix_perm it (f f' : vec -> vec) i : (i < d)%nat -> (forall y y', (forall j, (j < d)%nat -> y' j = y (s j)) -> f' y' i = f y (s i)) ->
  vd_mix p' it ys n' f' i = vd_mix p it xs n f (s i).
Proof using HR HQ HS Hx.
  intros Hi H. unfold vd_mix. redp. fold k. rewrite hsig_perm.
  rewrite (H (vd_ym p it xs n) (vd_ym p' it ys n')); [|intros j Hj; unfold vd_ym; now rewrite dd_at_perm, pc_perm by auto].
  f_equal. f_equal. apply rsum_ext. intros l Hll. change (wgt p' l) with (wgt p l). rewrite (H (vd_y xs n l) (vd_y ys n' l)); auto. intros j Hj. apply vdy_perm; auto.
Qed.
Lemma pvec_perm it i : (i < d)%nat -> vd_pvec p' it ys n' i = vd_pvec p it xs n (s i).
Proof using HR HQ HS Hx. intros Hi. apply mix_perm; auto. intros; apply vdp_perm; auto. Qed.
Lemma qvec_perm it i : (i < d)%nat -> vd_qvec p' it ys n' i = vd_qvec p it xs n (s i).
Proof using HR HQ HS Hx. intros Hi. apply mix_perm; auto. intros; apply vdq_perm; auto. Qed.
Lemma vdr_perm it i : (i < d)%nat -> vd_r p' it ys n' i = vd_r p it xs n (s i).
Proof using HR HQ HS Hx.
  intros Hi. unfold vd_r. rewrite alpha_perm. redp. fold k d. rewrite nv_perm, pvec_perm, qvec_perm, v_at_perm by auto. rewrite (vbar_dot_perm (vd_qvec p it xs n)) by (intros; apply qvec_perm; auto). reflexivity.
Qed.
Lemma vds_perm it i : (i < d)%nat -> vd_s p' it ys n' i = vd_s p it xs n (s i).
Proof using HR HQ HS Hx.
  intros Hi. unfold vd_s. rewrite b_perm. redp. fold k d. rewrite nv_perm, vdr_perm, ainv_perm, v_at_perm by auto.
  set (q := sqrt (dot d (x_v n) (x_v n))).
  rewrite (dot_perm (fun i0 => vd_ainv p n i0 * (x_v n i0 / q * (x_v n i0 / q))) (fun i0 => vd_ainv p' n' i0 * (x_v n' i0 / q * (x_v n' i0 / q))) (vd_r p it xs n) (vd_r p' it ys n'));
    [|intros j Hj; now rewrite ainv_perm, v_at_perm by auto|intros; apply vdr_perm; auto].
  rewrite (dot_perm (fun i0 => vd_ainv p n i0 * (x_v n i0 / q * (x_v n i0 / q))) (fun i0 => vd_ainv p' n' i0 * (x_v n' i0 / q * (x_v n' i0 / q))) (fun i0 => x_v n i0 / q * (x_v n i0 / q)) (fun i0 => x_v n' i0 / q * (x_v n' i0 / q)));
    [|intros j Hj; now rewrite ainv_perm, v_at_perm by auto|intros j Hj; now rewrite v_at_perm by auto].
  reflexivity.
Qed.
Lemma vdtest_perm it : vd_test p' it ys n' = vd_test p it xs n.
Proof using HR HQ HS Hx. unfold vd_test. redp. rewrite hsig_perm. reflexivity. Qed.
Lemma newv_perm it i : (i < d)%nat -> new_v p' it ys n' i = new_v p it xs n (s i).
Proof using HR HQ HS Hx.
  intros Hi. unfold new_v. rewrite vdtest_perm. destruct (vd_test p it xs n); [|apply v_at_perm; auto]. rewrite v_at_perm by auto. f_equal.
  unfold vd_ngv. rewrite alpha_perm. redp. fold k d. rewrite nv_perm, qvec_perm, vds_perm, v_at_perm by auto. set (q := sqrt (dot d (x_v n) (x_v n))).
  rewrite (dot_perm (vd_s p it xs n) (vd_s p' it ys n') (fun i0 => x_v n i0 / q * (x_v n i0 / q)) (fun i0 => x_v n' i0 / q * (x_v n' i0 / q)));
    [|intros; apply vds_perm; auto|intros j Hj; now rewrite v_at_perm by auto].
  reflexivity.
Qed.
Lemma newsep_perm it i : (i < d)%nat -> new_vd_sep p' it ys n' i = new_vd_sep p it xs n (s i).
Proof using HR HQ HS Hx. intros Hi. unfold new_vd_sep. rewrite vdtest_perm. destruct (vd_test p it xs n); rewrite ?vds_perm, dd_at_perm by auto; reflexivity. Qed.
Lemma update_perm it : RR (update_num p it xs n) (update_num p' it ys n').
Proof using HR HQ HS Hx.
  assert (SEP : forall i, (i < d)%nat ->
    (match p_upd p with Full => if k_sep k then rank_mu_sep p' it ys n' else x_sep n' | Active => if k_sep k then active_sep p' it ys n' else x_sep n' | Vd => new_vd_sep p' it ys n' end) i =
    (match p_upd p with Full => if k_sep k then rank_mu_sep p it xs n else x_sep n | Active => if k_sep k then active_sep p it xs n else x_sep n | Vd => new_vd_sep p it xs n end) (s i)).
  { intros i Hi. destruct HS as (_ & [U|U] & _); [rewrite U; apply newsep_perm, Hi|]. fold k in U. rewrite U. destruct (p_upd p); auto using sep_perm, asep_perm, newsep_perm. }
  pose proof mean_perm as M. pose proof psigma_perm as PS. pose proof (pc_perm it) as PC. pose proof (sigma_perm it) as SG. pose proof (newv_perm it) as NV.
  unfold RR, permuted_num, update_num. parts. projs. redp. fold k d. fold k in Q1. rewrite Q1.
  repeat split; auto.
  - intros i Hi. destruct (p_upd p); auto.
  - intros i Hi. destruct (p_upd p); try destruct (k_tpa k =? 0)%Z; auto.
  - apply vmax_perm, SEP.
  - apply vmin_perm, SEP.
Qed.
End Upd.
End Step.

(** Main statement. *)
Variables (e : env R num) (g : cfg R) (pr : sol R num -> Z).
Hypothesis HG : same_problem p g.
Hypothesis HP : plain_space p e g.
Hypothesis HU : std_sort_ok e.
Hypothesis HPr : forall so so', moved_sol h RR so so' -> pr so' = e_progress e so.
Let e' := perm_env r pr e.
Lemma same_cfg_perm : set_g_fixed [] g = g.
Proof using HG HS.
  destruct HG as (_ & _ & Q). destruct HS as (_ & _ & Q'). rewrite Q' in Q. clear - Q. destruct g. cbn in *. now subst.
Qed.
Lemma perm_history x0 n n' hs : length x0 = d -> perm_stream d s n n' -> Forall (point_op g) hs -> initial_known g hs ->
  moved_result h RR (do s <- st_new (cma_num p) g x0 n; run_ops (cma_num p) e g hs s)
                    (do s <- st_new (cma_num p') g (h x0) n'; run_ops (cma_num p') e' g (map (move_op h) hs) s).
Proof.
  intros HX HN F HI. pose proof HP as (P1 & P2 & P3 & P4). pose proof HG as (G1 & G2 & G3). pose proof HS as (Q1 & Q3 & Q4).
  cut (moved_result h RR (do s <- st_new (cma_num p) g x0 n; run_ops (cma_num p) e g hs s)
        (do s <- st_new (cma_num p') (set_g_fixed [] g) (h x0) n'; run_ops (cma_num p') e' (set_g_fixed [] g) (map (move_op h) hs) s)); [rewrite same_cfg_perm; auto|].
  refine (morph_history (cma_num p) (cma_num p') e e' g [] h RR _ _ _ _ _ _ _ _ _ _ _ _ _ _ _ _ _ P3 (dims_of p g G1) _ _ _ P4 HU x0 n n' hs _ _ HI).
  all: [> apply perm_nil
  | apply perm_cons
  | intros m m' HR; split; [apply xmean_perm, HR|]; cbn [cma_num n_xmean]; rewrite !tab_length; reflexivity
  | intros i m m' HR; apply eigen_perm, HR
  | intros j m m' HR; apply sample_perm, HR
  | intros m m' HR; apply tpa_points_perm, HR
  | intros m m' HR; apply coin_perm, HR
  | intros _ l m m' HR Fl; apply mutate_perm; [exact HR|]; unfold d, k; rewrite <- G1; exact Fl
  | intros z m m' HR; apply tpa_perm, HR
  | intros i xs m m' HR Fx Lx; apply update_perm; [exact HR|unfold d, k; rewrite <- G1; exact Fx]
  | intros m m' HR; apply scale_perm, HR
  | intros z m m' _ HR; apply crit_perm, HR
  | intros pop; rewrite G3, Q4; reflexivity
  | intros j x Hxx; cbn; f_equal; apply unperm_perm; exact (eq_trans Hxx G1)
  | intros x _; cbn; now rewrite !P1
  | reflexivity
  | exact HPr
  | intros l m _; cbn; rewrite map_length, seq_length; split; auto; apply Forall_forall; intros x Hxx; apply in_map_iff in Hxx as (j & <- & _); rewrite G1; apply tab_length
  | intros x y Hxx E; rewrite P1 in E; injection E as <-; exact Hxx
  | intros _ x m m' HR Hxx; apply new_perm; [exact (eq_trans Hxx G1)|apply rr_perm_stream, HR]
  | apply new_perm; auto
  | eapply Forall_impl; [|exact F]; intros o; destruct o; cbn; auto ].
Qed.
Lemma perm_rounds x0 n n' rd : length x0 = d -> perm_stream d s n n' -> needs_initial g = false ->
  moved_result h RR (do s <- st_new (cma_num p) g x0 n; rounds (cma_num p) g e rd s)
                    (do s <- st_new (cma_num p') g (h x0) n'; rounds (cma_num p') g e' rd s).
Proof.
  intros HX HN HI. pose proof HP as (P1 & P2 & P3 & P4). pose proof HG as (G1 & G2 & G3). pose proof HS as (Q1 & Q3 & Q4).
  cut (moved_result h RR (do s <- st_new (cma_num p) g x0 n; rounds (cma_num p) g e rd s)
        (do s <- st_new (cma_num p') (set_g_fixed [] g) (h x0) n'; rounds (cma_num p') (set_g_fixed [] g) e' rd s)); [rewrite same_cfg_perm; auto|].
  refine (morph_rounds (cma_num p) (cma_num p') e e' g [] h RR _ _ _ _ _ _ _ _ _ _ _ _ _ _ _ _ _ P3 (dims_of p g G1) _ _ _ P4 HU x0 n n' rd _ HI).
  all: [> apply perm_nil
  | apply perm_cons
  | intros m m' HR; split; [apply xmean_perm, HR|]; cbn [cma_num n_xmean]; rewrite !tab_length; reflexivity
  | intros i m m' HR; apply eigen_perm, HR
  | intros j m m' HR; apply sample_perm, HR
  | intros m m' HR; apply tpa_points_perm, HR
  | intros m m' HR; apply coin_perm, HR
  | intros _ l m m' HR Fl; apply mutate_perm; [exact HR|]; unfold d, k; rewrite <- G1; exact Fl
  | intros z m m' HR; apply tpa_perm, HR
  | intros i xs m m' HR Fx Lx; apply update_perm; [exact HR|unfold d, k; rewrite <- G1; exact Fx]
  | intros m m' HR; apply scale_perm, HR
  | intros z m m' _ HR; apply crit_perm, HR
  | intros pop; rewrite G3, Q4; reflexivity
  | intros j x Hxx; cbn; f_equal; apply unperm_perm; exact (eq_trans Hxx G1)
  | intros x _; cbn; now rewrite !P1
  | reflexivity
  | exact HPr
  | intros l m _; cbn; rewrite map_length, seq_length; split; auto; apply Forall_forall; intros x Hxx; apply in_map_iff in Hxx as (j & <- & _); rewrite G1; apply tab_length
  | intros x y Hxx E; rewrite P1 in E; injection E as <-; exact Hxx
  | intros _ x m m' HR Hxx; apply new_perm; [exact (eq_trans Hxx G1)|apply rr_perm_stream, HR]
  | apply new_perm; auto].
Qed.
End Perm.
