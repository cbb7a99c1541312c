From Coq Require Import Reals List Lia Lra Psatz Permutation.
From Verif Require Import Base Dbl Vec VecProofs Params SpecParams Config Search SpecSearch SortProofs SearchInv StopProofs NumInv Update SpecUpdate UpdateProofs Corr.
Import ListNotations.
Open Scope R_scope.

Section U2.
Variable p : npar.
Let k := p_k p.
Let d := k_dim k.
Hypothesis HS : sound_params k.
Let HD1 : (1 <= d)%nat := proj1 HS.
Let HA1 : 0 < k_alphathuh k := proj2 (proj2 (proj2 HS)).
Let rho := 1 - k_c1 k - k_cmu k.

Lemma rho_pow_nonneg t : 0 <= rho ^ t.
Proof using HS. apply pow_le. pose proof (rates p HS). fold k in H. unfold rho. lra. Qed.

(** ** C22: lower bound of the covariance *)
Definition cov_from (c : R) (n : num) : Prop := forall x, c * dot d x x <= quad d (x_cov n) x.
Definition sep_from (c : R) (n : num) : Prop := forall j, c <= x_sep n j.
Lemma cov_from_upd i xs n c : p_upd p <> Active -> 0 < x_sigma n -> 0 <= c -> cov_from c n -> cov_from (rho * c) (update_num p i xs n).
Proof using HS.
  intros F Hs Hc H x. unfold update_num. cbn [x_cov]. fold k. pose proof (rates p HS) as (R1 & R2 & R3). fold k in R1, R2, R3.
  assert (K : rho * c * dot d x x <= quad d (x_cov n) x).
  { specialize (H x). pose proof (dot_self_nonneg d x). assert (0 <= c * dot d x x) by (apply Rmult_le_pos; auto). unfold rho. nra. }
  destruct (p_upd p); [|congruence|exact K]. destruct (k_sep k); [exact K|]. unfold rho. apply rank_mu_lower; auto.
Qed.
Lemma sep_from_upd i xs n c : p_upd p = Full -> 0 < x_sigma n -> 0 <= c -> sep_from c n -> sep_from (rho * c) (update_num p i xs n).
Proof using HS.
  intros F Hs Hc H j. unfold update_num. cbn [x_sep]. fold k. rewrite F. pose proof (rates p HS) as (R1 & R2 & R3). fold k in R1, R2, R3.
  destruct (k_sep k); [unfold rho; apply rank_mu_sep_lower; auto|]. specialize (H j). unfold rho. nra.
Qed.
Lemma ident_from : forall n, x_cov n = ident -> cov_from 1 n.
Proof using Type. intros n E x. rewrite E, quad_ident. lra. Qed.

Section Iter.
Variable B : R -> num -> Prop.
Hypothesis B_same : forall c n n', same_cov n n' -> B c n -> B c n'.
Hypothesis B_new : forall x0 n, B 1 (new_num p x0 n).
Hypothesis B_upd : forall i xs n c, 0 < x_sigma n -> 0 <= c -> B c n -> B (rho * c) (update_num p i xs n).
Let P (t : Z) (n : num) : Prop := 0 < x_sigma n /\ B (rho ^ Z.to_nat t) n.
Lemma P_keep t n n' : same_cov n n' -> x_sigma n' = x_sigma n -> P t n -> P t n'.
Proof using B_same. intros S E [A1 A2]. split; [rewrite E; auto|eapply B_same; eauto]. Qed.
Lemma bound_iter e g h s s' : Forall (okop (fun _ => True)) h -> (0 <= s_niter (t_sol s))%Z -> P (s_niter (t_sol s)) (s_num (t_sol s)) ->
  run_ops (cma_num p) e g h s = Ok s' -> (0 <= s_niter (t_sol s'))%Z /\ P (s_niter (t_sol s')) (s_num (t_sol s')).
Proof using HS B_same B_new B_upd.
  intros W H0 HP H. refine (iter_num_ops (cma_num p) e g P _ _ _ _ _ _ _ _ _ _ h s s' W (conj H0 HP) H); clear h s s' W H0 HP H; intros;
    cbn [cma_num n_new n_eigen n_sample n_tpa_points n_coin n_mutate n_tpa n_update n_uh_scale n_edm snd].
  - split; [apply (init_sigma_pos p HD1)|apply B_new].
  - eapply P_keep; [| |eauto]; unfold eigen_num; destruct (_ || _); try destruct (_ || _ || _); try split; reflexivity.
  - eapply P_keep; [| |eauto]; try split; reflexivity.
  - eapply P_keep; [| |eauto]; try split; reflexivity.
  - eapply P_keep; [| |eauto]; try split; reflexivity.
  - eapply P_keep; [| |eauto]; try split; reflexivity.
  - eapply P_keep; [| |eauto]; try split; reflexivity.
  - destruct H0 as [A1 A2]. split; [apply new_sigma_pos; auto|].
    replace (Z.to_nat (t + 1)) with (S (Z.to_nat t)) by lia. cbn [pow]. apply B_upd; auto. apply rho_pow_nonneg.
  - destruct H as [A1 A2]. split; [cbn; apply Rmult_lt_0_compat; [auto|exact HA1]|]. eapply B_same; [|exact A2]. split; reflexivity.
  - eapply P_keep; [| |eauto]; try split; reflexivity.
Qed.
End Iter.

Lemma started_niter e g s : started p e g s -> s_niter (t_sol s) = 0%Z.
Proof using Type.
  destruct 1 as [x0 n s H|s0 h s H H1 H2]; [|reflexivity]. unfold st_new in H. apply bind_ok in H as (so & H & Q). injection Q as <-.
  cbn. unfold sol_new in H. destruct (_ =? 0)%Z; [discriminate|]. injection H as <-. reflexivity.
Qed.
Lemma cov_lower e g h s0 s : p_upd p <> Active -> started p e g s0 -> Forall (okop (fun _ => True)) h -> run_ops (cma_num p) e g h s0 = Ok s ->
  forall x, rho ^ Z.to_nat (s_niter (t_sol s)) * dot d x x <= quad d (cov_of s) x.
Proof using HS.
  intros F H0 W H. pose proof (started_niter _ _ _ H0) as N0.
  assert (P0 : 0 < x_sigma (s_num (t_sol s0)) /\ cov_from 1 (s_num (t_sol s0))).
  { destruct H0 as [x0 n s1 E|s1 h1 s2 H1 H2 H3].
    - apply st_new_num in E. rewrite E. split; [apply (init_sigma_pos p HD1)|apply ident_from; reflexivity].
    - cbn. split; [apply (sigma_positive p HD1 HA1 e g h1 s1 s2); auto|apply ident_from; reflexivity]. }
  apply (bound_iter cov_from) in H as [_ [_ H]]; auto; intros.
  - intros x. destruct H1 as [-> _]. auto.
  - apply ident_from. reflexivity.
  - apply cov_from_upd; auto.
  - rewrite N0. lia.
  - rewrite N0. cbn [Z.to_nat pow]. exact P0.
Qed.
Lemma sep_lower e g h x0 n0 s0 s : p_upd p = Full -> st_new (cma_num p) g x0 n0 = Ok s0 -> Forall (okop (fun _ => True)) h -> run_ops (cma_num p) e g h s0 = Ok s ->
  forall j, rho ^ Z.to_nat (s_niter (t_sol s)) <= variances_of s j.
Proof using HS.
  intros F H0 W H. assert (N0 := started_niter e g _ (from_x0 p e g _ _ _ H0)). apply st_new_num in H0.
  apply (bound_iter sep_from) in H as [_ [_ H]]; auto; intros.
  - intros j. destruct H1 as [_ ->]. auto.
  - intros j. cbn. lra.
  - apply sep_from_upd; auto.
  - rewrite N0. lia.
  - rewrite N0, H0. cbn [Z.to_nat pow]. split; [apply (init_sigma_pos p HD1)|]. intros j. cbn. lra.
Qed.
(** Positivity along every history. *)
Lemma lower_pos_def c a : 0 < c -> (forall x, c * dot d x x <= quad d a x) -> pos_def d a.
Proof using Type.
  intros Hc H x (i & Hi & Hx). specialize (H x). pose proof (dot_self_nonneg d x).
  destruct (Req_dec (dot d x x) 0) as [E|E]; [exfalso; apply Hx, (dot_self_zero d x E i Hi)|]. nra.
Qed.
Lemma cov_pd e g h s0 s : p_upd p <> Active -> k_c1 k + k_cmu k < 1 -> started p e g s0 -> run_ops (cma_num p) e g h s0 = Ok s -> pos_def d (cov_of s).
Proof using HS.
  intros F R H1 H2.
  assert (G : exists c, 0 < c /\ cov_from c (s_num (t_sol s))).
  { refine (proj2 (inv_all p HD1 HA1 (fun n => exists c, 0 < c /\ cov_from c n) _ _ _ _ e g h s0 s H1 H2)).
    - intros n n' [E _] (c & A & B). exists c. split; auto. intros x. rewrite E. apply B.
    - intros n E _. exists 1. split; [lra|apply ident_from; auto].
    - intros i xs n Hs (c & A & B). exists (rho * c). split; [apply Rmult_lt_0_compat; [unfold rho; lra|auto]|apply cov_from_upd; auto; lra].
    - intros n _. exists 1. split; [lra|apply ident_from; reflexivity]. }
  destruct G as (c & Hc & B).
  exact (lower_pos_def c _ Hc B).
Qed.
Lemma sep_pos e g h x0 n0 s0 s : p_upd p = Full -> k_c1 k + k_cmu k < 1 -> st_new (cma_num p) g x0 n0 = Ok s0 -> run_ops (cma_num p) e g h s0 = Ok s ->
  forall j, 0 < variances_of s j.
Proof using HS.
  intros F R H1 H2. apply st_new_num in H1.
  refine (proj2 (inv_ops p HD1 HA1 (fun n => forall j, 0 < x_sep n j) _ _ _ e g h s0 s _ H2)).
  - intros n n' [_ E] H j. rewrite E. auto.
  - intros n _ E j. rewrite E. lra.
  - intros i xs n Hs H j. unfold update_num. cbn [x_sep]. fold k. rewrite F. destruct (k_sep k); auto.
    apply Rlt_le_trans with (rho * x_sep n j); [apply Rmult_lt_0_compat; [unfold rho; lra|auto]|].
    unfold rho. apply rank_mu_sep_lower; auto; [left; auto|lra].
  - rewrite H1. split; [apply (init_sigma_pos p HD1)|]. intros j. cbn. lra.
Qed.

(** ** C26: the new mean *)
Lemma wgt_sum : rsum (k_mu k) (wgt p) = 1.
Proof using HS. pose proof HS as (_ & _ & (L & _ & _ & _ & E) & _). rewrite sumR_rsum, L in E. exact E. Qed.
Lemma new_mean_sum xs n c : new_mean p xs n c = rsum (k_mu k) (fun i => wgt p i * pt xs i c).
Proof using HS.
  unfold new_mean. fold k. destruct (p_upd p); auto. unfold cm. rewrite Rmult_1_r.
  rewrite (rsum_ext _ (fun i => wgt p i * (pt xs i c - x_mean n c)) (fun i => wgt p i * pt xs i c - wgt p i * x_mean n c)) by (intros; ring).
  rewrite rsum_minus, rsum_scal_r, wgt_sum. ring.
Qed.
Lemma new_mean_between xs n c lo hi : (forall i, (i < k_mu k)%nat -> lo <= pt xs i c <= hi) -> lo <= new_mean p xs n c <= hi.
Proof using HS.
  intros H. rewrite new_mean_sum.
  assert (E : forall v, v = rsum (k_mu k) (fun i => wgt p i * v)) by (intros v; rewrite rsum_scal_r, wgt_sum; ring).
  split; [rewrite (E lo)|rewrite (E hi)]; apply rsum_le; intros i Hi; apply Rmult_le_compat_l; try apply (wgt_pos p HS); apply H, Hi.
Qed.
Lemma tell_mean e g s s' : tell (cma_num p) e g s = Ok s' ->
  exists n, s_num (t_sol s') = update_num p (s_niter (t_sol s')) (map c_x (s_cands (t_sol s'))) n \/
            s_num (t_sol s') = uh_scale_num p (update_num p (s_niter (t_sol s')) (map c_x (s_cands (t_sol s'))) n).
Proof using Type.
  unfold tell. intros H. apply bind_ok in H as (s1 & _ & H). apply bind_ok in H as (s3 & _ & H). apply Ok_inj in H. subst s'.
  exists (s_num s3). destruct (_ && _); cbn; auto.
Qed.
Lemma mean_convex e g s s' : tell (cma_num p) e g s = Ok s' ->
  let x i c := nth c (nth i (map c_x (s_cands (t_sol s'))) []) 0 in
  (forall c, mean_of s' c = rsum (k_mu k) (fun i => nth i (k_w k) 0 * x i c)) /\
  (forall c lo hi, (forall i, (i < k_mu k)%nat -> lo <= x i c <= hi) -> lo <= mean_of s' c <= hi).
Proof using HS.
  intros H x. destruct (tell_mean _ _ _ _ H) as (n & E).
  assert (M : forall c, mean_of s' c = new_mean p (map c_x (s_cands (t_sol s'))) n c) by (intros c; unfold mean_of; destruct E as [-> | ->]; reflexivity).
  split.
  - intros c. rewrite M, new_mean_sum. reflexivity.
  - intros c lo hi B. rewrite M. apply new_mean_between. exact B.
Qed.

(** ** C64: correlations *)
Lemma rsum_two n f i j : (i < n)%nat -> (j < n)%nat -> i <> j -> (forall l, (l < n)%nat -> l <> i -> l <> j -> f l = 0) -> rsum n f = f i + f j.
Proof using Type.
  intros Hi Hj D Z.
  rewrite (rsum_ext n f (fun l => (if Nat.eqb l i then f i else 0) + (if Nat.eqb l j then f j else 0))).
  - rewrite rsum_plus. rewrite (rsum_single n _ i Hi), (rsum_single n (fun l => if Nat.eqb l j then f j else 0) j Hj), !Nat.eqb_refl; auto;
    intros l Hl D'; destruct (Nat.eqb_spec l i), (Nat.eqb_spec l j); congruence || auto.
  - intros l Hl. destruct (Nat.eqb_spec l i), (Nat.eqb_spec l j); subst; try congruence; try lra. rewrite Z; auto. ring.
Qed.
Lemma quad_two n a i j u v : (i < n)%nat -> (j < n)%nat -> i <> j ->
  quad n a (fun l => if Nat.eqb l i then u else if Nat.eqb l j then v else 0) = u * u * a i i + u * v * (a i j + a j i) + v * v * a j j.
Proof using Type.
  intros Hi Hj D. unfold quad, dot.
  assert (Eji : Nat.eqb j i = false) by (apply Nat.eqb_neq; auto).
  rewrite (rsum_two n _ i j Hi Hj D).
  - unfold mv. rewrite (rsum_two n (fun j0 => a i j0 * _) i j Hi Hj D), (rsum_two n (fun j0 => a j j0 * _) i j Hi Hj D).
    + rewrite !Nat.eqb_refl, Eji. ring.
    + intros l _ A B. apply Nat.eqb_neq in A, B. rewrite A, B. ring.
    + intros l _ A B. apply Nat.eqb_neq in A, B. rewrite A, B. ring.
  - intros l _ A B. apply Nat.eqb_neq in A, B. rewrite A, B. ring.
Qed.
Lemma psd_cauchy n a i j : symmetric n a -> psd n a -> (i < n)%nat -> (j < n)%nat -> i <> j -> a i j * a i j <= a i i * a j j.
Proof using Type.
  intros S P Hi Hj D.
  assert (Q : forall u v, 0 <= u * u * a i i + u * v * (2 * a i j) + v * v * a j j).
  { intros u v. pose proof (P (fun l => if Nat.eqb l i then u else if Nat.eqb l j then v else 0)) as H.
    rewrite (quad_two n a i j u v Hi Hj D), (S j i Hj Hi) in H. lra. }
  pose proof (Q 1 0) as A. pose proof (Q 0 1) as B.
  destruct (Req_dec (a j j) 0) as [E|E].
  - destruct (Req_dec (a i j) 0) as [Z|Z]; [rewrite Z, E; lra|].
    pose proof (Q 1 (- (a i i + 1) / (2 * a i j))) as C. rewrite E in C.
    replace (1 * 1 * a i i + 1 * (- (a i i + 1) / (2 * a i j)) * (2 * a i j) + - (a i i + 1) / (2 * a i j) * (- (a i i + 1) / (2 * a i j)) * 0) with (-1) in C by (field; auto). lra.
  - pose proof (Q (a j j) (- a i j)) as C. assert (0 < a j j) by lra. nra.
Qed.
Lemma corr_bound c si sj : 0 < si -> 0 < sj -> c * c <= (si * si) * (sj * sj) -> -1 <= c / (si * sj) <= 1.
Proof using Type.
  intros A B C. assert (P : 0 < si * sj) by (apply Rmult_lt_0_compat; auto).
  assert (D : Rabs c <= si * sj).
  { apply Rsqr_incr_0_var; [|lra]. unfold Rsqr. rewrite <- Rabs_mult. rewrite Rabs_pos_eq by nra. lra. }
  unfold Rabs in D.
  split; apply Rmult_le_reg_r with (si * sj); auto; unfold Rdiv; rewrite Rmult_assoc, Rinv_l by lra; destruct (Rcase_abs c); lra.
Qed.
End U2.
