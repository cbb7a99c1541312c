(** The active covariance update keeps the covariance positive definite. *)
From Coq Require Import Reals List Lia Lra Psatz.
From Verif Require Import Base Vec VecProofs Params SpecParams Config Search SpecSearch Update SpecUpdate UpdateProofs UpdateProofs2 CorrProofs NumInv PhaseInv.
Import ListNotations.
Local Open Scope R_scope.

(** * Diagonalised matrices *)
Lemma mv_mm n a b x i : mv n (mm n a b) x i = mv n a (mv n b x) i.
Proof.
  unfold mv, mm. rewrite (rsum_ext n _ (fun j => rsum n (fun k => a i k * b k j * x j))) by (intros; rewrite rsum_scal_r; reflexivity).
  rewrite rsum_swap. apply rsum_ext. intros k _. rewrite <- rsum_scal. apply rsum_ext. intros; ring.
Qed.
Lemma dot_mv_sym n a u v : symmetric n a -> dot n u (mv n a v) = dot n (mv n a u) v.
Proof.
  intros S. unfold dot, mv. rewrite (rsum_ext n _ (fun i => rsum n (fun j => u i * a i j * v j))) by (intros; rewrite <- rsum_scal; apply rsum_ext; intros; ring).
  rewrite rsum_swap. apply rsum_ext. intros j Hj. rewrite <- rsum_scal_r. apply rsum_ext. intros i Hi. rewrite (S i j) by auto. ring.
Qed.
Lemma quad_sandwich n b s x : symmetric n b -> quad n (mm n (mm n b s) b) x = quad n s (mv n b x).
Proof.
  intros S. unfold quad. rewrite (dot_ext n x x (mv n (mm n (mm n b s) b) x) (mv n b (mv n s (mv n b x)))); auto.
  - apply dot_mv_sym, S.
  - intros i _. rewrite mv_mm, mv_mm. reflexivity.
Qed.
Lemma mm_sym n b s : symmetric n b -> symmetric n s -> symmetric n (mm n (mm n b s) b).
Proof.
  intros SB SS i j Hi Hj. unfold mm.
  rewrite (rsum_ext n _ (fun k => rsum n (fun l => b i l * s l k * b k j))) by (intros; rewrite rsum_scal_r; reflexivity).
  rewrite rsum_swap. apply rsum_ext. intros l Hl. rewrite <- rsum_scal_r. apply rsum_ext. intros k Hk.
  rewrite (SB i l), (SS l k), (SB k j) by auto. ring.
Qed.
Definition tr (n : nat) (v : mat) (x : vec) : vec := fun l => dot n (fun i => v i l) x.
Section Diag.
Variables (n : nat) (a : mat) (dec : vec * mat).
Hypothesis HD : diagonalises n a dec.
Let ev := fst dec.
Let v := snd dec.
Lemma diag_quad x : quad n a x = rsum n (fun l => ev l * (tr n v x l * tr n v x l)).
Proof using HD.
  destruct HD as (_ & _ & E). rewrite (quad_ext n a (fun i j => rsum n (fun l => ev l * (v i l * v j l)))).
  - rewrite (quad_rsum n n (fun l i j => ev l * (v i l * v j l))). apply rsum_ext. intros l _.
    rewrite (quad_scal n (ev l) (fun i j => v i l * v j l)). f_equal. apply (quad_outer n (fun i => v i l)).
  - intros i j Hi Hj. rewrite E by auto. apply rsum_ext. intros. unfold ev, v. ring.
Qed.
Lemma parseval x : dot n x x = dot n (tr n v x) (tr n v x).
Proof using HD.
  destruct HD as (_ & R & _). rewrite <- quad_ident, (quad_ext n ident (fun i j => rsum n (fun l => v i l * v j l))).
  - rewrite (quad_rsum n n (fun l i j => v i l * v j l)). apply rsum_ext. intros l _. apply (quad_outer n (fun i => v i l)).
  - intros i j Hi Hj. unfold v. rewrite R by auto. reflexivity.
Qed.
Lemma synth x i : (i < n)%nat -> rsum n (fun l => v i l * tr n v x l) = x i.
Proof using HD.
  intros Hi. destruct HD as (_ & R & _). unfold tr, dot.
  rewrite (rsum_ext n _ (fun l => rsum n (fun j => v i l * v j l * x j))) by (intros; rewrite <- rsum_scal; apply rsum_ext; intros; ring).
  rewrite rsum_swap, (rsum_ext n _ (fun j => ident i j * x j)); [apply (mv_ident n x i Hi)|].
  intros j Hj. rewrite rsum_scal_r. unfold v. rewrite R by auto. reflexivity.
Qed.
Lemma tr_synth b m : (m < n)%nat -> tr n v (fun i => rsum n (fun l => v i l * b l)) m = b m.
Proof using HD.
  intros Hm. destruct HD as (C & _ & _). unfold tr, dot.
  rewrite (rsum_ext n _ (fun i => rsum n (fun l => v i m * v i l * b l))) by (intros; rewrite <- rsum_scal; apply rsum_ext; intros; ring).
  rewrite rsum_swap, (rsum_ext n _ (fun l => ident m l * b l)); [apply (mv_ident n b m Hm)|].
  intros l Hl. rewrite rsum_scal_r. unfold v. rewrite C by auto. reflexivity.
Qed.
Lemma diag_ev_pos l : pos_def n a -> (l < n)%nat -> 0 < ev l.
Proof using HD.
  intros P Hl. pose (x := fun i => rsum n (fun m => v i m * (if Nat.eqb m l then 1 else 0))).
  assert (T : forall m, (m < n)%nat -> tr n v x m = if Nat.eqb m l then 1 else 0) by (intros; apply (tr_synth (fun m => if Nat.eqb m l then 1 else 0)); auto).
  assert (Q : quad n a x = ev l).
  { rewrite diag_quad, (rsum_single n _ l Hl); [rewrite (T l Hl), Nat.eqb_refl; ring|]. intros j Hj D. rewrite (T j Hj). apply Nat.eqb_neq in D. rewrite D. ring. }
  rewrite <- Q. apply P. destruct (Classical_Prop.classic (exists i, (i < n)%nat /\ x i <> 0)) as [H|H]; auto.
  exfalso. assert (Z : dot n x x = 0).
  { unfold dot. rewrite (rsum_ext n _ (fun _ => 0)); [apply rsum_0|]. intros i Hi. destruct (Req_dec (x i) 0) as [->|D]; [ring|]. exfalso. apply H. eauto. }
  rewrite parseval in Z. pose proof (dot_self_zero _ _ Z l Hl) as Z'. rewrite (T l Hl), Nat.eqb_refl in Z'. lra.
Qed.
Lemma vmax_ge m (u : vec) i : (i < m)%nat -> u i <= vmax m u.
Proof using Type.
  induction m as [|m IH]; intros H; [lia|]. destruct m as [|m].
  - cbn. replace i with 0%nat by lia. lra.
  - change (vmax (S (S m)) u) with (Rmax (vmax (S m) u) (u (S m))). destruct (Nat.eq_dec i (S m)) as [->|]; [apply Rmax_r|].
    apply Rle_trans with (vmax (S m) u); [apply IH; lia|apply Rmax_l].
Qed.
Lemma diag_max x : quad n a x <= vmax n ev * dot n x x.
Proof using HD.
  rewrite diag_quad, parseval. unfold dot. rewrite <- rsum_scal. apply rsum_le. intros l Hl.
  apply Rmult_le_compat_r; [apply (Rle_0_sqr (tr n v x l))|apply vmax_ge, Hl].
Qed.
End Diag.

Lemma vmax_nonneg m u : (forall i, (i < m)%nat -> 0 <= u i) -> 0 <= vmax m u.
Proof.
  intros H. destruct m as [|m]; [cbn; lra|]. apply Rle_trans with (u 0%nat); [apply H; lia|]. apply vmax_ge. lia.
Qed.

Section Act.
Variable p : npar.
Let k := p_k p.
Let d := k_dim k.
Hypothesis HS : sound_params k.
Hypothesis HM : 0 <= k_muw k.
Hypothesis HA : p_upd p = Active.
Hypothesis HR : k_c1 k + 0.66 * k_cmu k < 0.66.

(** [b] = a^(-1/2): quad s <= t quad a whenever b s b <= t. *)
Lemma inv_sqrt_sym dec : symmetric d (op_inv_sqrt p dec).
Proof using Type. intros i j _ _. unfold op_inv_sqrt. apply rsum_ext. intros. ring. Qed.
Lemma inv_sqrt_bound a dec s t : diagonalises d a dec -> pos_def d a ->
  (forall x, quad d (mm d (mm d (op_inv_sqrt p dec) s) (op_inv_sqrt p dec)) x <= t * dot d x x) ->
  forall y, quad d s y <= t * quad d a y.
Proof using Type.
  intros HD HP H y. pose (v := snd dec). pose (ev := fst dec).
  assert (PE : forall l, (l < d)%nat -> 0 < ev l) by (intros; apply (diag_ev_pos d a dec HD); auto).
  pose (x := fun i => rsum d (fun l => v i l * (sqrt (ev l) * tr d v y l))).
  assert (T : forall m, (m < d)%nat -> tr d v x m = sqrt (ev m) * tr d v y m) by (intros; apply (tr_synth d a dec HD (fun l => sqrt (ev l) * tr d v y l)); auto).
  assert (E1 : forall i, (i < d)%nat -> mv d (op_inv_sqrt p dec) x i = y i).
  { intros i Hi. rewrite <- (synth d a dec HD y i Hi). unfold mv, op_inv_sqrt. fold k d v ev.
    rewrite (rsum_ext d _ (fun j => rsum d (fun l => v i l * sqrt (1 / ev l) * (v j l * x j)))) by (intros; rewrite <- rsum_scal_r; apply rsum_ext; intros; ring).
    rewrite rsum_swap. apply rsum_ext. intros l Hl. rewrite rsum_scal.
    change (rsum d (fun i0 => v i0 l * x i0)) with (tr d v x l). rewrite (T l Hl).
    assert (Q : sqrt (1 / ev l) * sqrt (ev l) = 1).
    { rewrite <- sqrt_mult_alt by (left; apply Rdiv_lt_0_compat; [lra|auto]). replace (1 / ev l * ev l) with 1 by (pose proof (PE l Hl); field; lra). apply sqrt_1. }
    replace (v i l * sqrt (1 / ev l) * (sqrt (ev l) * tr d v y l)) with (v i l * (sqrt (1 / ev l) * sqrt (ev l)) * tr d v y l) by ring. rewrite Q. ring. }
  assert (E2 : dot d x x = quad d a y).
  { rewrite (parseval d a dec HD), (diag_quad d a dec HD). unfold dot. apply rsum_ext. intros l Hl. fold v ev. rewrite (T l Hl).
    replace (sqrt (ev l) * tr d v y l * (sqrt (ev l) * tr d v y l)) with (sqrt (ev l) * sqrt (ev l) * (tr d v y l * tr d v y l)) by ring.
    rewrite sqrt_sqrt by (left; auto). reflexivity. }
  specialize (H x). rewrite (quad_sandwich d _ s x (inv_sqrt_sym dec)), (quad_ext_x d s _ y E1), E2 in H. exact H.
Qed.

Let base : R := (1 - k_cmu k) * 2 / 8 * (k_muw k / (Rpower (INR d + 2) 1.5 + 2 * k_muw k)).
Lemma cmu_lt : 0 <= k_cmu k < 1 /\ 0 < k_c1 k.
Proof using HS HR. destruct HS as (_ & (?&?&?&?&?&?) & _). lra. Qed.
Lemma base_nonneg : 0 <= base.
Proof using HS HM HR.
  pose proof cmu_lt. unfold base. apply Rmult_le_pos; [lra|]. apply Rmult_le_pos; [exact HM|]. left. apply Rinv_0_lt_compat.
  assert (0 < Rpower (INR d + 2) 1.5) by (unfold Rpower; apply exp_pos). lra.
Qed.
(** Let [t] be the divisor and s <= t a: then 0 <= cminus and cminus s <= 0.34 (1-cmu) a. *)
Lemma cminus_spec xs n : 0 <= cminus_denom p xs n -> 0 <= cminus p xs n /\
  forall s a, 0 <= s -> 0 <= a -> s <= cminus_denom p xs n * a -> cminus p xs n * s <= 0.34 * (1 - k_cmu k) * a.
Proof using HS HM HR.
  intros Ht. pose proof cmu_lt as [C1 C2]. pose proof base_nonneg as B. unfold cminus. fold k d. fold base. destruct (Req_EM_T _ _) as [E|E].
  - split; [exact B|]. intros s a H1 H2 H3. rewrite E in H3. replace s with 0 by lra. rewrite Rmult_0_r. apply Rmult_le_pos; lra.
  - set (t := cminus_denom p xs n) in *. assert (T : 0 < t) by lra.
    assert (Q : 0 < (1 - k_cmu k) * (1 - 0.66) / t) by (apply Rdiv_lt_0_compat; lra).
    rewrite Rmult_1_l. split; [apply Rmin_glb; lra|]. intros s a H1 H2 H3.
    apply Rle_trans with ((1 - k_cmu k) * (1 - 0.66) / t * (t * a)).
    + apply Rmult_le_compat; auto; [apply Rmin_glb; lra|apply Rmin_l].
    + right. replace (1 - 0.66) with 0.34 by lra. field. lra.
Qed.
Lemma active_quad i xs n x : quad d (active_cov p i xs n) x =
  (1 - k_c1 k - k_cmu k + cminus p xs n * 0.5) * quad d (x_cov n) x + k_c1 k * (dot d (new_pc p i xs n) x * dot d (new_pc p i xs n) x)
  + (k_cmu k + cminus p xs n * (1 - 0.5)) * quad d (spread p (best_of xs) n) x - cminus p xs n * quad d (spread p (worst_of p xs) n) x.
Proof using Type.
  unfold active_cov. fold k.
  rewrite (quad_minus d (fun a b => (1 - k_c1 k - k_cmu k + cminus p xs n * 0.5) * x_cov n a b + k_c1 k * (new_pc p i xs n a * new_pc p i xs n b)
     + (k_cmu k + cminus p xs n * (1 - 0.5)) * spread p (best_of xs) n a b) (fun a b => cminus p xs n * spread p (worst_of p xs) n a b)).
  rewrite (quad_plus d (fun a b => (1 - k_c1 k - k_cmu k + cminus p xs n * 0.5) * x_cov n a b + k_c1 k * (new_pc p i xs n a * new_pc p i xs n b))
     (fun a b => (k_cmu k + cminus p xs n * (1 - 0.5)) * spread p (best_of xs) n a b)).
  rewrite (quad_plus d (fun a b => (1 - k_c1 k - k_cmu k + cminus p xs n * 0.5) * x_cov n a b)). rewrite !quad_scal, quad_outer. reflexivity.
Qed.
Lemma combine_bound c1 cmu cm q pcq sb sw : 0 < c1 -> 0 <= cmu -> 0 <= cm -> 0 <= q -> 0 <= pcq -> 0 <= sb ->
  cm * sw <= 0.34 * (1 - cmu) * q ->
  (0.66 * (1 - cmu) - c1) * q <= (1 - c1 - cmu + cm * 0.5) * q + c1 * pcq + (cmu + cm * (1 - 0.5)) * sb - cm * sw.
Proof using Type.
  intros. assert (0 <= c1 * pcq) by (apply Rmult_le_pos; lra). assert (0 <= (cmu + cm * (1 - 0.5)) * sb) by (apply Rmult_le_pos; lra).
  assert (0 <= cm * 0.5 * q) by (apply Rmult_le_pos; lra).
  replace ((1 - c1 - cmu + cm * 0.5) * q) with ((1 - c1 - cmu) * q + cm * 0.5 * q) by ring.
  replace ((0.66 * (1 - cmu) - c1) * q) with ((1 - c1 - cmu) * q - 0.34 * (1 - cmu) * q) by lra. lra.
Qed.

Definition between (n : num) : Prop := 0 < x_sigma n /\ symmetric d (x_cov n) /\ pos_def d (x_cov n).
Definition after_ask (n : num) : Prop := between n /\ x_fresh n = true /\ diagonalises d (x_cov n) (x_dec n).

Lemma psd_vmax a dec : (1 <= d)%nat -> diagonalises d a dec -> psd d a -> 0 <= vmax d (fst dec).
Proof using Type.
  intros D1 HD P. pose (x := fun i => rsum d (fun m => snd dec i m * (if Nat.eqb m 0 then 1 else 0))).
  assert (T : forall m, (m < d)%nat -> tr d (snd dec) x m = if Nat.eqb m 0 then 1 else 0) by (intros; apply (tr_synth d a dec HD (fun m => if Nat.eqb m 0 then 1 else 0)); auto).
  pose proof (P x) as H. pose proof (diag_max d a dec HD x) as H1. rewrite (parseval d a dec HD) in H1.
  assert (E : dot d (tr d (snd dec) x) (tr d (snd dec) x) = 1); [|rewrite E in H1; lra].
  unfold dot. rewrite (rsum_single d _ 0%nat D1); [rewrite (T _ D1); cbn; ring|].
  intros j Hj J. rewrite (T j Hj). apply Nat.eqb_neq in J. rewrite J. ring.
Qed.

Section Full.
Hypothesis HE : eigensolver_ok p.
Hypothesis HSep : k_sep k = false.
Hypothesis HVd : k_vd k = false.
Hypothesis HLz : p_lazy p = false.

Lemma active_step i xs n : after_ask n -> symmetric d (active_cov p i xs n) /\
  forall x, (0.66 * (1 - k_cmu k) - k_c1 k) * quad d (x_cov n) x <= quad d (active_cov p i xs n) x.
Proof using HS HM HR HE HSep.
  intros ((Hs & SC & PC) & FR & DG). split.
  { intros a b Ha Hb. unfold active_cov. rewrite (SC a b) by auto. rewrite (spread_sym p (best_of xs) n a b), (spread_sym p (worst_of p xs) n a b). ring. }
  intros x. rewrite active_quad. pose proof cmu_lt as [C1 C2].
  pose (B := op_inv_sqrt p (x_dec n)). pose (S := spread p (worst_of p xs) n). pose (M := mm d (mm d B S) B).
  assert (EB : new_csqinv p n = B) by (unfold new_csqinv; fold k; rewrite FR, HSep; reflexivity).
  assert (SM : symmetric d M) by (apply mm_sym; [apply inv_sqrt_sym|intros a b _ _; apply spread_sym]).
  assert (DM : diagonalises d M (p_eig p (mtab d M))) by (apply HE, SM).
  assert (ED : cminus_denom p xs n = vmax d (fst (p_eig p (mtab d M)))) by (unfold cminus_denom; fold k d; rewrite HSep, EB; reflexivity).
  assert (T0 : 0 <= cminus_denom p xs n).
  { rewrite ED. apply (psd_vmax M); [exact (proj1 HS)|exact DM|]. intros y. unfold M. rewrite quad_sandwich by apply inv_sqrt_sym. apply (spread_psd p HS), Hs. }
  destruct (cminus_spec xs n T0) as [CM CS].
  assert (Q0 : 0 <= quad d (x_cov n) x) by (apply (pos_def_psd d (x_cov n) PC)).
  apply combine_bound; try lra; try exact CM.
  - apply (Rle_0_sqr (dot d (new_pc p i xs n) x)).
  - apply (spread_psd p HS), Hs.
  - apply CS; [apply (spread_psd p HS), Hs|exact Q0|]. rewrite ED.
    apply (inv_sqrt_bound (x_cov n) (x_dec n)); auto. apply (diag_max d M), DM.
Qed.
Lemma pd_scale c a b : 0 < c -> pos_def d a -> (forall x, c * quad d a x <= quad d b x) -> pos_def d b.
Proof using Type. intros H P L x Hx. pose proof (P x Hx). pose proof (L x). assert (0 < c * quad d a x) by (apply Rmult_lt_0_compat; auto). lra. Qed.
Lemma update_between i xs n : after_ask n -> between (update_num p i xs n).
Proof using HS HM HA HR HE HSep.
  intros H. destruct (active_step i xs n H) as [S L]. destruct H as ((Hs & SC & PC) & FR & DG).
  split; [|unfold update_num; cbn [x_cov]; fold k; rewrite HA, HSep; split; [exact S|]].
  - apply (new_sigma_pos p i xs n Hs).
  - apply pd_scale with (2 := PC) (3 := L). lra.
Qed.
Lemma ident_pd : symmetric d ident /\ pos_def d ident.
Proof using Type.
  split; [intros i j _ _; unfold ident, diag; rewrite Nat.eqb_sym; reflexivity|].
  intros x (i & Hi & Hx). rewrite quad_ident. pose proof (dot_self_nonneg d x). destruct (Req_dec (dot d x x) 0) as [E|E]; [|lra].
  exfalso. apply Hx, (dot_self_zero d x E i Hi).
Qed.
Lemma active_ops e g h : forall s s', asked false h -> between (s_num (t_sol s)) -> run_ops (cma_num p) e g h s = Ok s' -> between (s_num (t_sol s')).
Proof using HS HM HA HR HE HSep HVd HLz.
  intros s s' W H0 H. refine (ops_phase (cma_num p) e g between after_ask _ _ _ _ _ _ _ _ _ _ _ h false s s' W H0 H); clear h s s' W H0 H.
  - intros n [H _]. exact H.
  - intros x0 n. split; [apply (init_sigma_pos p (proj1 HS))|exact ident_pd].
  - intros i n (Hs & SC & PC). cbn [cma_num n_eigen]. unfold eigen_num. fold k. rewrite HSep, HVd, HLz, orb_true_r. cbn [orb].
    split; [exact (conj Hs (conj SC PC))|]. split; [reflexivity|]. exact (HE (x_cov n) SC).
  - intros c n H. exact H.
  - intros n H. exact H.
  - intros n H. exact H.
  - intros l n H. exact H.
  - intros v n H. exact H.
  - intros i xs n H. apply update_between, H.
  - intros n (Hs & H). split; [|exact H]. cbn. apply Rmult_lt_0_compat; [exact Hs|exact (proj2 (proj2 (proj2 HS)))].
  - intros v n H. exact H.
Qed.
Lemma active_pd e g h s0 s : started p e g s0 -> asked false h -> run_ops (cma_num p) e g h s0 = Ok s ->
  symmetric d (cov_of s) /\ pos_def d (cov_of s).
Proof using HS HM HA HR HE HSep HVd HLz.
  intros H0 W H. refine (proj2 (active_ops e g h s0 s W _ H)).
  destruct H0 as [x0 n s1 E|s1 h1 s2 H1 H2 H3].
  - apply st_new_num in E. rewrite E. split; [apply (init_sigma_pos p (proj1 HS))|exact ident_pd].
  - cbn. split; [apply (sigma_positive p (proj1 HS) (proj2 (proj2 (proj2 HS))) e g h1 s1 s2); auto|exact ident_pd].
Qed.
End Full.

(** sep: along every history. *)
Lemma active_sep_step i xs n : k_sep k = true -> 0 < x_sigma n -> (forall j, (j < d)%nat -> 0 < x_sep n j) ->
  forall j, (j < d)%nat -> (0.66 * (1 - k_cmu k) - k_c1 k) * x_sep n j <= active_sep p i xs n j.
Proof using HS HM HR.
  intros HSep Hs PS j Hj. pose proof cmu_lt as [C1 C2].
  pose (S := spread p (worst_of p xs) n).
  assert (T : forall l, (l < d)%nat -> sqrt (1 / x_sep n l) * (S l l * sqrt (1 / x_sep n l)) = S l l / x_sep n l).
  { intros l Hl. replace (sqrt (1 / x_sep n l) * (S l l * sqrt (1 / x_sep n l))) with (S l l * (sqrt (1 / x_sep n l) * sqrt (1 / x_sep n l))) by ring.
    rewrite sqrt_sqrt; [unfold Rdiv; ring|]. left. apply Rdiv_lt_0_compat; [lra|auto]. }
  assert (S0 : forall l, 0 <= S l l) by (intros; apply (spread_diag p HS), Hs).
  assert (ED : cminus_denom p xs n = vmax d (fun l => sqrt (1 / x_sep n l) * (S l l * sqrt (1 / x_sep n l)))) by (unfold cminus_denom; fold k d; rewrite HSep; reflexivity).
  assert (T0 : 0 <= cminus_denom p xs n).
  { rewrite ED. apply vmax_nonneg. intros l Hl. rewrite (T l Hl). apply Rmult_le_pos; [apply S0|]. left. apply Rinv_0_lt_compat; auto. }
  destruct (cminus_spec xs n T0) as [CM CS].
  pose proof (PS j Hj) as Pj.
  unfold active_sep. fold k. apply combine_bound; try lra; try exact CM.
  - apply (Rle_0_sqr (new_pc p i xs n j)).
  - apply (spread_diag p HS), Hs.
  - apply CS; [apply S0|lra|]. rewrite ED. fold S.
    apply Rle_trans with (S j j / x_sep n j * x_sep n j); [right; field; lra|]. apply Rmult_le_compat_r; [lra|].
    rewrite <- (T j Hj). apply (vmax_ge d (fun l => sqrt (1 / x_sep n l) * (S l l * sqrt (1 / x_sep n l)))), Hj.
Qed.
Lemma active_sep_pos e g h x0 n0 s0 s : k_sep k = true -> st_new (cma_num p) g x0 n0 = Ok s0 -> run_ops (cma_num p) e g h s0 = Ok s ->
  forall j, (j < d)%nat -> 0 < variances_of s j.
Proof using HS HM HA HR.
  intros HSep H1 H2. apply st_new_num in H1.
  refine (proj2 (inv_ops p (proj1 HS) (proj2 (proj2 (proj2 HS))) (fun n => forall j, (j < d)%nat -> 0 < x_sep n j) _ _ _ e g h s0 s _ H2)).
  - intros n n' [_ E] H j Hj. rewrite E. auto.
  - intros n _ E j _. rewrite E. lra.
  - intros i xs n Hs H j Hj. unfold update_num. cbn [x_sep]. fold k. rewrite HA, HSep.
    apply Rlt_le_trans with ((0.66 * (1 - k_cmu k) - k_c1 k) * x_sep n j); [apply Rmult_lt_0_compat; [lra|auto]|].
    apply active_sep_step; auto.
  - rewrite H1. split; [apply (init_sigma_pos p (proj1 HS))|]. intros j _. cbn. lra.
Qed.
End Act.
