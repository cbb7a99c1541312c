(** Invariants of the numeric updates. *)
From Coq Require Import Reals List Lia Lra.
From Verif Require Import Base Dbl Vec VecProofs Params SpecParams Config Search SpecSearch SearchInv NumInv Update SpecUpdate.
Import ListNotations.
Open Scope R_scope.

Lemma nth_in_pos (l : list R) i : (forall w, In w l -> 0 < w) -> 0 <= nth i l 0.
Proof.
  intros H. destruct (Nat.lt_ge_cases i (length l)); [left; apply H, nth_In; auto|]. rewrite nth_overflow by auto. lra.
Qed.

Section U.
Variable p : npar.
Let k := p_k p.
Let d := k_dim k.
Hypothesis HS : sound_params k.
Hypothesis HD1 : (1 <= d)%nat.
Hypothesis HA1 : 0 < k_alphathuh k.

Lemma hsig_01 i xs n : 0 <= 1 - hsig p i xs n.
Proof using Type. unfold hsig. destruct (Rlt_dec _ _); lra. Qed.
Lemma keep_rate_ge i xs n : 1 - k_c1 k - k_cmu k <= keep_rate p i xs n.
Proof using HS.
  unfold keep_rate. destruct HS as (_ & (?&?&?&?&?&?) & _). fold k. pose proof (hsig_01 i xs n).
  assert (0 <= (1 - hsig p i xs n) * k_c1 k) by (apply Rmult_le_pos; lra).
  assert (0 <= (1 - hsig p i xs n) * k_c1 k * k_cc k) by (apply Rmult_le_pos; lra).
  assert (0 <= (1 - hsig p i xs n) * k_c1 k * k_cc k * (2 - k_cc k)) by (apply Rmult_le_pos; lra). lra.
Qed.
Lemma rates : 0 <= 1 - k_c1 k - k_cmu k < 1 /\ 0 <= k_c1 k /\ 0 <= k_cmu k.
Proof using HS. destruct HS as (_ & (?&?&?&?&?&?) & _). lra. Qed.
Lemma wgt_pos i : 0 <= wgt p i.
Proof using HS. unfold wgt. apply nth_in_pos. destruct HS as (_ & _ & (_&_&_&H&_) & _). exact H. Qed.

Lemma spread_sym q n i j : spread p q n i j = spread p q n j i.
Proof using Type. unfold spread. f_equal. apply rsum_ext. intros; ring. Qed.
Lemma spread_quad q n x : quad d (spread p q n) x =
  1 / (x_sigma n * x_sigma n) * rsum (k_mu k) (fun l => wgt p l * (dot d (fun i => q l i - x_mean n i) x * dot d (fun i => q l i - x_mean n i) x)).
Proof using Type.
  unfold spread. rewrite quad_scal. f_equal. rewrite (quad_rsum d (k_mu k) (fun l i j => wgt p l * ((q l i - x_mean n i) * (q l j - x_mean n j)))).
  apply rsum_ext. intros l _. rewrite (quad_scal d (wgt p l) (fun i j => (q l i - x_mean n i) * (q l j - x_mean n j))).
  rewrite (quad_outer d (fun i => q l i - x_mean n i)). reflexivity.
Qed.
Lemma inv_sq_nonneg s : 0 < s -> 0 <= 1 / (s * s).
Proof using Type. intros H. apply Rlt_le, Rdiv_lt_0_compat; [lra|nra]. Qed.
Lemma spread_psd q n x : 0 < x_sigma n -> 0 <= quad d (spread p q n) x.
Proof using HS.
  intros H. rewrite spread_quad. apply Rmult_le_pos; [apply inv_sq_nonneg; auto|].
  apply rsum_nonneg. intros l _. apply Rmult_le_pos; [apply wgt_pos|apply (Rle_0_sqr _)].
Qed.
Lemma spread_diag q n i : 0 < x_sigma n -> 0 <= spread p q n i i.
Proof using HS.
  intros H. unfold spread. apply Rmult_le_pos; [apply inv_sq_nonneg; auto|].
  apply rsum_nonneg. intros l _. apply Rmult_le_pos; [apply wgt_pos|apply (Rle_0_sqr _)].
Qed.

(** ** Full update *)
Lemma rank_mu_quad i xs n x : quad d (rank_mu_cov p i xs n) x =
  keep_rate p i xs n * quad d (x_cov n) x + k_c1 k * (dot d (new_pc p i xs n) x * dot d (new_pc p i xs n) x)
  + k_cmu k * quad d (spread p (best_of xs) n) x.
Proof using Type.
  unfold rank_mu_cov. fold k.
  rewrite (quad_plus d (fun a b => keep_rate p i xs n * x_cov n a b + k_c1 k * (new_pc p i xs n a * new_pc p i xs n b))
                       (fun a b => k_cmu k * spread p (best_of xs) n a b)).
  rewrite (quad_plus d (fun a b => keep_rate p i xs n * x_cov n a b) (fun a b => k_c1 k * (new_pc p i xs n a * new_pc p i xs n b))).
  rewrite (quad_scal d (keep_rate p i xs n) (x_cov n)), (quad_scal d (k_c1 k) (fun a b => new_pc p i xs n a * new_pc p i xs n b)).
  rewrite (quad_scal d (k_cmu k) (spread p (best_of xs) n)), quad_outer. reflexivity.
Qed.
Lemma rank_mu_lower i xs n x c : 0 < x_sigma n -> 0 <= c -> c * dot d x x <= quad d (x_cov n) x ->
  (1 - k_c1 k - k_cmu k) * c * dot d x x <= quad d (rank_mu_cov p i xs n) x.
Proof using HS.
  intros Hs Hc H. rewrite rank_mu_quad. pose proof (keep_rate_ge i xs n) as K. pose proof rates as (R1 & R2 & R3).
  pose proof (spread_psd (best_of xs) n x Hs). pose proof (dot_self_nonneg d x).
  assert (0 <= k_c1 k * (dot d (new_pc p i xs n) x * dot d (new_pc p i xs n) x)) by (apply Rmult_le_pos; [lra|apply (Rle_0_sqr _)]).
  assert (0 <= k_cmu k * quad d (spread p (best_of xs) n) x) by (apply Rmult_le_pos; auto).
  assert (0 <= c * dot d x x) by (apply Rmult_le_pos; auto).
  assert ((1 - k_c1 k - k_cmu k) * (c * dot d x x) <= keep_rate p i xs n * quad d (x_cov n) x) by (apply Rmult_le_compat; lra).
  lra.
Qed.
Lemma rank_mu_sym i xs n : symmetric d (x_cov n) -> symmetric d (rank_mu_cov p i xs n).
Proof using Type.
  intros H a b Ha Hb. unfold rank_mu_cov. rewrite (H a b) by auto. rewrite (spread_sym (best_of xs) n a b). ring.
Qed.
Lemma rank_mu_sep_lower i xs n c j : 0 < x_sigma n -> 0 <= c -> c <= x_sep n j ->
  (1 - k_c1 k - k_cmu k) * c <= rank_mu_sep p i xs n j.
Proof using HS.
  intros Hs Hc H. unfold rank_mu_sep. fold k. pose proof (keep_rate_ge i xs n) as K. pose proof rates as (R1 & R2 & R3).
  pose proof (spread_diag (best_of xs) n j Hs).
  assert (0 <= k_c1 k * (new_pc p i xs n j * new_pc p i xs n j)) by (apply Rmult_le_pos; [lra|apply (Rle_0_sqr _)]).
  assert (0 <= k_cmu k * spread p (best_of xs) n j j) by (apply Rmult_le_pos; auto).
  assert ((1 - k_c1 k - k_cmu k) * c <= keep_rate p i xs n * x_sep n j) by (apply Rmult_le_compat; lra).
  lra.
Qed.

(** ** Step size *)
Lemma dbl_max_R_pos : 0 < dbl_max_R.
Proof using Type. unfold dbl_max_R. apply Rmult_lt_0_compat; [apply IZR_lt; reflexivity|apply pow_lt; lra]. Qed.
Lemma new_sigma_pos i xs n : 0 < x_sigma n -> 0 < new_sigma p i xs n.
Proof using Type.
  intros H. unfold new_sigma. pose proof dbl_max_R_pos as D.
  destruct (_ <? 2)%Z.
  - apply Rmult_lt_0_compat; [auto|]. destruct (p_upd p); try apply exp_pos. apply Rmin_glb_lt; [exact D|apply exp_pos].
  - destruct (_ <? _)%Z; [apply Rmult_lt_0_compat; [auto|apply exp_pos]|auto].
Qed.
Lemma init_sigma_pos : 0 < init_sigma p.
Proof using HD1.
  unfold init_sigma. destruct (Rlt_dec _ _); [auto|]. apply Rdiv_lt_0_compat; [lra|]. apply lt_0_INR. fold k d. lia.
Qed.

(** Invariant made of the sign of the step size and of one more predicate that
    only the covariance matters for. *)
Definition same_cov (n n' : num) : Prop := x_cov n' = x_cov n /\ x_sep n' = x_sep n.
Section Inv.
Variable C : num -> Prop.
Hypothesis C_ext : forall n n', same_cov n n' -> C n -> C n'.
Hypothesis C_init : forall n, x_cov n = ident -> x_sep n = (fun _ => 1) -> C n.
Hypothesis C_upd : forall i xs n, 0 < x_sigma n -> C n -> C (update_num p i xs n).
Let P (n : num) : Prop := 0 < x_sigma n /\ C n.
Lemma P_same n n' : same_cov n n' -> x_sigma n' = x_sigma n -> P n -> P n'.
Proof using C_ext. intros H E [H1 H2]. split; [rewrite E; auto|eapply C_ext; eauto]. Qed.
Lemma P_new x0 n : P (n_new (cma_num p) x0 n).
Proof using HD1 C_init. split; [exact init_sigma_pos|]. apply C_init; reflexivity. Qed.
Lemma inv_ops e g h : forall s s', P (s_num (t_sol s)) -> run_ops (cma_num p) e g h s = Ok s' -> P (s_num (t_sol s')).
Proof using HD1 HA1 C_ext C_init C_upd.
  apply (ops_num (cma_num p) e g P); intros; cbn [cma_num n_new n_eigen n_sample n_tpa_points n_coin n_mutate n_tpa n_update n_uh_scale n_edm snd].
  - apply P_new.
  - eapply P_same; [| |eauto]; unfold eigen_num; destruct (_ || _); try destruct (_ || _ || _); try split; reflexivity.
  - eapply P_same; [| |eauto]; try split; reflexivity.
  - eapply P_same; [| |eauto]; try split; reflexivity.
  - eapply P_same; [| |eauto]; try split; reflexivity.
  - eapply P_same; [| |eauto]; try split; reflexivity.
  - eapply P_same; [| |eauto]; try split; reflexivity.
  - destruct H as [H1 H2]. split; [apply new_sigma_pos; auto|apply C_upd; auto].
  - destruct H as [H1 H2]. split.
    + cbn. apply Rmult_lt_0_compat; [auto|]. exact HA1.
    + eapply C_ext; [|eauto]. split; reflexivity.
  - eapply P_same; [| |eauto]; try split; reflexivity.
Qed.
Hypothesis C_reset : forall n, C n -> C (reset_num n).
Lemma inv_started e g s : started p e g s -> P (s_num (t_sol s)).
Proof using HD1 HA1 C_ext C_init C_upd C_reset.
  induction 1 as [x0 n s H|s0 h s H IH H1 H2].
  - apply st_new_num in H. rewrite H. apply P_new.
  - destruct (inv_ops _ _ _ _ _ IH H1) as [A B]. cbn. split; [exact A|apply C_reset, B].
Qed.
Lemma inv_all e g h s0 s : started p e g s0 -> run_ops (cma_num p) e g h s0 = Ok s -> P (s_num (t_sol s)).
Proof using HD1 HA1 C_ext C_init C_upd C_reset. intros H1 H2. eapply inv_ops; [|eauto]. eapply inv_started; eauto. Qed.
End Inv.

Lemma sigma_positive e g h s0 s : started p e g s0 -> run_ops (cma_num p) e g h s0 = Ok s -> 0 < sigma_of s.
Proof using HD1 HA1. intros H1 H2. apply (inv_all (fun _ => True)) with (e := e) (g := g) (h := h) (s0 := s0); auto. Qed.

Lemma cov_psd e g h s0 s : p_upd p <> Active -> started p e g s0 -> run_ops (cma_num p) e g h s0 = Ok s ->
  symmetric d (cov_of s) /\ psd d (cov_of s).
Proof using HS HD1 HA1.
  intros F H1 H2.
  refine (proj2 (inv_all (fun n => symmetric d (x_cov n) /\ psd d (x_cov n)) _ _ _ _ e g h s0 s H1 H2)).
  - intros n n' [E _] H. rewrite E. exact H.
  - intros n E _. rewrite E. split; [intros i j _ _; unfold ident, diag; destruct (Nat.eqb_spec i j), (Nat.eqb_spec j i); congruence|].
    intros x. rewrite quad_ident. apply dot_self_nonneg.
  - intros i xs n Hs [A B]. unfold update_num. cbn [x_cov]. fold k. destruct (p_upd p); [|congruence|auto].
    destruct (k_sep k); [auto|]. split; [apply rank_mu_sym; auto|].
    intros x. pose proof (rank_mu_lower i xs n x 0 Hs) as L. specialize (B x). lra.
  - intros n _. cbn [reset_num x_cov]. split; [intros i j _ _; unfold ident, diag; destruct (Nat.eqb_spec i j), (Nat.eqb_spec j i); congruence|].
    intros x. rewrite quad_ident. apply dot_self_nonneg.
Qed.
End U.
