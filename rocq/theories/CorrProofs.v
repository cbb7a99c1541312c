From Coq Require Import Reals List Lia Lra Psatz.
From Verif Require Import Base Dbl Vec VecProofs Params SpecParams Config Search SpecSearch Update SpecUpdate UpdateProofs UpdateProofs2 Corr.
Open Scope R_scope.

Lemma pos_def_diag n a i : pos_def n a -> (i < n)%nat -> 0 < a i i.
Proof.
  intros H Hi. pose proof (H (fun l => if Nat.eqb l i then 1 else 0)) as Q. unfold quad, dot in Q.
  rewrite (rsum_single n _ i Hi) in Q by (intros j _ D; apply Nat.eqb_neq in D; rewrite D; ring).
  rewrite Nat.eqb_refl in Q. unfold mv in Q. rewrite (rsum_single n _ i Hi) in Q by (intros j _ D; apply Nat.eqb_neq in D; rewrite D; ring).
  rewrite Nat.eqb_refl in Q. rewrite Rmult_1_l, Rmult_1_r in Q. apply Q. exists i. split; auto. rewrite Nat.eqb_refl. lra.
Qed.
Lemma pos_def_psd n a : pos_def n a -> psd n a.
Proof.
  intros H x. destruct (Req_dec (dot n x x) 0) as [E|E].
  - rewrite (quad_ext_x n a x (fun _ => 0)); [|intros i Hi; apply (dot_self_zero n x E i Hi)].
    unfold quad, dot. rewrite (rsum_ext _ _ (fun _ => 0)) by (intros; ring). rewrite rsum_0. lra.
  - left. apply H. clear H. unfold dot in E.
    assert (A : forall m, rsum m (fun i => x i * x i) <> 0 -> exists i, (i < m)%nat /\ x i <> 0).
    { induction m as [|m IH]; cbn; [lra|]. intros Q. destruct (Req_dec (x m) 0) as [Z|Z]; [|exists m; auto].
      rewrite Z, Rmult_0_r, Rplus_0_r in Q. destruct (IH Q) as (i & Hi & Hx). exists i. split; auto. }
    auto.
Qed.
Lemma plus_minus_l a b : a + b - a = b.
Proof. ring. Qed.
Section CorrP.
Variable p : npar.
Let k := p_k p.
Let d := k_dim k.
Lemma plain_full n i : k_vd k = false -> plain_stds p n i = sqrt (x_cov n i i).
Proof. intros H. unfold plain_stds. fold k. rewrite H. rewrite plus_minus_l. apply Rabs_pos_eq, sqrt_pos. Qed.
Lemma plain_vd n i : k_vd k = true -> plain_stds p n i = sqrt (1 + x_v n i * x_v n i) * Rabs (x_sep n i).
Proof. intros H. unfold plain_stds. fold k. rewrite H, plus_minus_l, Rabs_mult. rewrite Rabs_pos_eq by apply sqrt_pos. reflexivity. Qed.

Lemma corr_full n : k_sep k = false -> k_vd k = false -> symmetric d (x_cov n) -> pos_def d (x_cov n) ->
  is_correlation d (corr_ij p n) /\ exists m, corr_matrix p n = (d, d, m) /\ forall i j, (i < d)%nat -> (j < d)%nat -> m i j = corr_ij p n i j.
Proof.
  intros F1 F2 S P. assert (DP : forall i, (i < d)%nat -> 0 < sqrt (x_cov n i i)) by (intros i Hi; apply sqrt_lt_R0, (pos_def_diag d); auto).
  assert (E : forall i j, i <> j -> corr_ij p n i j = x_cov n i j / (sqrt (x_cov n i i) * sqrt (x_cov n j j))).
  { intros i j D. unfold corr_ij. fold k. rewrite F1, F2. apply Nat.eqb_neq in D. rewrite D. cbn [orb negb]. rewrite !plain_full by auto. reflexivity. }
  split.
  - split; [intros i _; unfold corr_ij; now rewrite Nat.eqb_refl|]. split.
    + intros i j Hi Hj. destruct (Nat.eq_dec i j) as [->|D]; auto. rewrite !E by auto. rewrite (S i j Hi Hj). f_equal. ring.
    + intros i j Hi Hj. destruct (Nat.eq_dec i j) as [->|D]; [unfold corr_ij; rewrite Nat.eqb_refl; lra|].
      rewrite E by auto. apply corr_bound; auto.
      rewrite !sqrt_sqrt by (left; apply (pos_def_diag d); auto). apply (psd_cauchy d); auto. apply pos_def_psd, P.
  - unfold corr_matrix. fold k. rewrite F1, F2. cbn [orb negb]. eexists. split; [reflexivity|].
    intros i j Hi Hj. unfold scale_corr. pose proof (DP i Hi). pose proof (DP j Hj). destruct (Nat.eq_dec i j) as [->|D].
    + unfold corr_ij. rewrite Nat.eqb_refl. rewrite <- (sqrt_sqrt (x_cov n j j)) at 1 by (left; apply (pos_def_diag d); auto). field. lra.
    + rewrite E by auto. field. split; lra.
Qed.
Lemma vd_diag n i : vd_cov n i i = (1 + x_v n i * x_v n i) * (x_sep n i * x_sep n i).
Proof. unfold vd_cov. rewrite Nat.eqb_refl. ring. Qed.
Lemma corr_vd n : k_vd k = true -> (forall i, (i < d)%nat -> x_sep n i <> 0) ->
  is_correlation d (corr_ij p n) /\ exists m, corr_matrix p n = (d, d, m) /\ forall i j, (i < d)%nat -> (j < d)%nat -> m i j = corr_ij p n i j.
Proof.
  intros F2 P.
  assert (Q : forall i, 0 < sqrt (1 + x_v n i * x_v n i)) by (intros i; apply sqrt_lt_R0; nra).
  assert (DP : forall i, (i < d)%nat -> 0 < sqrt (1 + x_v n i * x_v n i) * Rabs (x_sep n i)) by (intros i Hi; apply Rmult_lt_0_compat; auto; apply Rabs_pos_lt; auto).
  assert (E : forall i j, i <> j -> corr_ij p n i j = (x_sep n i * (0 + x_v n i * x_v n j) * x_sep n j) /
     ((sqrt (1 + x_v n i * x_v n i) * Rabs (x_sep n i)) * (sqrt (1 + x_v n j * x_v n j) * Rabs (x_sep n j)))).
  { intros i j D. unfold corr_ij. fold k. rewrite F2. apply Nat.eqb_neq in D. rewrite D, orb_true_r. cbn [negb]. rewrite !plain_vd by auto. reflexivity. }
  split.
  - split; [intros i _; unfold corr_ij; now rewrite Nat.eqb_refl|]. split.
    + intros i j Hi Hj. destruct (Nat.eq_dec i j) as [->|D]; auto. rewrite !E by auto. unfold Rdiv; f_equal; [ring|apply f_equal; ring].
    + intros i j Hi Hj. destruct (Nat.eq_dec i j) as [->|D]; [unfold corr_ij; rewrite Nat.eqb_refl; lra|].
      rewrite E by auto. apply corr_bound; auto.
      assert (S : forall i, sqrt (1 + x_v n i * x_v n i) * Rabs (x_sep n i) * (sqrt (1 + x_v n i * x_v n i) * Rabs (x_sep n i)) = (1 + x_v n i * x_v n i) * (x_sep n i * x_sep n i)).
      { intros l. replace (sqrt (1 + x_v n l * x_v n l) * Rabs (x_sep n l) * (sqrt (1 + x_v n l * x_v n l) * Rabs (x_sep n l)))
          with (sqrt (1 + x_v n l * x_v n l) * sqrt (1 + x_v n l * x_v n l) * (Rabs (x_sep n l) * Rabs (x_sep n l))) by ring.
        rewrite sqrt_sqrt by nra. rewrite <- Rabs_mult, Rabs_pos_eq by nra. reflexivity. }
      rewrite !S.
      replace (x_sep n i * (0 + x_v n i * x_v n j) * x_sep n j * (x_sep n i * (0 + x_v n i * x_v n j) * x_sep n j))
        with ((x_v n i * x_v n i) * (x_v n j * x_v n j) * ((x_sep n i * x_sep n i) * (x_sep n j * x_sep n j))) by ring.
      replace ((1 + x_v n i * x_v n i) * (x_sep n i * x_sep n i) * ((1 + x_v n j * x_v n j) * (x_sep n j * x_sep n j)))
        with ((1 + x_v n i * x_v n i) * (1 + x_v n j * x_v n j) * ((x_sep n i * x_sep n i) * (x_sep n j * x_sep n j))) by ring.
      apply Rmult_le_compat_r; [|nra]. apply Rmult_le_pos; apply Rle_0_sqr.
  - unfold corr_matrix. fold k. rewrite F2, orb_true_r. cbn [negb]. eexists. split; [reflexivity|].
    intros i j Hi Hj. unfold scale_corr. rewrite !vd_diag.
    assert (R : forall i, sqrt ((1 + x_v n i * x_v n i) * (x_sep n i * x_sep n i)) = sqrt (1 + x_v n i * x_v n i) * Rabs (x_sep n i)).
    { intros l. rewrite sqrt_mult by nra. f_equal. apply sqrt_Rsqr_abs. }
    rewrite !R. pose proof (DP i Hi). pose proof (DP j Hj).
    assert (RN : forall i, (i < d)%nat -> Rabs (x_sep n i) <> 0) by (intros l Hl; apply Rabs_no_R0; auto).
    destruct (Nat.eq_dec i j) as [->|D].
    + unfold corr_ij. rewrite Nat.eqb_refl, vd_diag.
      replace ((1 + x_v n j * x_v n j) * (x_sep n j * x_sep n j)) with ((sqrt (1 + x_v n j * x_v n j) * Rabs (x_sep n j)) * (sqrt (1 + x_v n j * x_v n j) * Rabs (x_sep n j))).
      * field. split; [apply RN; auto|]. pose proof (Q j). lra.
      * rewrite <- R. apply sqrt_sqrt. apply Rmult_le_pos; [nra|apply Rle_0_sqr].
    + rewrite E by auto. unfold vd_cov. apply Nat.eqb_neq in D. rewrite D. field. repeat split; try apply RN; auto; pose proof (Q i); pose proof (Q j); lra.
Qed.
Lemma corr_sep n : k_sep k = true -> k_vd k = false -> is_correlation d (corr_ij p n).
Proof.
  intros F1 F2. assert (E : forall i j, corr_ij p n i j = if Nat.eqb i j then 1 else 0) by (intros; unfold corr_ij; fold k; rewrite F1, F2; reflexivity).
  split; [intros; rewrite E, Nat.eqb_refl; auto|]. split; [intros; rewrite !E, (Nat.eqb_sym j); auto|]. intros. rewrite E. destruct (Nat.eqb i j); lra.
Qed.
End CorrP.
