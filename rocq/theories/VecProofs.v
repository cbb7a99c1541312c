(** Finite sums and quadratic forms. *)
From Coq Require Import Reals List Lia Lra.
From Verif Require Import Vec Params.
Import ListNotations.
Open Scope R_scope.

Lemma rsum_ext n f g : (forall i, (i < n)%nat -> f i = g i) -> rsum n f = rsum n g.
Proof. induction n as [|n IH]; intros H; cbn [rsum]; [reflexivity|]. rewrite IH, H; auto. Qed.
Lemma rsum_0 n : rsum n (fun _ => 0) = 0.
Proof. induction n as [|n IH]; cbn [rsum]; [reflexivity|]. rewrite IH. ring. Qed.
Lemma rsum_plus n f g : rsum n (fun i => f i + g i) = rsum n f + rsum n g.
Proof. induction n as [|n IH]; cbn [rsum]; [ring|]. rewrite IH. ring. Qed.
Lemma rsum_scal n c f : rsum n (fun i => c * f i) = c * rsum n f.
Proof. induction n as [|n IH]; cbn [rsum]; [ring|]. rewrite IH. ring. Qed.
Lemma rsum_scal_r n c f : rsum n (fun i => f i * c) = rsum n f * c.
Proof. induction n as [|n IH]; cbn [rsum]; [ring|]. rewrite IH. ring. Qed.
Lemma rsum_minus n f g : rsum n (fun i => f i - g i) = rsum n f - rsum n g.
Proof. induction n as [|n IH]; cbn [rsum]; [ring|]. rewrite IH. ring. Qed.
Lemma rsum_swap n m (f : nat -> nat -> R) : rsum n (fun i => rsum m (fun j => f i j)) = rsum m (fun j => rsum n (fun i => f i j)).
Proof.
  induction n as [|n IH]; cbn [rsum]; [symmetry; apply rsum_0|]. rewrite IH, <- rsum_plus. reflexivity.
Qed.
Lemma rsum_nonneg n f : (forall i, (i < n)%nat -> 0 <= f i) -> 0 <= rsum n f.
Proof. induction n as [|n IH]; intros H; cbn [rsum]; [lra|]. assert (0 <= f n) by (apply H; lia). assert (0 <= rsum n f) by auto. lra. Qed.
Lemma rsum_le n f g : (forall i, (i < n)%nat -> f i <= g i) -> rsum n f <= rsum n g.
Proof. induction n as [|n IH]; intros H; cbn [rsum]; [lra|]. assert (f n <= g n) by (apply H; lia). assert (rsum n f <= rsum n g) by auto. lra. Qed.
Lemma rsum_term n f i : (i < n)%nat -> (forall i, (i < n)%nat -> 0 <= f i) -> f i <= rsum n f.
Proof.
  induction n as [|n IH]; intros Hi H; [lia|]. cbn [rsum].
  destruct (Nat.eq_dec i n) as [->|].
  - assert (0 <= rsum n f) by (apply rsum_nonneg; auto). lra.
  - assert (f i <= rsum n f) by (apply IH; [lia|auto]). assert (0 <= f n) by (apply H; lia). lra.
Qed.
Lemma rsum_pos n f i : (i < n)%nat -> 0 < f i -> (forall i, (i < n)%nat -> 0 <= f i) -> 0 < rsum n f.
Proof. intros Hi Hp H. pose proof (rsum_term n f i Hi H). lra. Qed.
Lemma rsum_single n f i : (i < n)%nat -> (forall j, (j < n)%nat -> j <> i -> f j = 0) -> rsum n f = f i.
Proof.
  induction n as [|n IH]; intros Hi H; [lia|]. cbn [rsum]. destruct (Nat.eq_dec i n) as [->|].
  - rewrite (rsum_ext n f (fun _ => 0)), rsum_0 by (intros; apply H; lia). ring.
  - rewrite IH by (try lia; intros; apply H; lia). rewrite (H n) by lia. ring.
Qed.
Lemma rsum_zero_all n f : (forall i, (i < n)%nat -> 0 <= f i) -> rsum n f = 0 -> forall i, (i < n)%nat -> f i = 0.
Proof. intros H E i Hi. pose proof (rsum_term n f i Hi H). pose proof (H i Hi). lra. Qed.
Lemma rsum_S_l n f : rsum (S n) f = f 0%nat + rsum n (fun i => f (S i)).
Proof. induction n as [|n IH]; [cbn; ring|]. cbn [rsum] in *. rewrite IH. ring. Qed.

Lemma dot_comm n u v : dot n u v = dot n v u.
Proof. unfold dot. apply rsum_ext. intros; ring. Qed.
Lemma dot_self_nonneg n u : 0 <= dot n u u.
Proof. apply rsum_nonneg. intros; nra. Qed.
Lemma dot_self_zero n u : dot n u u = 0 -> forall i, (i < n)%nat -> u i = 0.
Proof. intros H i Hi. assert (u i * u i = 0) by (apply (rsum_zero_all n (fun i => u i * u i)); auto; intros; nra). nra. Qed.
Lemma dot_plus_r n u v w : dot n u (fun i => v i + w i) = dot n u v + dot n u w.
Proof. unfold dot. rewrite <- rsum_plus. apply rsum_ext; intros; ring. Qed.
Lemma dot_scal_r n u c v : dot n u (fun i => c * v i) = c * dot n u v.
Proof. unfold dot. rewrite <- rsum_scal. apply rsum_ext; intros; ring. Qed.
Lemma dot_ext n u u' v v' : (forall i, (i < n)%nat -> u i = u' i) -> (forall i, (i < n)%nat -> v i = v' i) -> dot n u v = dot n u' v'.
Proof. intros H H'. apply rsum_ext. intros i Hi. rewrite H, H'; auto. Qed.
Lemma norm_ext n u v : (forall i, (i < n)%nat -> u i = v i) -> norm n u = norm n v.
Proof. intros H. unfold norm. f_equal. apply dot_ext; auto. Qed.
Lemma norm_nonneg n u : 0 <= norm n u.
Proof. apply sqrt_pos. Qed.
Lemma norm_scal n c u : norm n (fun i => c * u i) = Rabs c * norm n u.
Proof.
  unfold norm, dot. rewrite (rsum_ext n _ (fun i => (c * c) * (u i * u i))) by (intros; ring).
  rewrite rsum_scal, sqrt_mult_alt by nra. f_equal. change (c * c) with (Rsqr c). apply sqrt_Rsqr_abs.
Qed.
Lemma mv_ext n a b x y i : (forall j, (j < n)%nat -> a i j = b i j) -> (forall j, (j < n)%nat -> x j = y j) -> mv n a x i = mv n b y i.
Proof. intros H H'. apply rsum_ext. intros j Hj. rewrite H, H'; auto. Qed.

(** Quadratic forms. *)
Lemma quad_ext n a b x : (forall i j, (i < n)%nat -> (j < n)%nat -> a i j = b i j) -> quad n a x = quad n b x.
Proof. intros H. unfold quad. apply dot_ext; auto. intros i Hi. apply mv_ext; auto. Qed.
Lemma quad_ext_x n a x y : (forall i, (i < n)%nat -> x i = y i) -> quad n a x = quad n a y.
Proof. intros H. unfold quad. apply dot_ext; auto. intros i Hi. apply mv_ext; auto. Qed.
Lemma quad_plus n a b x : quad n (fun i j => a i j + b i j) x = quad n a x + quad n b x.
Proof.
  unfold quad. rewrite <- dot_plus_r. apply dot_ext; auto. intros i _. unfold mv. rewrite <- rsum_plus. apply rsum_ext; intros; ring.
Qed.
Lemma quad_scal n c a x : quad n (fun i j => c * a i j) x = c * quad n a x.
Proof.
  unfold quad. rewrite <- dot_scal_r. apply dot_ext; auto. intros i _. unfold mv. rewrite <- rsum_scal. apply rsum_ext; intros; ring.
Qed.
Lemma quad_minus n a b x : quad n (fun i j => a i j - b i j) x = quad n a x - quad n b x.
Proof.
  rewrite (quad_ext n _ (fun i j => a i j + (-1) * b i j)) by (intros; ring).
  rewrite quad_plus, quad_scal. ring.
Qed.
Lemma quad_outer n u x : quad n (fun i j => u i * u j) x = dot n u x * dot n u x.
Proof.
  unfold quad, dot, mv.
  rewrite (rsum_ext n _ (fun i => u i * x i * rsum n (fun j => u j * x j))).
  - rewrite rsum_scal_r. reflexivity.
  - intros i _. rewrite (rsum_ext n (fun j => u i * u j * x j) (fun j => u i * (u j * x j))) by (intros; ring). rewrite rsum_scal. ring.
Qed.
Lemma quad_rsum n m (a : nat -> mat) x : quad n (fun i j => rsum m (fun l => a l i j)) x = rsum m (fun l => quad n (a l) x).
Proof.
  induction m as [|m IH]; cbn [rsum].
  - rewrite (quad_ext n _ (fun i j => 0 * ident i j)) by (intros; ring). rewrite quad_scal. ring.
  - rewrite quad_plus, IH. reflexivity.
Qed.
Lemma mv_ident n x i : (i < n)%nat -> mv n ident x i = x i.
Proof.
  intros Hi. unfold mv, ident, diag. rewrite (rsum_single n _ i); auto.
  - rewrite Nat.eqb_refl. ring.
  - intros j _ Hj. destruct (Nat.eqb_spec i j); [congruence|ring].
Qed.
Lemma quad_ident n x : quad n ident x = dot n x x.
Proof. unfold quad. apply dot_ext; auto. intros; apply mv_ident; auto. Qed.

Lemma at0_tab n v i : (i < n)%nat -> at0 (tab n v) i = v i.
Proof.
  intros H. unfold at0, tab. rewrite (nth_indep _ 0 (v 0%nat)) by (rewrite map_length, seq_length; auto).
  rewrite map_nth, seq_nth; auto.
Qed.
Lemma tab_length n v : length (tab n v) = n.
Proof. unfold tab. rewrite map_length, seq_length. reflexivity. Qed.
Lemma tab_ext n u v : (forall i, (i < n)%nat -> u i = v i) -> tab n u = tab n v.
Proof. intros H. apply map_ext_in. intros i Hi. apply in_seq in Hi. apply H. lia. Qed.
Lemma tab_at0 n l : length l = n -> tab n (at0 l) = l.
Proof.
  intros <-. unfold tab, at0. induction l as [|a l IH]; cbn [length seq map]; [reflexivity|].
  f_equal. rewrite <- seq_shift, map_map. exact IH.
Qed.
Lemma sumR_rsum l : sumR l = rsum (length l) (fun i => nth i l 0).
Proof.
  induction l as [|a l IH]; [reflexivity|]. cbn [length]. rewrite rsum_S_l. cbn [nth]. cbn [sumR fold_right]. f_equal. exact IH.
Qed.
