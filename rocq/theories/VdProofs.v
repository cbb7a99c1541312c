(** The step of the model of VD-CMA solves the system of the natural gradient. *)
From Coq Require Import Reals List Lia Lra Psatz ZArith.
From Verif Require Import Base Vec VecProofs Params Search Update ActiveProofs SpecVd.
Local Open Scope R_scope.

Lemma delta_same i : delta i i = 1. Proof. unfold delta. now rewrite Nat.eqb_refl. Qed.
Lemma delta_sym i j : delta i j = delta j i. Proof. unfold delta. now rewrite Nat.eqb_sym. Qed.
Lemma sum_delta n f l : (l < n)%nat -> rsum n (fun i => f i * delta i l) = f l.
Proof.
  intros H. rewrite (rsum_single n _ l H); [rewrite delta_same; ring|]. intros j _ N. unfold delta. destruct (Nat.eqb_spec j l); [congruence|ring].
Qed.
Lemma sum_delta' n f l : (l < n)%nat -> rsum n (fun i => delta l i * f i) = f l.
Proof. intros H. rewrite <- (sum_delta n f l H). apply rsum_ext. intros. rewrite delta_sym. ring. Qed.
Lemma dot_plus_l n u v w : dot n (fun i => u i + v i) w = dot n u w + dot n v w.
Proof. rewrite dot_comm, dot_plus_r, (dot_comm n w u), (dot_comm n w v). reflexivity. Qed.
Lemma dot_scal_l n c u v : dot n (fun i => c * u i) v = c * dot n u v.
Proof. rewrite dot_comm, dot_scal_r, dot_comm. reflexivity. Qed.
Lemma dot_delta n u l : (l < n)%nat -> dot n u (fun i => delta i l) = u l.
Proof. intros. apply (sum_delta n u l H). Qed.

(** * Symmetric derivatives of rank two *)
Definition sym2 (p q : vec) : mat := fun i j => p i * q j + q i * p j.
Section Rank2.
Variables (n : nat) (k : mat).
Hypothesis KS : forall i j, (i < n)%nat -> (j < n)%nat -> k i j = k j i.
Definition bil (x y : vec) : R := dot n x (mv n k y).
Lemma bil_sym x y : bil x y = bil y x.
Proof using KS.
  unfold bil, dot, mv. rewrite (rsum_ext n _ (fun i => rsum n (fun j => x i * k i j * y j))) by (intros; rewrite <- rsum_scal; apply rsum_ext; intros; ring).
  rewrite rsum_swap. apply rsum_ext. intros i Hi. rewrite <- rsum_scal. apply rsum_ext. intros j Hj. rewrite (KS i j Hi Hj). ring.
Qed.
Lemma mm_sym2 p q i j : mm n k (sym2 p q) i j = mv n k p i * q j + mv n k q i * p j.
Proof using Type.
  unfold mm, sym2, mv. rewrite (rsum_ext n _ (fun l => k i l * p l * q j + k i l * q l * p j)) by (intros; ring).
  rewrite rsum_plus, !rsum_scal_r. reflexivity.
Qed.
Lemma trace_sym2 p q : trace n (mm n k (sym2 p q)) = 2 * bil p q.
Proof using KS.
  unfold trace. rewrite (rsum_ext n _ (fun i => q i * mv n k p i + p i * mv n k q i)) by (intros; rewrite mm_sym2; ring).
  rewrite rsum_plus. fold (dot n q (mv n k p)) (dot n p (mv n k q)). fold (bil q p) (bil p q). rewrite (bil_sym q p). ring.
Qed.
Lemma fisher_sym2 p q r s : fisher n k (sym2 p q) (sym2 r s) = bil p r * bil q s + bil p s * bil q r.
Proof using KS.
  unfold fisher, trace.
  rewrite (rsum_ext n _ (fun i => (s i * mv n k p i) * bil q r + (r i * mv n k p i) * bil q s + (s i * mv n k q i) * bil p r + (r i * mv n k q i) * bil p s)).
  - rewrite !rsum_plus, !rsum_scal_r. fold (dot n s (mv n k p)) (dot n r (mv n k p)) (dot n s (mv n k q)) (dot n r (mv n k q)).
    fold (bil s p) (bil r p) (bil s q) (bil r q). rewrite (bil_sym s p), (bil_sym r p), (bil_sym s q), (bil_sym r q). field.
  - intros i _. unfold mm at 1.
    rewrite (rsum_ext n _ (fun l => (q l * mv n k r l) * (mv n k p i * s i) + (q l * mv n k s l) * (mv n k p i * r i) + (p l * mv n k r l) * (mv n k q i * s i) + (p l * mv n k s l) * (mv n k q i * r i)))
      by (intros; rewrite !mm_sym2; ring).
    rewrite !rsum_plus, !rsum_scal_r. fold (dot n q (mv n k r)) (dot n q (mv n k s)) (dot n p (mv n k r)) (dot n p (mv n k s)).
    fold (bil q r) (bil q s) (bil p r) (bil p s). ring.
Qed.
Lemma score_sym2 z p q : score n k z (sym2 p q) = bil p z * bil q z - bil p q.
Proof using KS.
  unfold score. rewrite trace_sym2. unfold quad, dot at 1.
  rewrite (rsum_ext n _ (fun i => (z i * mv n k p i) * bil q z + (z i * mv n k q i) * bil p z)).
  - rewrite rsum_plus, !rsum_scal_r. fold (dot n z (mv n k p)) (dot n z (mv n k q)). fold (bil z p) (bil z q). rewrite (bil_sym z p), (bil_sym z q). field.
  - intros i Hi. unfold mv at 1.
    rewrite (rsum_ext n _ (fun j => (mv n k p i) * (rsum n (fun l => q l * k l j) * z j) + (mv n k q i) * (rsum n (fun l => p l * k l j) * z j))).
    + rewrite rsum_plus, !rsum_scal.
      assert (G : forall u, rsum n (fun j => rsum n (fun l => u l * k l j) * z j) = bil u z).
      { intros u. rewrite (rsum_ext n _ (fun j => rsum n (fun l => u l * (k l j * z j)))) by (intros; rewrite <- rsum_scal_r; apply rsum_ext; intros; ring).
        rewrite rsum_swap. unfold bil, dot, mv. apply rsum_ext. intros. rewrite rsum_scal. reflexivity. }
      rewrite !G. ring.
    + intros j _. unfold mm at 1. rewrite (rsum_ext n _ (fun l => mv n k p i * (q l * k l j) + mv n k q i * (p l * k l j))) by (intros; rewrite mm_sym2; ring).
      rewrite rsum_plus, !rsum_scal. ring.
Qed.
End Rank2.
Lemma mm_ext_r n k a b i j : (forall l, (l < n)%nat -> a l j = b l j) -> mm n k a i j = mm n k b i j.
Proof. intros H. unfold mm. apply rsum_ext. intros l Hl. rewrite (H l Hl). reflexivity. Qed.
Lemma fisher_ext n k k' a a' b b' : (forall i j, (i < n)%nat -> (j < n)%nat -> k i j = k' i j) -> (forall i j, (i < n)%nat -> (j < n)%nat -> a i j = a' i j) -> (forall i j, (i < n)%nat -> (j < n)%nat -> b i j = b' i j) ->
  fisher n k a b = fisher n k' a' b'.
Proof.
  intros HK HA HB. unfold fisher, trace, mm. f_equal. apply rsum_ext. intros i Hi. apply rsum_ext. intros j Hj. f_equal.
  - apply rsum_ext. intros l Hl. rewrite HA, HK by auto. reflexivity.
  - apply rsum_ext. intros l Hl. rewrite HB, HK by auto. reflexivity.
Qed.
Lemma score_ext n k k' z a a' : (forall i j, (i < n)%nat -> (j < n)%nat -> k i j = k' i j) -> (forall i j, (i < n)%nat -> (j < n)%nat -> a i j = a' i j) -> score n k z a = score n k' z a'.
Proof.
  intros HK HA. unfold score, trace, quad, dot, mv, mm. f_equal. f_equal.
  - apply rsum_ext. intros i Hi. f_equal. apply rsum_ext. intros j Hj. f_equal. apply rsum_ext. intros l Hl. rewrite HK by auto. f_equal. apply rsum_ext. intros m Hm. rewrite HK, HA by auto. reflexivity.
  - apply rsum_ext. intros i Hi. apply rsum_ext. intros m Hm. rewrite HK, HA by auto. reflexivity.
Qed.

(** * The Fisher information of (v, D) *)
Section Closed.
Variables (n : nat) (d v : vec).
Let q := dot n v v.
Let g := 1 + q.
Hypothesis HD : forall i, (i < n)%nat -> d i <> 0.
Lemma g_pos : 0 < g. Proof using Type. unfold g, q. pose proof (dot_self_nonneg n v). lra. Qed.
Definition kinv : mat := fun i j => 1 / d i * (delta i j - v i * v j / g) * (1 / d j).
Definition over (x : vec) : vec := fun i => x i / d i.
Lemma kinv_sym i j : kinv i j = kinv j i.
Proof using Type. unfold kinv. rewrite (delta_sym i j). pose proof g_pos. unfold Rdiv. ring. Qed.
Lemma bil_kinv x y : bil n kinv x y = dot n (over x) (over y) - dot n v (over x) * dot n v (over y) / g.
Proof using Type.
  unfold bil, dot at 1.
  rewrite (rsum_ext n _ (fun i => over x i * over y i - v i * over x i * (dot n v (over y) / g))).
  - rewrite rsum_minus, rsum_scal_r. unfold dot. unfold Rdiv. ring.
  - intros i Hi. unfold mv, kinv.
    rewrite (rsum_ext n _ (fun j => (1 / d i * over y j) * delta j i - (1 / d i * v i / g) * (v j * over y j))).
    + rewrite rsum_minus, rsum_scal, (sum_delta n (fun j => 1 / d i * over y j) i Hi). unfold over, dot, Rdiv. ring.
    + intros j Hj. rewrite (delta_sym j i). unfold over, Rdiv. ring.
Qed.
Lemma kinv_inverse_r i j : (i < n)%nat -> (j < n)%nat -> mm n (vd_matrix d v) kinv i j = delta i j.
Proof using HD.
  intros Hi Hj. unfold mm, vd_matrix, kinv.
  rewrite (rsum_ext n _ (fun l => (d i / d j * delta l j) * delta l i - (d i / d j / g * v j * v l) * delta l i + (d i / d j * v i * v l) * delta l j - (d i / d j / g * v i * v j) * (v l * v l))).
  - rewrite rsum_minus, rsum_plus, rsum_minus, rsum_scal.
    rewrite (sum_delta n (fun l => d i / d j * delta l j) i Hi), (sum_delta n (fun l => d i / d j / g * v j * v l) i Hi), (sum_delta n (fun l => d i / d j * v i * v l) j Hj).
    fold (dot n v v). fold q. pose proof g_pos as G. pose proof (HD j Hj) as Dj. unfold delta. destruct (Nat.eqb_spec i j) as [->|].
    + unfold g in *. field. repeat split; auto; lra.
    + unfold g in *. field. repeat split; auto; lra.
  - intros l Hl. rewrite (delta_sym i l). pose proof g_pos. pose proof (HD l Hl). pose proof (HD j Hj). field. repeat split; auto; lra.
Qed.
Lemma inverse_kinv k : inverse n k (vd_matrix d v) -> forall i j, (i < n)%nat -> (j < n)%nat -> k i j = kinv i j.
Proof using HD.
  intros H i j Hi Hj.
  assert (E : mm n k (mm n (vd_matrix d v) kinv) i j = mm n (mm n k (vd_matrix d v)) kinv i j).
  { unfold mm. rewrite (rsum_ext n _ (fun l => rsum n (fun m => k i l * vd_matrix d v l m * kinv m j))) by (intros; rewrite <- rsum_scal; apply rsum_ext; intros; ring).
    rewrite rsum_swap. apply rsum_ext. intros m _. rewrite rsum_scal_r. reflexivity. }
  rewrite (mm_ext_r n k _ delta) in E by (intros; apply kinv_inverse_r; auto).
  unfold mm at 1 2 in E. rewrite (sum_delta n (k i) j Hj) in E. rewrite E.
  rewrite (rsum_ext n _ (fun l => delta i l * kinv l j)) by (intros l Hl; rewrite (H i l Hi Hl); reflexivity). apply (sum_delta' n (fun l => kinv l j) i Hi).
Qed.
Lemma kinv_inverse : inverse n kinv (vd_matrix d v).
Proof using HD.
  intros i j Hi Hj. rewrite <- (delta_sym j i), <- (kinv_inverse_r j i Hj Hi). unfold mm. apply rsum_ext. intros l _. rewrite (kinv_sym i l).
  replace (vd_matrix d v l j) with (vd_matrix d v j l); [ring|]. unfold vd_matrix. rewrite (delta_sym j l). ring.
Qed.
(** The derivatives have rank two. *)
Definition ev (l : nat) : vec := fun i => d l * delta i l.
Definition dv : vec := fun i => d i * v i.
Definition ed (l : nat) : vec := fun i => delta i l.
Definition cd (l : nat) : vec := fun i => (delta i l + v l * v i) * d i.
Lemma wrt_v_sym2 l i j : wrt_v d v l i j = sym2 (ev l) dv i j.
Proof using Type.
  unfold wrt_v, sym2, ev, dv, delta. destruct (Nat.eqb_spec i l) as [->|], (Nat.eqb_spec j l) as [->|]; ring.
Qed.
Lemma wrt_d_sym2 l i j : wrt_d d v l i j = sym2 (ed l) (cd l) i j.
Proof using Type.
  unfold wrt_d, sym2, ed, cd, delta. destruct (Nat.eqb_spec i l), (Nat.eqb_spec j l), (Nat.eqb_spec i j); subst; try congruence; ring.
Qed.
Lemma over_ev l x : (l < n)%nat -> dot n x (over (ev l)) = x l.
Proof using HD.
  intros H. unfold dot. rewrite (rsum_ext n _ (fun i => x i * delta i l)); [apply sum_delta, H|]. intros i Hi. unfold over, ev, delta. destruct (Nat.eqb_spec i l) as [->|]; field; auto.
Qed.
Lemma over_dv x : dot n x (over dv) = dot n x v.
Proof using HD. apply dot_ext; auto. intros i Hi. unfold over, dv. field. auto. Qed.
Lemma over_ed l x : (l < n)%nat -> dot n x (over (ed l)) = x l / d l.
Proof using Type.
  intros H. unfold dot. rewrite (rsum_ext n _ (fun i => (x i / d l) * delta i l)); [apply (sum_delta n (fun i => x i / d l)), H|]. intros i _. unfold over, ed, delta. destruct (Nat.eqb_spec i l) as [->|]; unfold Rdiv; ring.
Qed.
Lemma over_cd l x : (l < n)%nat -> dot n x (over (cd l)) = x l + v l * dot n x v.
Proof using HD.
  intros H. unfold dot. rewrite (rsum_ext n _ (fun i => x i * delta i l + v l * (x i * v i))).
  - rewrite rsum_plus, rsum_scal, sum_delta by exact H. reflexivity.
  - intros i Hi. unfold over, cd. field. auto.
Qed.
Variable k : mat.
Hypothesis HK : inverse n k (vd_matrix d v).
Lemma over_ed' l i : over (ed l) i = delta i l / d l.
Proof using Type. unfold over, ed, delta. destruct (Nat.eqb_spec i l) as [->|]; unfold Rdiv; ring. Qed.
Lemma over_ev' l i : (i < n)%nat -> over (ev l) i = delta i l.
Proof using HD. intros H. unfold over, ev, delta. destruct (Nat.eqb_spec i l) as [->|]; field; auto. Qed.
Lemma over_cd' l i : (i < n)%nat -> over (cd l) i = delta i l + v l * v i.
Proof using HD. intros H. unfold over, cd. field. auto. Qed.
Lemma over_dv' i : (i < n)%nat -> over dv i = v i.
Proof using HD. intros H. unfold over, dv. field. auto. Qed.
Lemma over_ev_l l x : (l < n)%nat -> dot n (over (ev l)) x = x l. Proof using HD. intros. rewrite dot_comm. now apply over_ev. Qed.
Lemma over_dv_l x : dot n (over dv) x = dot n x v. Proof using HD. rewrite dot_comm. apply over_dv. Qed.
Lemma over_ed_l l x : (l < n)%nat -> dot n (over (ed l)) x = x l / d l. Proof using Type. intros. rewrite dot_comm. now apply over_ed. Qed.
Lemma over_cd_l l x : (l < n)%nat -> dot n (over (cd l)) x = x l + v l * dot n x v. Proof using HD. intros. rewrite dot_comm. now apply over_cd. Qed.
Ltac overs := rewrite ?bil_kinv; repeat (first [rewrite over_ev by assumption | rewrite over_dv | rewrite over_ed by assumption | rewrite over_cd by assumption
    | rewrite over_ev_l by assumption | rewrite over_dv_l | rewrite over_ed_l by assumption | rewrite over_cd_l by assumption]);
  rewrite ?over_ev', ?over_ed', ?over_cd', ?over_dv' by assumption.
Lemma fisher_vv l m : (l < n)%nat -> (m < n)%nat -> fisher n k (wrt_v d v l) (wrt_v d v m) = q / g * (delta l m - v l * v m / g) + v l * v m / (g * g).
Proof using HD HK.
  intros Hl Hm. rewrite (fisher_ext n k kinv _ (sym2 (ev l) dv) _ (sym2 (ev m) dv)); try (intros; first [apply inverse_kinv; assumption|apply wrt_v_sym2]).
  rewrite fisher_sym2 by (intros; apply kinv_sym). overs. fold q. rewrite ?(delta_sym m l). pose proof g_pos as G. unfold g in *. field. lra.
Qed.
Lemma fisher_dv l m : (l < n)%nat -> (m < n)%nat -> fisher n k (wrt_d d v l) (wrt_v d v m) = 1 / d l * (delta l m * v l * (1 + 1 / g) - v l * v l * v m / g).
Proof using HD HK.
  intros Hl Hm. rewrite (fisher_ext n k kinv _ (sym2 (ed l) (cd l)) _ (sym2 (ev m) dv)); try (intros; first [apply inverse_kinv; assumption|apply wrt_v_sym2|apply wrt_d_sym2]).
  rewrite fisher_sym2 by (intros; apply kinv_sym). overs. fold q. rewrite ?(delta_sym m l). pose proof g_pos as G. pose proof (HD l Hl). unfold g in *.
  unfold delta. destruct (Nat.eqb_spec l m) as [->|]; field; split; auto; lra.
Qed.
Lemma fisher_sym a b : fisher n k a b = fisher n k b a.
Proof using Type.
  unfold fisher, trace. f_equal. unfold mm at 1. rewrite rsum_swap. apply rsum_ext. intros i _. unfold mm at 3. apply rsum_ext. intros. ring.
Qed.
Lemma fisher_vd l m : (l < n)%nat -> (m < n)%nat -> fisher n k (wrt_v d v l) (wrt_d d v m) = 1 / d m * (delta l m * v m * (1 + 1 / g) - v m * v m * v l / g).
Proof using HD HK. intros Hl Hm. rewrite fisher_sym, fisher_dv, (delta_sym m l) by assumption. reflexivity. Qed.
Lemma fisher_dd l m : (l < n)%nat -> (m < n)%nat -> fisher n k (wrt_d d v l) (wrt_d d v m) = 1 / (d l * d m) * (delta l m * (2 + v l * v l * q / g) - v l * v l * (v m * v m) / g).
Proof using HD HK.
  intros Hl Hm. rewrite (fisher_ext n k kinv _ (sym2 (ed l) (cd l)) _ (sym2 (ed m) (cd m))); try (intros; first [apply inverse_kinv; assumption|apply wrt_d_sym2]).
  rewrite fisher_sym2 by (intros; apply kinv_sym). overs. fold q. rewrite ?(delta_sym m l). pose proof g_pos as G. pose proof (HD l Hl). pose proof (HD m Hm). unfold g in *.
  unfold delta. destruct (Nat.eqb_spec l m) as [->|]; field; repeat split; auto; lra.
Qed.
Variable z : vec.
Let y := over z.
Lemma score_v l : (l < n)%nat -> score n k z (wrt_v d v l) = (y l - v l * dot n v y / g) * (dot n v y / g) - v l / g.
Proof using HD HK.
  intros Hl. rewrite (score_ext n k kinv z _ (sym2 (ev l) dv)); try (intros; first [apply inverse_kinv; assumption|apply wrt_v_sym2]).
  rewrite score_sym2 by (intros; apply kinv_sym). overs. fold y. rewrite ?(dot_comm n y v). fold q. pose proof g_pos as G. unfold g in *. field. lra.
Qed.
Lemma score_d l : (l < n)%nat -> score n k z (wrt_d d v l) = 1 / d l * (y l * y l - v l * y l * dot n v y / g - 1).
Proof using HD HK.
  intros Hl. rewrite (score_ext n k kinv z _ (sym2 (ed l) (cd l))); try (intros; first [apply inverse_kinv; assumption|apply wrt_d_sym2]).
  rewrite score_sym2 by (intros; apply kinv_sym). overs. fold y. rewrite ?(dot_comm n y v). fold q. rewrite ?delta_same. pose proof g_pos as G. pose proof (HD l Hl). unfold g in *. field. split; auto; lra.
Qed.
Lemma mahalanobis : quad n k z = dot n y y - dot n v y * dot n v y / g.
Proof using HD HK.
  rewrite (quad_ext n k kinv) by (apply inverse_kinv; assumption). change (bil n kinv z z = dot n y y - dot n v y * dot n v y / g). apply bil_kinv.
Qed.
End Closed.
