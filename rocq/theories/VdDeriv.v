(** The derivatives used for the natural gradient are derivatives. *)
From Coq Require Import Reals List Lia Lra Psatz.
From Coquelicot Require Import Coquelicot.
From Verif Require Import Base Vec VecProofs SpecVd VdProofs.
Local Open Scope R_scope.

Lemma matrix_v d v l i j : derivable_pt_lim (fun t => vd_matrix d (bump v l t) i j) 0 (wrt_v d v l i j).
Proof. apply is_derive_Reals. unfold vd_matrix, bump, wrt_v. auto_derive; [exact I|]. ring. Qed.
Lemma matrix_d d v l i j : derivable_pt_lim (fun t => vd_matrix (bump d l t) v i j) 0 (wrt_d d v l i j).
Proof. apply is_derive_Reals. unfold vd_matrix, bump, wrt_d. auto_derive; [exact I|]. ring. Qed.

Section Density.
Variables (n : nat) (d v z : vec) (ki : mat) (l : nat).
Hypothesis HD : forall i, (i < n)%nat -> 0 < d i.
Hypothesis HK : inverse n ki (vd_matrix d v).
Hypothesis HL : (l < n)%nat.
Let HD' : forall i, (i < n)%nat -> d i <> 0. Proof. intros i Hi. pose proof (HD i Hi). lra. Qed.
Let y : vec := fun i => z i / d i.
Lemma dot_bump_r u w t : dot n u (bump w l t) = dot n u w + t * u l.
Proof using HL. unfold bump. rewrite dot_plus_r, dot_scal_r, (dot_delta n u l HL). ring. Qed.
Lemma dot_bump_l u w t : dot n (bump w l t) u = dot n w u + t * u l.
Proof using HL. rewrite dot_comm, dot_bump_r, dot_comm. reflexivity. Qed.
Lemma density_v : derivable_pt_lim (fun t => log_density n d (bump v l t) z) 0 (score n ki z (wrt_v d v l)).
Proof using HD HK HL.
  rewrite (score_v n d v HD' ki HK z l HL). change (over d z) with y. apply is_derive_Reals.
  apply (is_derive_ext (fun t => - rsum n (fun i => ln (d i)) - 1 / 2 * ln (1 + (dot n v v + 2 * t * v l + t * t)) - 1 / 2 * (dot n y y - (dot n v y + t * y l) * (dot n v y + t * y l) / (1 + (dot n v v + 2 * t * v l + t * t))))).
  - intros t. unfold log_density. fold y. rewrite !dot_bump_l, dot_bump_r. unfold bump. rewrite delta_same. replace (dot n v v + t * v l + t * (v l + t * 1)) with (dot n v v + 2 * t * v l + t * t) by ring. reflexivity.
  - pose proof (g_pos n v) as G. auto_derive.
    + replace (1 + (dot n v v + 2 * 0 * v l + 0 * 0)) with (1 + dot n v v) by ring. repeat split; lra.
    + replace (1 + (dot n v v + 2 * 0 * v l + 0 * 0)) with (1 + dot n v v) by ring. field. lra.
Qed.
(** Sums in which one term changes. *)
Lemma rsum_change f f' : (forall i, (i < n)%nat -> i <> l -> f' i = f i) -> rsum n f' = rsum n f - f l + f' l.
Proof using HL.
  intros H. rewrite (rsum_ext n f' (fun i => f i + (f' l - f l) * delta i l)).
  - rewrite rsum_plus, rsum_scal. rewrite (rsum_ext n (fun i => delta i l) (fun i => 1 * delta i l)) by (intros; ring). rewrite (sum_delta n (fun _ => 1) l HL). ring.
  - intros i Hi. unfold delta. destruct (Nat.eqb_spec i l) as [->|N]; [ring|]. rewrite (H i Hi N). ring.
Qed.
Lemma bump_other u t i : i <> l -> bump u l t i = u i.
Proof using Type. intros N. unfold bump, delta. apply Nat.eqb_neq in N. rewrite N. ring. Qed.
Lemma density_d : derivable_pt_lim (fun t => log_density n (bump d l t) v z) 0 (score n ki z (wrt_d d v l)).
Proof using HD HK HL.
  rewrite (score_d n d v HD' ki HK z l HL). change (over d z) with y. apply is_derive_Reals. pose proof (HD l HL) as Dl.
  apply (is_derive_ext (fun t => - (rsum n (fun i => ln (d i)) - ln (d l) + ln (d l + t)) - 1 / 2 * ln (1 + dot n v v)
    - 1 / 2 * ((dot n y y - y l * y l + z l / (d l + t) * (z l / (d l + t))) - (dot n v y - v l * y l + v l * (z l / (d l + t))) * (dot n v y - v l * y l + v l * (z l / (d l + t))) / (1 + dot n v v)))).
  - intros t. unfold log_density.
    assert (B : bump d l t l = d l + t) by (unfold bump; rewrite delta_same; ring).
    rewrite (rsum_change (fun i => ln (d i)) (fun i => ln (bump d l t i))) by (intros; rewrite bump_other by assumption; reflexivity).
    assert (A1 : dot n (fun i => z i / bump d l t i) (fun i => z i / bump d l t i) = dot n y y - y l * y l + z l / (d l + t) * (z l / (d l + t))).
    { rewrite <- B. apply (rsum_change (fun i => y i * y i) (fun i => z i / bump d l t i * (z i / bump d l t i))). intros. rewrite bump_other by assumption. reflexivity. }
    assert (A2 : dot n v (fun i => z i / bump d l t i) = dot n v y - v l * y l + v l * (z l / (d l + t))).
    { rewrite <- B. apply (rsum_change (fun i => v i * y i) (fun i => v i * (z i / bump d l t i))). intros. rewrite bump_other by assumption. reflexivity. }
    cbv zeta. rewrite A1, A2.
    rewrite B. reflexivity.
  - pose proof (g_pos n v) as G. auto_derive.
    + rewrite Rplus_0_r. repeat split; lra.
    + unfold y. field. repeat split; lra.
Qed.
End Density.
