(** C89: VD-CMA follows the natural gradient. *)
From Coq Require Import Reals List ZArith.
From Verif Require Import Base Dbl Vec Params SpecParams ActiveThms Search SpecSearch Update SpecUpdate SpecRate SpecAlgo Demo DemoNum SpecVd VdThms VdDeriv VdDemo.
Import ListNotations.
Local Open Scope R_scope.

(** The matrices [wrt_v] and [wrt_d] are the derivatives of the covariance
    D (1 + v v^T) D by the coordinates of v and of D. *)
Theorem C89_derivatives : forall d v l i j,
  derivable_pt_lim (fun t => vd_matrix d (bump v l t) i j) 0 (wrt_v d v l i j) /\
  derivable_pt_lim (fun t => vd_matrix (bump d l t) v i j) 0 (wrt_d d v l i j).
Proof. intros d v l i j. exact (conj (matrix_v d v l i j) (matrix_d d v l i j)). Qed.
Print Assumptions C89_derivatives.
(** The score is the derivative of the logarithm of the density. *)
Theorem C89_density : forall n d v z ki l,
  (forall i, (i < n)%nat -> 0 < d i) -> inverse n ki (vd_matrix d v) -> (l < n)%nat ->
  derivable_pt_lim (fun t => log_density n d (bump v l t) z) 0 (score n ki z (wrt_v d v l)) /\
  derivable_pt_lim (fun t => log_density n (bump d l t) v z) 0 (score n ki z (wrt_d d v l)).
Proof. intros n d v z ki l HD HK HL. exact (conj (density_v n d v z ki l HD HK HL) (density_d n d v z ki l HD HK HL)). Qed.
Print Assumptions C89_density.
(** The covariance has an inverse as soon as no scale is zero, and its quadratic
    form is that of the density. *)
Theorem C89_inverse : forall n d v, (forall i, (i < n)%nat -> d i <> 0) -> exists ki, inverse n ki (vd_matrix d v) /\
  forall z, quad n ki z = let y := fun i => z i / d i in dot n y y - dot n v y * dot n v y / (1 + dot n v v).
Proof. exact vd_inverse_thm. Qed.
Print Assumptions C89_inverse.
(** The weight of the mixed part is in (0,1]; the modified Fisher information is
    positive definite. *)
Theorem C89_weight : forall n v, (exists i, (i < n)%nat /\ v i <> 0) -> 0 < alpha_vd n v <= 1 /\
  ((2 + dot n v v) * (2 + dot n v v) <= dot n v v * dot n v v + (2 - 1 / sqrt (1 + dot n v v)) * (1 + dot n v v) * dot n v v / vmax n (fun i => v i * v i) -> alpha_vd n v = 1).
Proof. exact alpha_thm. Qed.
Print Assumptions C89_weight.
Theorem C89_definite : forall n d v ki u sd, (exists i, (i < n)%nat /\ v i <> 0) -> (forall i, (i < n)%nat -> d i <> 0) -> inverse n ki (vd_matrix d v) ->
  (exists i, (i < n)%nat /\ (u i <> 0 \/ sd i <> 0)) ->
  0 < rsum n (fun l => u l * fisher_v n ki d v (alpha_vd n v) u sd l) + rsum n (fun l => sd l * fisher_d n ki d v (alpha_vd n v) u sd l).
Proof. exact definite_thm. Qed.
Print Assumptions C89_definite.

(** In every generation v and D move by the only solution of the system whose
    matrix is the Fisher information and whose right-hand side is the gradient of
    the weighted log-likelihood. *)
Theorem C89_natural_gradient : forall p e g h s0 s1 pop s2 cols phen s3 s4 ki,
  constructed_any (p_k p) -> p_upd p = Vd -> k_vd (p_k p) = true -> g_uh g = false -> started p e g s0 -> Forall iteration h -> run_ops (cma_num p) e g h s0 = Ok s1 ->
  ask (cma_num p) e g s1 = Ok (pop, s2) -> eval (cma_num p) e g cols phen s2 = Ok s3 -> tell (cma_num p) e g s3 = Ok s4 ->
  let n := k_dim (p_k p) in let d := D_of s1 in let v := v_of s1 in
  (exists i, (i < n)%nat /\ v i <> 0) -> (forall i, (i < n)%nat -> d i <> 0) -> inverse n ki (d_cov (dist_of p s1)) -> 0 < vd_rate p s1 s4 ->
  let grad := weighted_score (p_k p) (s_niter (t_sol s1)) (map c_x (s_cands (t_sol s4))) (dist_of p s1) (dist_of p s4) ki in
  let step := natural_step n ki d v (alpha_vd n v) (fun l => grad (wrt_v d v l)) (fun l => grad (wrt_d d v l)) in
  step (fun l => v_of s4 l - v l) (fun l => D_of s4 l - d l) /\
  forall sv sd, step sv sd -> forall l, (l < n)%nat -> v_of s4 l = v l + sv l /\ D_of s4 l = d l + sd l.
Proof. exact vd_natural_thm. Qed.
Print Assumptions C89_natural_gradient.
(** The move is uphill for the weighted log-likelihood. *)
Theorem C89_ascent : forall p e g h s0 s1 pop s2 cols phen s3 s4 ki,
  constructed_any (p_k p) -> p_upd p = Vd -> k_vd (p_k p) = true -> g_uh g = false -> started p e g s0 -> Forall iteration h -> run_ops (cma_num p) e g h s0 = Ok s1 ->
  ask (cma_num p) e g s1 = Ok (pop, s2) -> eval (cma_num p) e g cols phen s2 = Ok s3 -> tell (cma_num p) e g s3 = Ok s4 ->
  let n := k_dim (p_k p) in let d := D_of s1 in let v := v_of s1 in
  (exists i, (i < n)%nat /\ v i <> 0) -> (forall i, (i < n)%nat -> d i <> 0) -> inverse n ki (d_cov (dist_of p s1)) -> 0 < vd_rate p s1 s4 ->
  let grad := weighted_score (p_k p) (s_niter (t_sol s1)) (map c_x (s_cands (t_sol s4))) (dist_of p s1) (dist_of p s4) ki in
  (exists i, (i < n)%nat /\ (v_of s4 i <> v i \/ D_of s4 i <> d i)) ->
  0 < rsum n (fun l => (v_of s4 l - v l) * grad (wrt_v d v l)) + rsum n (fun l => (D_of s4 l - d l) * grad (wrt_d d v l)).
Proof. exact vd_ascent_thm. Qed.
Print Assumptions C89_ascent.
(** With rate zero nothing moves. *)
Theorem C89_frozen : forall p e g h s0 s1 pop s2 cols phen s3 s4,
  constructed_any (p_k p) -> p_upd p = Vd -> g_uh g = false -> started p e g s0 -> Forall iteration h -> run_ops (cma_num p) e g h s0 = Ok s1 ->
  ask (cma_num p) e g s1 = Ok (pop, s2) -> eval (cma_num p) e g cols phen s2 = Ok s3 -> tell (cma_num p) e g s3 = Ok s4 ->
  vd_rate p s1 s4 <= 0 -> v_of s4 = v_of s1 /\ D_of s4 = D_of s1.
Proof. exact vd_frozen_thm. Qed.
Print Assumptions C89_frozen.
(** In five dimensions or less the rates of set_vd are not positive, so that no
    generation changes v or D. *)
Theorem C89_small_dimension : forall k0 a p e g h s0 s1 pop s2 cols phen s3 s4,
  constructed k0 -> In a [12; 13; 14]%Z -> p_k p = set_vd (set_algo a k0) -> (k_dim k0 <= 5)%nat ->
  p_upd p = Vd -> g_uh g = false -> started p e g s0 -> Forall iteration h -> run_ops (cma_num p) e g h s0 = Ok s1 ->
  ask (cma_num p) e g s1 = Ok (pop, s2) -> eval (cma_num p) e g cols phen s2 = Ok s3 -> tell (cma_num p) e g s3 = Ok s4 ->
  v_of s4 = v_of s1 /\ D_of s4 = D_of s1.
Proof. exact vd_small_thm. Qed.
Print Assumptions C89_small_dimension.
Example C89_small_instance : exists k0 p e g s0 pop s2 cols s3 s4,
  constructed k0 /\ p_k p = set_vd (set_algo 12 k0) /\ k_dim k0 = 5%nat /\ constructed_any (p_k p) /\ p_upd p = Vd /\ g_uh g = false /\ started p e g s0 /\ run_ops (cma_num p) e g [] s0 = Ok s0 /\
  ask (cma_num p) e g s0 = Ok (pop, s2) /\ eval (cma_num p) e g cols [] s2 = Ok s3 /\ tell (cma_num p) e g s3 = Ok s4 /\ vd_rate p s0 s4 <= 0.
Proof. exact vd_small_instance. Qed.
(** A search whose first generation meets the conditions. *)
Example C89_instance : exists p e g s0 pop s2 cols s3 s4 ki,
  constructed_any (p_k p) /\ p_upd p = Vd /\ k_vd (p_k p) = true /\ g_uh g = false /\ started p e g s0 /\ run_ops (cma_num p) e g [] s0 = Ok s0 /\
  ask (cma_num p) e g s0 = Ok (pop, s2) /\ eval (cma_num p) e g cols [] s2 = Ok s3 /\ tell (cma_num p) e g s3 = Ok s4 /\ k_dim (p_k p) = 6%nat /\
  (forall i, v_of s0 i <> 0) /\ (forall i, 0 < D_of s0 i) /\ inverse 6 ki (d_cov (dist_of p s0)) /\ 0 < vd_rate p s0 s4 /\ D_of s4 2%nat <> D_of s0 2%nat.
Proof. exact vd_instance_thm. Qed.
(** Nothing bounds the step: after one generation a scale, which is 1 at the
    start, can be negative. *)
Theorem C89_positive_refuted : exists p e g x0 n0 s0 pop s2 cols s3 s4 i, constructed_any (p_k p) /\ p_upd p = Vd /\ k_vd (p_k p) = true /\ g_uh g = false /\
  st_new (cma_num p) g x0 n0 = Ok s0 /\ ask (cma_num p) e g s0 = Ok (pop, s2) /\ eval (cma_num p) e g cols [] s2 = Ok s3 /\ tell (cma_num p) e g s3 = Ok s4 /\
  (i < k_dim (p_k p))%nat /\ (forall j, D_of s0 j = 1) /\ D_of s4 i < 0.
Proof. exact vd_negative_thm. Qed.
Print Assumptions C89_positive_refuted.
