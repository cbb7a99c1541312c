(** Proofs about the numerical gradient. *)
From Coq Require Import Reals List Lia Lra Arith ZArith.
From Verif Require Import Base Dbl Vec VecProofs SpecBounds SpecGeno EoMatrix Pwq Scaling GenoPheno PwqProofs GenoPhenoProofs ScalingProofs Params SpecParams Config Search SpecSearch SearchInv StopProofs
  Update SpecUpdate SpecSafe SpecUh SafeProofs Demo DemoProofs DemoNum DemoNumProofs NumInv NumThms SpecGrad.
Import ListNotations.
Local Open Scope R_scope.

Section Grad.
Variables (p : npar) (e : env R num) (g : cfg R).
Let d := k_dim (p_k p).
Notation pts x := (cons x (map (fun i => grad_point p i x) (seq 0 (g_dim g)))).

Lemma gradf_calls x s gr s' : gradf (cma_num p) e g x s = (gr, s') ->
  if e_gfunc e then s' = s /\ gr = None
  else t_log s' = t_log s ++ eval_from e (length (t_log s)) (pts x) /\ gr = Some (map snd (eval_from e (length (t_log s)) (pts x))) /\
       t_nevals s' = (t_nevals s + Z.of_nat (g_dim g) + 1)%Z /\ s_nevals (t_sol s') = (s_nevals (t_sol s) + Z.of_nat (g_dim g) + 1)%Z.
Proof.
  unfold gradf. destruct (e_gfunc e); [intros Q; injection Q as <- <-; auto|].
  change (n_gradpt (cma_num p)) with (grad_point p).
  destruct (calls e _ s) as [vs s1] eqn:C. intros Q. injection Q as <- <-. apply calls_spec in C as [-> ->].
  unfold update_fevals. cbn [t_log set_t_sol set_t_nevals set_t_log t_nevals t_sol s_nevals set_s_nevals]. repeat split; lia.
Qed.
Lemma eval_from_points k xs : map fst (eval_from e k xs) = xs.
Proof. revert k. induction xs as [|x xs IH]; intros k; [reflexivity|]. rewrite eval_from_cons. cbn. now rewrite IH. Qed.
Lemma gradf_new x s gr s' : e_gfunc e = false -> gradf (cma_num p) e g x s = (gr, s') -> new_calls s s' (pts x).
Proof. intros G H. apply gradf_calls in H. rewrite G in H. destruct H as (H & _). eexists. split; [exact H|]. apply eval_from_points. Qed.
Lemma ask_gradf s pop s' : g_gradient g = true -> ask (cma_num p) e g s = Ok (pop, s') ->
  exists x gr s1 s2, e_pheno e (tab d (mean_of s)) = Ok x /\ gradf (cma_num p) e g x s1 = (gr, s2) /\
    t_log s1 = t_log s /\ t_nevals s1 = t_nevals s /\ s_nevals (t_sol s1) = s_nevals (t_sol s) /\
    t_log s' = t_log s2 /\ t_nevals s' = t_nevals s2 /\ s_nevals (t_sol s') = s_nevals (t_sol s2).
Proof.
  intros G1 H. unfold ask in H. rewrite G1 in H.
  destruct (n_sample _ _ _) as [pop0 n2] eqn:Es.
  assert (XM : n_xmean (cma_num p) n2 = tab d (mean_of s)).
  { cbn [n_sample cma_num] in Es. unfold sample_num in Es. injection Es as _ <-. cbn [n_xmean cma_num with_pos x_mean n_eigen].
    f_equal. unfold eigen_num. destruct (_ || _)%bool; [reflexivity|]. destruct (_ || _ || _)%bool; reflexivity. }
  cbn [t_sol set_t_sol s_num set_s_num] in H. rewrite XM in H.
  apply bind_ok in H as ([pop2 s2] & H1 & H). apply bind_ok in H1 as (x & EX & H1).
  set (s1 := set_t_sol _ s) in *. destruct (gradf _ _ _ _ s1) as [gr s2'] eqn:G.
  assert (s2' = s2). { destruct (n_gradcol _ _ _); [apply bind_ok in H1 as (? & _ & H1)|]; apply Ok_inj in H1; injection H1; auto. } subst s2'.
  exists x, gr, s1, s2. split; [exact EX|]. split; [exact G|]. split; [reflexivity|]. split; [reflexivity|]. split; [reflexivity|].
  apply bind_ok in H as ([pop3 s3] & H2 & H). apply bind_ok in H as (pop4 & _ & H). apply Ok_inj in H. injection H as _ <-.
  destruct (_ && _)%bool.
  - destruct (n_tpa_points _ _) as [[x1 x2] n3]. apply bind_ok in H2 as (pa & _ & H2). apply bind_ok in H2 as (pb & _ & H2). apply Ok_inj in H2. injection H2 as _ <-.
    split; [reflexivity|]. split; [reflexivity|]. reflexivity.
  - apply Ok_inj in H2. injection H2 as _ <-. auto.
Qed.
Lemma eps_pos (x : vec) i : 0 < eps_at x i.
Proof. unfold eps_at. pose proof (Rabs_pos (x i)). apply Rmult_lt_0_compat; lra. Qed.
Lemma grad_point_length i x : length (grad_point p i x) = d.
Proof. apply tab_length. Qed.
Lemma grad_point_other i j x : length x = d -> j <> i -> nth_error (grad_point p i x) j = nth_error x j.
Proof.
  intros L N. destruct (le_lt_dec d j) as [H|H].
  - rewrite (proj2 (nth_error_None _ _)) by (rewrite grad_point_length; lia). symmetry. apply nth_error_None. lia.
  - rewrite (nth_error_nth' _ 0) by (rewrite grad_point_length; lia). rewrite (nth_error_nth' x 0) by lia. f_equal.
    change (nth j (grad_point p i x) 0) with (at0 (grad_point p i x) j). unfold grad_point. rewrite at0_tab by auto. apply Nat.eqb_neq in N. now rewrite N.
Qed.
Lemma grad_point_at i x : (i < d)%nat -> at0 (grad_point p i x) i =
  let y := at0 x i + eps_at (at0 x) i in match p_ub p i with Some u => Rmin y u | None => y end.
Proof. intros H. unfold grad_point. rewrite at0_tab by auto. now rewrite Nat.eqb_refl. Qed.
Lemma grad_point_stepped i x : length x = d -> (i < d)%nat -> (forall u, p_ub p i = Some u -> at0 x i < u) -> stepped i x (grad_point p i x).
Proof.
  intros L H U. split; [rewrite grad_point_length; auto|]. split; [intros; apply grad_point_other; auto|].
  rewrite grad_point_at by auto. cbv zeta. pose proof (eps_pos (at0 x) i). destruct (p_ub p i) as [u|]; [|lra].
  apply Rmin_glb_lt; [lra|auto].
Qed.

(** Calls of the numerical gradient. *)
Lemma calls_thm s pop s' : g_dim g = d -> g_gradient g = true -> e_gfunc e = false -> ask (cma_num p) e g s = Ok (pop, s') ->
  exists x ys, e_pheno e (tab d (mean_of s)) = Ok x /\ new_calls s s' (x :: ys) /\ length ys = g_dim g /\
    (length x = g_dim g -> forall i y, nth_error ys i = Some y -> (forall u, p_ub p i = Some u -> at0 x i < u) -> stepped i x y) /\
    t_nevals s' = (t_nevals s + Z.of_nat (length (x :: ys)))%Z /\ s_nevals (t_sol s') = (s_nevals (t_sol s) + Z.of_nat (length (x :: ys)))%Z.
Proof.
  intros GD G1 G2 H. destruct (ask_gradf s pop s' G1 H) as (x & gr & s1 & s2 & EX & G & L1 & N1 & M1 & L2 & N2 & M2).
  exists x, (map (fun i => grad_point p i x) (seq 0 (g_dim g))). split; [exact EX|].
  pose proof (gradf_new x s1 gr s2 G2 G) as (log & E1 & E2). apply gradf_calls in G. rewrite G2 in G. destruct G as (_ & _ & G3 & G4).
  split. { exists log. split; [congruence|exact E2]. }
  split; [now rewrite map_length, seq_length|]. split.
  { intros Lx i y E U. assert (I : (i < g_dim g)%nat) by (assert (nth_error (map (fun i => grad_point p i x) (seq 0 (g_dim g))) i <> None) as Q by congruence; apply nth_error_Some in Q; rewrite map_length, seq_length in Q; exact Q).
    rewrite nth_error_map, (nth_error_nth' _ 0%nat) in E by (rewrite seq_length; exact I). rewrite seq_nth in E by exact I. cbn in E. injection E as <-.
    apply grad_point_stepped; [congruence|rewrite <- GD; exact I|exact U]. }
  cbn [length]. rewrite map_length, seq_length. split; lia.
Qed.
(** No calls with the user's gradient. *)
Lemma user_thm s pop s' : e_gfunc e = true -> ask (cma_num p) e g s = Ok (pop, s') ->
  t_log s' = t_log s /\ t_nevals s' = t_nevals s /\ s_nevals (t_sol s') = s_nevals (t_sol s).
Proof.
  intros G2 H. destruct (g_gradient g) eqn:G1.
  - destruct (ask_gradf s pop s' G1 H) as (x & gr & s1 & s2 & EX & G & L1 & N1 & M1 & L2 & N2 & M2).
    apply gradf_calls in G. rewrite G2 in G. destruct G as [-> _]. repeat split; congruence.
  - unfold ask in H. rewrite G1 in H. destruct (n_sample _ _ _) as [pop0 n2]. cbn [bind] in H.
    apply bind_ok in H as ([pop3 s3] & H2 & H). apply bind_ok in H as (pop4 & _ & H). apply Ok_inj in H. injection H as _ <-.
    destruct (_ && _)%bool.
    + destruct (n_tpa_points _ _) as [[x1 x2] n3]. apply bind_ok in H2 as (pa & _ & H2). apply bind_ok in H2 as (pb & _ & H2). apply Ok_inj in H2. injection H2 as _ <-.
      cbn. auto.
    + apply Ok_inj in H2. injection H2 as _ <-. cbn. auto.
Qed.

(** Bounds without scaling. *)
Lemma pwq_make_ub lb ub q i : pwq_make lb ub = Ok q -> option_map q_ub (nth_error q i) = nth_error ub i.
Proof.
  unfold pwq_make. revert ub q i. induction lb as [|l lb IH]; intros [|u ub] q i H; cbn in H; try discriminate.
  - injection H as <-. destruct i; reflexivity.
  - apply bind_ok in H as (q' & H & Q). apply Ok_inj in Q. subst q. destruct i as [|i]; [reflexivity|]. cbn. apply IH; auto.
Qed.
Lemma inside_thm cust lb ub gp s pop s' : uses_gp p e gp -> ordered lb ub -> len_pres cust -> gp_bounds cust lb ub = Ok gp -> length lb = d -> g_dim g = d ->
  g_gradient g = true -> e_gfunc e = false -> ask (cma_num p) e g s = Ok (pop, s') ->
  exists ys, new_calls s s' ys /\ length ys = S (g_dim g) /\ Forall (inside lb ub) ys.
Proof.
  intros [U1 U2] HO HC HG HL GD G1 G2 H. destruct (ask_gradf s pop s' G1 H) as (x & gr & s1 & s2 & EX & G & L1 & N1 & M1 & L2 & N2 & M2).
  pose proof (gradf_new x s1 gr s2 G2 G) as (log & E1 & E2).
  exists (pts x). split; [exists log; split; [congruence|exact E2]|]. split; [cbn; now rewrite map_length, seq_length|].
  assert (IN : inside lb ub x).
  { rewrite U1 in EX. destruct (feasible cust lb ub gp (tab d (mean_of s)) HO HC HG) as [(y & E & I)|E]; [rewrite tab_length; auto| |congruence].
    rewrite E in EX. apply Ok_inj in EX. subst; auto. }
  constructor; [exact IN|]. apply Forall_forall. intros y Hy. apply in_map_iff in Hy as (i & <- & Hi). apply in_seq in Hi.
  destruct IN as (I1 & I2 & I3). split; [rewrite grad_point_length; congruence|]. split; [rewrite grad_point_length; congruence|].
  intros j l u v El Eu Ev. destruct (Nat.eq_dec j i) as [->|N]; [|rewrite grad_point_other in Ev by congruence; eapply I3; eauto].
  assert (Lx : (i < length x)%nat) by lia. assert (Ex : nth_error x i = Some (at0 x i)) by (apply nth_error_nth'; auto).
  pose proof (I3 i l u _ El Eu Ex) as B.
  rewrite (nth_error_nth' _ 0) in Ev by (rewrite grad_point_length; lia). injection Ev as <-. change (nth i (grad_point p i x) 0) with (at0 (grad_point p i x) i).
  rewrite grad_point_at by lia. cbv zeta. pose proof (eps_pos (at0 x) i).
  assert (EU : p_ub p i = Some u).
  { rewrite U2. unfold gp_bounds in HG. apply bind_ok in HG as (q & HQ & HG). apply Ok_inj in HG. subst gp. cbn.
    rewrite nth_error_map. pose proof (pwq_make_ub lb ub q i HQ) as W. rewrite Eu in W. destruct (nth_error q i); [|discriminate]. cbn in *. congruence. }
  rewrite EU. split; [apply Rmin_glb; lra|apply Rmin_r].
Qed.

(** Affine objectives. *)
Lemma rsum_pick n (f h : nat -> R) i : (i < n)%nat -> (forall j, (j < n)%nat -> j <> i -> f j = h j) -> rsum n f = rsum n h + (f i - h i).
Proof.
  induction n as [|n IH]; intros Hi E; [lia|]. cbn [rsum]. destruct (Nat.eq_dec i n) as [->|N].
  - rewrite (rsum_ext n f h) by (intros j Hj; apply E; lia). ring.
  - rewrite IH by (try lia; intros; apply E; lia). rewrite (E n) by lia. ring.
Qed.
Lemma affine_thm a b x s gr s' : g_dim g = d -> length x = d -> e_gfunc e = false ->
  (forall i u, (i < d)%nat -> p_ub p i = Some u -> at0 x i + eps_at (at0 x) i <= u) ->
  affine_on d e a b (pts x) -> gradf (cma_num p) e g x s = (gr, s') ->
  forall i, (i < d)%nat -> grad_vec p x gr i = b i.
Proof.
  intros GD LX G2 U A G i Hi. apply gradf_calls in G. rewrite G2 in G. destruct G as (_ & -> & _). unfold grad_vec.
  set (k := length (t_log s)).
  assert (V : forall j y, nth_error (pts x) j = Some y -> dblR (nth j (map snd (eval_from e k (pts x))) NaN) = affine_at d a b y).
  { assert (X : forall l k j y, (forall q y, In y l -> exists z, e_f e q y = Fin z /\ IZR z / 2 ^ 1074 = affine_at d a b y) ->
      nth_error l j = Some y -> dblR (nth j (map snd (eval_from e k l)) NaN) = affine_at d a b y).
    { clear. induction l as [|y0 l IH]; intros k [|j] y A E; try discriminate; rewrite eval_from_cons; cbn [map nth snd].
      - injection E as <-. destruct (A k y0 (or_introl eq_refl)) as (z & -> & Ez). exact Ez.
      - cbn [nth_error] in E. apply IH; auto. intros q y1 H1. apply A. right; auto. }
    intros j y. apply X. exact A. }
  rewrite (V 0%nat x eq_refl).
  assert (EI : nth_error (pts x) (S i) = Some (grad_point p i x)).
  { cbn [nth_error]. rewrite nth_error_map, (nth_error_nth' _ 0%nat) by (rewrite seq_length; congruence). rewrite seq_nth by congruence. reflexivity. }
  rewrite (V (S i) _ EI). unfold affine_at.
  rewrite (rsum_pick d (fun j => b j * at0 (grad_point p i x) j) (fun j => b j * at0 x j) i Hi).
  2:{ intros j Hj N. f_equal. unfold at0. apply nth_error_nth. rewrite grad_point_other by congruence. apply nth_error_nth'. lia. }
  rewrite grad_point_at by auto. cbv zeta. pose proof (eps_pos (at0 x) i).
  assert (Y : match p_ub p i with Some u => Rmin (at0 x i + eps_at (at0 x) i) u | None => at0 x i + eps_at (at0 x) i end = at0 x i + eps_at (at0 x) i).
  { destruct (p_ub p i) as [u|] eqn:EU; [|auto]. apply Rmin_left. apply (U i u); auto. }
  rewrite Y. field. lra.
Qed.
End Grad.
