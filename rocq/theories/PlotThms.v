(** The cells of a line of the plot file. *)
From Coq Require Import Reals List Lra Lia.
From Verif Require Import Base Dbl Vec EoMatrix Pwq Scaling GenoPheno Params Config Search SpecSearch SpecGeno SpecErr SearchInv NumInv RunProofs Update SpecUpdate Report Plot SpecPlot PlotProofs
  GpParProofs EoMatrixProofs ErrVpk ActiveProofs CritProofs AlgoThms StopProofs CounterProofs Demo DemoNum DemoNumProofs NumThms ReportProofs ReportThms SafeProofs ActiveThms.
Import ListNotations.
Local Open Scope R_scope.

(** * Shape of a line *)
Lemma tab_len n v : length (tab n v) = n.
Proof. unfold tab. rewrite map_length, seq_length. reflexivity. Qed.
Lemma stds_len p gp n v : built (k_dim (p_k p)) gp -> stds p gp n = Ok v -> length v = k_dim (p_k p).
Proof.
  intros B H. apply built_shape in B. unfold stds in H. apply bind_ok in H as (a & Ha & H). apply bind_ok in H as (b & Hb & H).
  apply (pheno_length _ _ _ _ B (tab_len _ _)) in Ha. apply (pheno_length _ _ _ _ B (tab_len _ _)) in Hb. apply mapM2_ok_length in H. lia.
Qed.
Lemma nth_app_at {A} (l1 l2 : list A) i j : length l1 = i -> nth_error (l1 ++ l2) (i + j) = nth_error l2 j.
Proof. intros <-. rewrite nth_error_app2 by lia. f_equal. lia. Qed.
Lemma cols_tab n (v : vec) l r : columns (l ++ map CR (tab n v) ++ r) (length l) n v.
Proof.
  intros j Hj. rewrite nth_app_at by reflexivity. rewrite nth_error_app1 by (rewrite map_length, tab_len; exact Hj).
  rewrite nth_error_map. unfold tab. rewrite nth_error_map. rewrite (nth_error_nth' _ 0%nat) by (rewrite seq_length; exact Hj). rewrite seq_nth by exact Hj. reflexivity.
Qed.
Lemma cols_list (v : list R) l r : columns (l ++ map CR v ++ r) (length l) (length v) (at0 v).
Proof.
  intros j Hj. rewrite nth_app_at by reflexivity. rewrite nth_error_app1 by (rewrite map_length; exact Hj).
  rewrite nth_error_map. unfold at0. rewrite (nth_error_nth' _ 0) by exact Hj. reflexivity.
Qed.
Lemma cols_at (v : list R) l r i n : length l = i -> length v = n -> columns (l ++ map CR v ++ r) i n (at0 v).
Proof. intros <- <-. apply cols_list. Qed.
Lemma cols_tab_at n (v : vec) l r i : length l = i -> columns (l ++ map CR (tab n v) ++ r) i n v.
Proof. intros <-. apply cols_tab. Qed.
Lemma plot_row_cells no p gp so ls : built (k_dim (p_k p)) gp -> plot_row no p gp so = Ok ls ->
  let d := k_dim (p_k p) in
  exists r sd m, ls = [r] /\ length r = (5 + 3 * d)%nat /\
    stds p gp (s_num so) = Ok sd /\ pheno gp (tab d (x_mean (s_num so))) = Ok m /\ length sd = d /\ length m = d /\
    nth_error r 0 = Some (CF (dabs (c_f (best_candidate no so)))) /\ nth_error r 1 = Some (CI (s_nevals so)) /\
    nth_error r 2 = Some (CR (x_sigma (s_num so))) /\ nth_error r 3 = Some (CR (axis_ratio (s_num so))) /\
    columns r 4 d (x_leig (s_num so)) /\ columns r (4 + d) d (at0 sd) /\ columns r (4 + 2 * d) d (at0 m).
Proof.
  intros B H d. unfold plot_row, row_tail in H. fold d in H. apply bind_ok in H as (tl & H & E). apply bind_ok in H as (sd & H1 & H). apply bind_ok in H as (m & H2 & H).
  apply Ok_inj in H. apply Ok_inj in E. subst ls tl. pose proof (stds_len _ _ _ _ B H1) as L1. fold d in L1.
  pose proof (pheno_length _ _ _ _ (built_shape _ _ B) (tab_len _ _) H2) as L2. fold d in L2.
  eexists _, sd, m. split; [reflexivity|]. split.
  { rewrite !app_length, !map_length, tab_len, L1, L2. cbn. lia. }
  split; [exact H1|]. split; [exact H2|]. split; [exact L1|]. split; [exact L2|]. do 4 (split; [reflexivity|]).
  set (h := row_head no so). split; [apply (cols_tab d _ h)|]. split.
  - rewrite app_assoc. replace (4 + d)%nat with (length (h ++ map CR (tab d (x_leig (s_num so))))) by (rewrite app_length, map_length, tab_len; reflexivity).
    rewrite <- L1 at 3. apply cols_list.
  - rewrite !app_assoc. rewrite <- (app_assoc (_ ++ _) (map CR m)).
    replace (4 + 2 * d)%nat with (length ((h ++ map CR (tab d (x_leig (s_num so)))) ++ map CR sd)) by (rewrite !app_length, !map_length, tab_len, L1; cbn; lia).
    rewrite <- L2 at 3. apply cols_list.
Qed.

(** * What a generation leaves *)
Section StepNum.
Variable p : npar.
Variable e : env R num.
Variable g : cfg R.
Notation no := (cma_num p).
Let d := k_dim (p_k p).
Variable D : vec * mat.
Let P (n : num) : Prop := x_dec n = D.
Let P2 (n : num) : Prop := x_leig n = (if k_sep (p_k p) || k_vd (p_k p) then x_sep n else fst D) /\ x_maxev n = vmax d (x_leig n) /\ x_minev n = vmin d (x_leig n).
Lemma ask_dec s pop s' : P (n_eigen no (t_niter s) (s_num (t_sol s))) -> ask no e g s = Ok (pop, s') -> P (s_num (t_sol s')).
Proof.
  intros HP H. unfold ask in H. destruct (n_sample no _ _) as [pop0 n2] eqn:E.
  assert (A : P n2) by (change n2 with (snd (pop0, n2)); rewrite <- E; exact HP).
  apply bind_ok in H as ([pop2 s2] & H0 & H).
  assert (B : P (s_num (t_sol s2))).
  { destruct (g_gradient g); [|injection H0 as <- <-; exact A]. apply bind_ok in H0 as (a & _ & H0).
    destruct (gradf no e g a _) as [gr s3] eqn:G. apply gradf_num in G.
    destruct (n_gradcol no gr _); [apply bind_ok in H0 as (? & _ & H0)|]; injection H0 as <- <-; rewrite G; exact A. }
  apply bind_ok in H as ([pop3 s3] & H1 & H). apply bind_ok in H as (? & _ & H). injection H as <- <-.
  destruct (_ && _); [|injection H1 as <- <-; exact B].
  destruct (n_tpa_points no _) as [[x1 x2] n3] eqn:E3.
  assert (C : P n3) by (change n3 with (snd (x1, x2, n3)); rewrite <- E3; exact B).
  apply bind_ok in H1 as (? & _ & H1). apply bind_ok in H1 as (? & _ & H1). injection H1 as <- <-. cbn. destruct (g_gradient g); exact C.
Qed.
Lemma tell_leig s s' : P (s_num (t_sol s)) -> tell no e g s = Ok s' -> P2 (s_num (t_sol s')).
Proof.
  intros HP H. unfold tell in H. apply bind_ok in H as (a & H0 & H). apply bind_ok in H as (a0 & H1 & H). injection H as <-. cbn [t_sol set_t_sol].
  assert (A : P (s_num a)).
  { destruct (g_uh g); [apply uh_num in H0; rewrite H0; exact HP|].
    unfold sort_candidates in H0. destruct (compares_ok _); [|discriminate]. injection H0 as <-. exact HP. }
  assert (B : P (s_num a0)).
  { apply ubc_num in H1. rewrite H1. destruct (_ && _); exact A. }
  assert (C : forall n it xs, P n -> P2 (n_update no it xs n)).
  { intros n it xs Hn. unfold P2. cbn [n_update cma_num update_num x_leig x_sep x_maxev x_minev]. rewrite Hn. auto. }
  destruct (g_uh g && _); cbn; apply C; exact B.
Qed.
Lemma round_leig s s' : P (n_eigen no (t_niter s) (s_num (t_sol s))) -> round no e g s = Ok s' -> P2 (s_num (t_sol s')).
Proof.
  intros HP H. unfold round in H. apply bind_ok in H as ([pop s1] & H1 & H). apply bind_ok in H as (ph & _ & H). apply bind_ok in H as (s2 & H2 & H). apply bind_ok in H as (s3 & H3 & H).
  injection H as <-. apply ask_dec in H1; [|exact HP].
  assert (A : P (s_num (t_sol s2))).
  { eapply eval_num with (P := P); [| |exact H1|exact H2]; intros; assumption. }
  apply tell_leig in H3; [|exact A]. exact H3.
Qed.
End StepNum.

Lemma step_leig p e g so so' : step (cma_num p) e g so so' -> exists q,
  let n := s_num so' in let d := k_dim (p_k p) in
  (k_sep (p_k p) || k_vd (p_k p) = true -> x_leig n = x_sep n) /\
  (k_sep (p_k p) || k_vd (p_k p) = false -> p_lazy p = false -> (x_leig n, q) = p_eig p (mtab d (x_cov (s_num so)))) /\
  x_maxev n = vmax d (x_leig n) /\ x_minev n = vmin d (x_leig n).
Proof.
  intros (s & s2 & S1 & _ & H & <-). set (D := x_dec (n_eigen (cma_num p) (t_niter s) (s_num (t_sol s)))).
  pose proof (round_leig p e g D s s2 eq_refl H) as (A & B & C).
  assert (N1 : s_num (t_sol s) = s_num so) by (rewrite S1; destruct so; reflexivity).
  exists (snd D). cbv zeta. split; [|split; [|auto]].
  - intros E. rewrite E in A. exact A.
  - intros E L. rewrite E in A. rewrite A. subst D. rewrite N1. cbn [n_eigen cma_num]. unfold eigen_num. rewrite E, L, orb_true_r. cbn [orb x_dec with_solver].
    destruct (p_eig p _); reflexivity.
Qed.
Lemma row_eigen_full p e g gp so so' ls : eigensolver_ok p -> k_sep (p_k p) = false -> k_vd (p_k p) = false -> p_lazy p = false ->
  built (k_dim (p_k p)) gp -> symmetric (k_dim (p_k p)) (x_cov (s_num so)) ->
  step (cma_num p) e g so so' -> plot_row (cma_num p) p gp so' = Ok ls ->
  exists r v q, ls = [r] /\ columns r 4 (k_dim (p_k p)) v /\ diagonalises (k_dim (p_k p)) (x_cov (s_num so)) (v, q).
Proof.
  intros HE K1 K2 HL HB HS H HW. apply plot_row_cells in HW as (r & sd & m & -> & _ & _ & _ & _ & _ & _ & _ & _ & _ & HW & _); [|exact HB].
  apply step_leig in H as (q & _ & H & _). exists r, (x_leig (s_num so')), q. split; [reflexivity|]. split; [exact HW|].
  rewrite K1, K2 in H. rewrite (H eq_refl HL). apply HE, HS.
Qed.
Lemma row_eigen_diag p e g gp so so' ls : k_sep (p_k p) || k_vd (p_k p) = true -> built (k_dim (p_k p)) gp ->
  step (cma_num p) e g so so' -> plot_row (cma_num p) p gp so' = Ok ls ->
  exists r, ls = [r] /\ columns r 4 (k_dim (p_k p)) (x_sep (s_num so')).
Proof.
  intros K HB H HW. apply plot_row_cells in HW as (r & sd & m & -> & _ & _ & _ & _ & _ & _ & _ & _ & _ & HW & _); [|exact HB].
  apply step_leig in H as (q & H & _). rewrite (H K) in HW. eauto.
Qed.
Lemma row_ratio p e g gp so so' ls : built (k_dim (p_k p)) gp -> (1 <= k_dim (p_k p))%nat ->
  step (cma_num p) e g so so' -> plot_row (cma_num p) p gp so' = Ok ls ->
  exists r v a, ls = [r] /\ columns r 4 (k_dim (p_k p)) v /\ nth_error r 3 = Some (CR a) /\
    forall mx mn, is_max (k_dim (p_k p)) v mx -> is_min (k_dim (p_k p)) v mn -> (0 < mn -> 1 <= a /\ a * a = mx / mn) /\ (mn = 0 -> a = 1).
Proof.
  intros HB HD H HW. apply plot_row_cells in HW as (r & sd & m & -> & _ & _ & _ & _ & _ & _ & _ & _ & HA & HW & _); [|exact HB].
  apply step_leig in H as (q & _ & _ & H1 & H2). exists r, (x_leig (s_num so')), (axis_ratio (s_num so')). split; [reflexivity|]. split; [exact HW|]. split; [exact HA|].
  intros mx mn [M1 (i & Hi & M2)] [N1 (j & Hj & N2)]. set (d := k_dim (p_k p)) in *. set (v := x_leig (s_num so')) in *.
  assert (E1 : x_maxev (s_num so') = mx).
  { rewrite H1. apply Rle_antisym; [destruct (vmax_at d v HD) as (k & Hk & ->); auto|]. rewrite <- M2. apply vmax_ge, Hi. }
  assert (E2 : x_minev (s_num so') = mn).
  { rewrite H2. apply Rle_antisym; [rewrite <- N2; apply CritProofs.vmin_le, Hj|]. destruct (CritProofs.vmin_in d v HD) as (k & Hk & ->). auto. }
  unfold axis_ratio. rewrite E1, E2. assert (L : mn <= mx) by (rewrite <- N2; apply M1, Hj). split.
  - intros P0. destruct (Req_EM_T mn 0); [lra|]. assert (1 <= mx / mn) by (apply (Rmult_le_reg_r mn); [exact P0|]; replace (mx / mn * mn) with mx by (field; lra); lra).
    split; [rewrite <- sqrt_1; apply sqrt_le_1; lra|apply sqrt_def; lra].
  - intros ->. destruct (Req_EM_T 0 0); [reflexivity|contradiction].
Qed.

(** * The line with everything *)
Lemma full_row_cells no p gp seed so ls : built (k_dim (p_k p)) gp -> full_row no p gp seed so = Ok ls ->
  (c_x (s_best so) = [] \/ length (c_x (s_best so)) = k_dim (p_k p)) ->
  let d := k_dim (p_k p) in
  exists r h med sd m, ls = h ++ [r] /\ length r = (10 + 4 * d)%nat /\
    h = (if (s_niter so =? 0)%Z then [[CI (Z.of_nat d); CI seed; CTime]] else []) /\
    nth_error (s_cands so) (length (s_cands so) / 2) = Some med /\
    stds p gp (s_num so) = Ok sd /\ pheno gp (tab d (x_mean (s_num so))) = Ok m /\
    firstn 4 r = row_head no so /\
    nth_error r 4 = Some (CF (c_f (s_best so))) /\ nth_error r 5 = Some (CF (c_f med)) /\ nth_error r 6 = Some (CF (c_f (s_worst so))) /\
    nth_error r 7 = Some (CR (x_minev (s_num so))) /\ nth_error r 8 = Some (CR (x_maxev (s_num so))) /\
    columns r 9 d (at0 (c_x (s_best so))) /\ columns r (9 + d) d (x_leig (s_num so)) /\
    columns r (9 + 2 * d) d (at0 sd) /\ columns r (9 + 3 * d) d (at0 m).
Proof.
  intros B H HX d. unfold full_row, row_tail in H. fold d in H. apply bind_ok in H as (med & H0 & H). apply bind_ok in H as (tl & H & E). apply bind_ok in H as (sd & H1 & H). apply bind_ok in H as (m & H2 & H).
  apply Ok_inj in H. apply Ok_inj in E. subst ls tl. pose proof (stds_len _ _ _ _ B H1) as L1. fold d in L1.
  pose proof (pheno_length _ _ _ _ (built_shape _ _ B) (tab_len _ _) H2) as L2. fold d in L2. fold d in HX.
  set (xb := match c_x (s_best so) with [] => tab d (fun _ => 0) | _ => _ end).
  assert (XB : length xb = d) by (unfold xb; destruct HX as [->|HX]; [apply tab_len|]; destruct (c_x (s_best so)); [apply tab_len|exact HX]).
  assert (XV : forall j, at0 xb j = at0 (c_x (s_best so)) j).
  { intros j. unfold xb, at0. destruct (c_x (s_best so)); [|reflexivity]. unfold tab.
    clear. generalize 0%nat. revert j. induction d as [|n IH]; intros [|j] a; cbn; auto. specialize (IH j (S a)). rewrite IH. destruct j; reflexivity. }
  eexists _, _, med, sd, m. split; [reflexivity|]. split.
  { rewrite !app_length, !map_length, tab_len, L1, L2, XB. cbn. lia. }
  split; [reflexivity|]. split; [apply at_ok in H0 as [_ H0]; rewrite Nat2Z.id in H0; exact H0|].
  split; [exact H1|]. split; [exact H2|]. split; [reflexivity|]. do 5 (split; [reflexivity|]).
  set (h := row_head no so). set (x5 := [CF (c_f (s_best so)); _; _; _; _]).
  assert (LH : length (h ++ x5) = 9%nat) by reflexivity. rewrite (app_assoc h x5).
  split; [|split; [|split]].
  - intros j Hj. rewrite <- XV. revert j Hj. rewrite <- XB, <- LH. apply cols_list.
  - rewrite (app_assoc _ (map CR xb)). apply cols_tab_at. rewrite app_length, map_length, LH, XB. reflexivity.
  - rewrite (app_assoc _ (map CR xb)), (app_assoc _ (map CR (tab d _))). apply cols_at; [|exact L1]. rewrite !app_length, !map_length, tab_len, XB. cbn. lia.
  - rewrite (app_assoc _ (map CR xb)), (app_assoc _ (map CR (tab d _))), (app_assoc _ (map CR sd)). apply cols_at; [|exact L2]. rewrite !app_length, !map_length, tab_len, XB, L1. cbn. lia.
Qed.

(** * Witnesses *)
Definition init_cfg : cfg R := set_g_init_fvalue true (cfg_of k1).
Definition const_env (v : Z) (ph : list R -> res (list R)) : env R num := mkEnv (fun _ _ => Fin v) false ph (fun _ => 0%Z) isort.
Definition gp2 : genopheno := mkGP NoBound None (LinScaling (Scaling.mkLin [(2, 0)] false)).
Lemma gp2_is : gp_scaling_nb [2] [0] = Ok gp2.
Proof. reflexivity. Qed.
Lemma gp2_pheno x : pheno gp2 [x] = Ok [x / 2].
Proof. unfold pheno, custom_pheno. cbn. unfold rdiv. destruct (Req_EM_T 2 0); [lra|]. cbn. rewrite Rminus_0_r. reflexivity. Qed.
Lemma start_mean p x0 n : k_fixed (p_k p) = [] -> p_scale p = (fun x => x) -> k_dim (p_k p) = 1%nat -> x_mean (new_num p [x0] n) 0%nat = x0.
Proof. intros F Z D. cbn [new_num x_mean]. unfold init_mean. rewrite F, Z, D. reflexivity. Qed.
Lemma init_start v ph y : ph [1] = Ok y -> let p := npar_of k1 Full in exists s0 s1, st_new (cma_num p) init_cfg [1] num0 = Ok s0 /\
  eval_initial (cma_num p) (const_env v ph) init_cfg s0 = Ok s1 /\
  t_log s1 = [(y, Fin v)] /\ t_sol s1 = set_s_nevals 1 (set_s_best (cand_of (Fin v) [1]) (set_s_init (cand_of (Fin v) [1]) (t_sol s0))) /\
  s_hist (t_sol s0) = [] /\ s_niter (t_sol s0) = 0%Z /\ length (s_cands (t_sol s0)) = 4%nat /\
  s_num (t_sol s0) = new_num p [1] num0.
Proof.
  intros Y p. unfold st_new, sol_new. cbn [init_cfg set_g_init_fvalue g_lambda cfg_of]. 
  assert (L : k_lambda k1 = 4%nat) by reflexivity. rewrite L. cbn [Z.of_nat Z.eqb]. cbn [bind].
  assert (M : n_xmean (cma_num p) (new_num p [1] num0) = [1]).
  { cbn [n_xmean cma_num]. assert (F : k_fixed (p_k p) = []) by reflexivity. assert (Z : p_scale p = (fun x => x)) by reflexivity. assert (D : k_dim (p_k p) = 1%nat) by reflexivity.
    clearbody p. rewrite D. unfold tab. cbn [seq map]. rewrite (start_mean p 1 num0 F Z D). reflexivity. }
  eexists _, _. split; [reflexivity|]. split.
  - unfold eval_initial. cbn [g_init_fvalue init_cfg set_g_init_fvalue]. rewrite !orb_true_r. cbn [t_sol s_num n_new cma_num]. rewrite M. cbn [e_pheno const_env]. rewrite Y. cbn [bind call]. reflexivity.
  - repeat split.
Qed.
Lemma init_best v so0 p : s_hist so0 = [] -> best_candidate (cma_num p) (set_s_nevals 1 (set_s_best (cand_of (Fin v) [1]) (set_s_init (cand_of (Fin v) [1]) so0))) = cand_of (Fin v) [1].
Proof. intros H. unfold best_candidate. cbn [s_hist set_s_nevals set_s_best set_s_init]. rewrite H. reflexivity. Qed.
Lemma start_stds p n gp a b : k_fixed (p_k p) = [] -> p_scale p = (fun x => x) -> k_dim (p_k p) = 1%nat -> k_sep (p_k p) = false -> k_vd (p_k p) = false ->
  pheno gp [1] = Ok [a] -> pheno gp [2] = Ok [b] -> stds p gp (new_num p [1] n) = Ok [Rabs (b - a)].
Proof.
  intros F Z D Sp V A B. unfold stds, raw_stds. rewrite V, Sp, D. cbn [negb andb]. unfold tab. cbn [seq map]. rewrite (start_mean _ _ _ F Z D).
  cbn [new_num x_cov]. unfold ident, diag. cbn [Nat.eqb]. rewrite sqrt_1. replace (1 + 1) with 2 by lra. rewrite A, B. reflexivity.
Qed.
(** |f| in the first column: values 1 and -1 give the same line. *)
Lemma same_line : let p := npar_of k1 Full in exists s0 s1 s2,
  st_new (cma_num p) init_cfg [1] num0 = Ok s0 /\
  eval_initial (cma_num p) (const_env 1 (fun x => Ok x)) init_cfg s0 = Ok s1 /\
  eval_initial (cma_num p) (const_env (-1) (fun x => Ok x)) init_cfg s0 = Ok s2 /\
  c_f (best_candidate (cma_num p) (t_sol s1)) = Fin 1 /\ c_f (best_candidate (cma_num p) (t_sol s2)) = Fin (-1) /\
  exists r, plot_row (cma_num p) p gp_default_nb (t_sol s1) = Ok [r] /\ plot_row (cma_num p) p gp_default_nb (t_sol s2) = Ok [r].
Proof.
  intros p. destruct (init_start 1 (fun x => Ok x) [1] eq_refl) as (s0 & s1 & H1 & H2 & _ & E1 & A1 & _ & _ & A3).
  destruct (init_start (-1) (fun x => Ok x) [1] eq_refl) as (s0' & s2 & H1' & H2' & _ & E2 & _). fold p in H1, H2, H1', H2', A3.
  assert (s0' = s0) by (rewrite H1 in H1'; apply Ok_inj in H1'; congruence). subst s0'.
  exists s0, s1, s2. do 3 (split; [assumption|]). rewrite E1, E2. rewrite !init_best by exact A1. split; [reflexivity|]. split; [reflexivity|].
  assert (X : stds p gp_default_nb (new_num p [1] num0) = Ok [Rabs (2 - 1)]) by (apply start_stds; reflexivity).
  eexists. split; unfold plot_row, row_tail, row_head; rewrite init_best by exact A1; cbn [s_num s_nevals set_s_nevals set_s_best set_s_init]; rewrite A3, X; reflexivity.
Qed.
(** The eigenvalue of the first line is 0, the standard deviation 1. *)
Lemma first_line : let p := npar_of k1 Full in exists s0 r, st_new (cma_num p) init_cfg [1] num0 = Ok s0 /\
  cov_of s0 0%nat 0%nat = 1 /\ plot_row (cma_num p) p gp_default_nb (t_sol s0) = Ok [r] /\ nth_error r 4 = Some (CR 0) /\ nth_error r 5 = Some (CR 1).
Proof.
  intros p. destruct (init_start 1 (fun x => Ok x) [1] eq_refl) as (s0 & s1 & H1 & H2 & _ & E1 & A1 & _ & _ & A3). fold p in H1, H2, A3.
  exists s0. eexists. split; [exact H1|]. unfold cov_of. rewrite A3. split; [reflexivity|].
  assert (X : stds p gp_default_nb (new_num p [1] num0) = Ok [Rabs (2 - 1)]) by (apply start_stds; reflexivity).
  replace (Rabs (2 - 1)) with 1 in X by (rewrite Rabs_right; lra).
  split; [unfold plot_row, row_tail; rewrite A3, X; reflexivity|]. split; reflexivity.
Qed.
(** With x = 2 y: the objective is called at 1/2, the best point is written as 1 and the mean as 1/2. *)
Lemma best_point_line : let p := npar_of k1 Full in exists s0 s1 h r, st_new (cma_num p) init_cfg [1] num0 = Ok s0 /\
  eval_initial (cma_num p) (const_env 7 (pheno gp2)) init_cfg s0 = Ok s1 /\ t_log s1 = [([1 / 2], Fin 7)] /\
  full_row (cma_num p) p gp2 0 (t_sol s1) = Ok [h; r] /\ nth_error r 4 = Some (CF (Fin 7)) /\ nth_error r 9 = Some (CR 1) /\ nth_error r 12 = Some (CR (1 / 2)).
Proof.
  intros p. destruct (init_start 7 (pheno gp2) [1 / 2] (gp2_pheno 1)) as (s0 & s1 & H1 & H2 & LG & E1 & A1 & A2 & A4 & A3). fold p in H1, H2, A3.
  destruct (s_cands (t_sol s0)) as [|c0 [|c1 [|c2 l]]] eqn:EC; try discriminate A4.
  exists s0, s1. eexists _, _. split; [exact H1|]. split; [exact H2|]. split; [exact LG|].
  assert (X : stds p gp2 (new_num p [1] num0) = Ok [Rabs (2 / 2 - 1 / 2)]) by (apply start_stds; try reflexivity; apply gp2_pheno).
  split.
  - rewrite E1. unfold full_row, row_tail. cbn [s_cands s_niter s_best s_num c_x c_f cand_of set_s_nevals set_s_best set_s_init]. rewrite A2, A3, X.
    rewrite EC, A4. cbn [at_ Nat.div Nat.divmod fst Z.of_nat Z.ltb Z.compare nth_error Z.to_nat Pos.to_nat bind].
    assert (Q : tab (k_dim (p_k p)) (x_mean (new_num p [1] num0)) = [1]).
    { assert (F : k_fixed (p_k p) = []) by reflexivity. assert (Z : p_scale p = (fun x => x)) by reflexivity. assert (D : k_dim (p_k p) = 1%nat) by reflexivity.
      clearbody p. rewrite D. unfold tab. cbn [seq map]. rewrite (start_mean p 1 num0 F Z D). reflexivity. }
    rewrite Q, gp2_pheno. reflexivity.
  - repeat split.
Qed.

(** A generation of a search with an exact eigensolver. *)
Lemma step_example : let p := npar_eig k24 Full eig2 in exists s0 s1 ls, st_new (cma_num p) (cfg_of k24) [1; 2] num0 = Ok s0 /\
  step (cma_num p) (call_env zig) (cfg_of k24) (t_sol s0) (t_sol s1) /\ symmetric 2 (x_cov (s_num (t_sol s0))) /\
  plot_row (cma_num p) p gp_default_nb (t_sol s1) = Ok ls.
Proof.
  intros p. assert (HL : (2 <= k_lambda (p_k p))%nat) by (cbn; lia). destruct (new_ok p HL [1; 2] num0) as [s0 E0].
  assert (D : k_dim (p_k p) = 2%nat) by reflexivity.
  destruct (round_safe (cma_num p) (call_env zig) (cfg_of k24)) with (s := s0) as (s1 & H1 & _).
  - apply call_env_real.
  - apply (dims_of p); reflexivity.
  - intros x _. cbn. eauto.
  - intros i v [].
  - exact (cfg_room p HL).
  - split; reflexivity.
  - reflexivity.
  - exact (sinv_new _ _ _ _ _ E0).
  - exists s0, s1. eexists. split; [exact E0|]. split; [|split].
    + exists s0, s1. split; [apply but_status_set with (r := s_status (t_sol s0)); destruct (t_sol s0); reflexivity|].
      pose proof (st_new_spec _ _ _ _ _ E0) as Q. split; [|auto]. unfold st_new in E0. apply bind_ok in E0 as (so & E0 & E1). apply sol_new_spec in E0 as (_ & ->). apply Ok_inj in E1. subst s0. cbn. lia.
    + rewrite (start_num _ _ _ _ _ E0). intros i j _ _. cbn [new_num x_cov]. unfold ident, diag. rewrite Nat.eqb_sym. reflexivity.
    + reflexivity.
Qed.
(** A progress function that ends the search at iteration 2. *)
Definition until2 : env Z nat := mkEnv (e_f demo_e) false (e_pheno demo_e) (fun so => if (2 <=? s_niter so)%Z then 1%Z else 0%Z) (e_sort demo_e).
