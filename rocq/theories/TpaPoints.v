(** The pair of points of two-point adaptation, and its effect. *)
From Coq Require Import Reals List Lia Lra Psatz Permutation ZArith.
From Verif Require Import Base Dbl Vec VecProofs Params SpecParams ParamSound Config Search SpecSearch SpecSafe SpecUh SortProofs SearchInv StopProofs NumInv CounterProofs UhProofs SearchThms2 Update SpecUpdate UpdateProofs UpdateProofs2 Corr CorrProofs PhaseInv ActiveProofs SpecSample SampleProofs SpecTpa TpaProofs.
Import ListNotations.
Local Open Scope R_scope.

(** * Where the pair is *)
Section Pair.
Context {T N : Type} (no : numops T N) (e : env T N) (g : cfg T).
Definition pair_ok (s : st T N) : Prop := (s_tpa1 (t_sol s) = 0 /\ s_tpa2 (t_sol s) = 1)%Z \/ g_gradient g = true.
Lemma pair_keep (s s' : st T N) : s_tpa1 (t_sol s') = s_tpa1 (t_sol s) -> s_tpa2 (t_sol s') = s_tpa2 (t_sol s) -> pair_ok s -> pair_ok s'.
Proof. unfold pair_ok. intros -> ->. auto. Qed.
Lemma pair_ask s pop s' : pair_ok s -> ask no e g s = Ok (pop, s') -> pair_ok s'.
Proof.
  intros HP H. destruct (g_gradient g) eqn:G; [right; exact G|]. destruct HP as [HP|HP]; [|congruence]. left.
  unfold ask in H. destruct (n_sample no (g_lambda g) _) as [pop0 n2]. rewrite G in H. cbn [bind] in H.
  apply bind_ok in H as ([pop3 s3] & E3 & H). apply bind_ok in H as (pop4 & _ & H). apply Ok_inj in H. injection H as _ <-.
  destruct (_ && _)%bool; [|apply Ok_inj in E3; injection E3 as _ <-; exact HP].
  destruct (n_tpa_points no _) as [[x1 x2] n3]. apply bind_ok in E3 as (? & _ & E3). apply bind_ok in E3 as (? & _ & E3). apply Ok_inj in E3. injection E3 as _ <-. exact HP.
Qed.
Lemma pair_eval cols phen s s' : pair_ok s -> eval no e g cols phen s = Ok s' -> pair_ok s'.
Proof. intros HP H. apply eval_spec in H as (_ & _ & _ & _ & _ & T1 & T2 & _). eapply pair_keep; eauto. Qed.
Lemma pair_tell s s' : pair_ok s -> tell no e g s = Ok s' -> pair_ok s'.
Proof.
  intros HP H. apply tell_spec in H as (s1 & s2 & s3 & n4 & R & E2 & E3 & -> & _).
  apply ubc_spec in E3 as [K _]. unfold kept_by_tell in K. injection K as _ _ _ _ _ _ _ _ _ _ _ K3 K4.
  assert (Q : s_tpa1 s1 = s_tpa1 (t_sol s) /\ s_tpa2 s1 = s_tpa2 (t_sol s)).
  { destruct R as [(_ & _ & ->)|(_ & R)]; [split; reflexivity|]. unfold uncertainty_handling in R.
    apply bind_ok in R as (? & _ & R). apply bind_ok in R as (? & _ & R). cbv zeta in R. apply bind_ok in R as (? & _ & R). apply bind_ok in R as (? & _ & R). apply Ok_inj in R. subst s1. split; reflexivity. }
  destruct Q as [Q1 Q2]. eapply pair_keep; [| |exact HP]; cbn [t_sol set_t_sol s_tpa1 s_tpa2 set_s_num].
  - rewrite K3, E2. destruct (_ && _)%bool; exact Q1.
  - rewrite K4, E2. destruct (_ && _)%bool; exact Q2.
Qed.
Lemma pair_stop s b s' : pair_ok s -> stop no e g s = Ok (b, s') -> pair_ok s'.
Proof. intros HP H. apply stop_spec in H as [(_ & -> & _)|(_ & _ & [(_ & _ & ->)|(_ & r & _ & _ & ->)])]; exact HP. Qed.
Lemma pair_new x0 n s : st_new no g x0 n = Ok s -> pair_ok s.
Proof. intros H. apply st_new_spec in H as (_ & so & H & ->). apply sol_new_spec in H as (_ & ->). left. split; reflexivity. Qed.
Lemma pair_ops h : forall s s', pair_ok s -> run_ops no e g h s = Ok s' -> pair_ok s'.
Proof.
  assert (PR : forall rf fuel s r s', pair_ok s -> optimize no e g (round no e g) rf fuel s = Ok (r, s') -> pair_ok s').
  { intros rf fuel s r s'. apply (P_optimize no e g pair_ok (fun _ => True)); auto; clear.
    - intros s pop s'. apply pair_ask.
    - intros s cols phen s1 s2 HP _ H1 H2. change (pair_ok s2). eapply pair_tell; [|eauto]. eapply pair_eval; eauto.
    - intros s b s'. apply pair_stop.
    - intros s s' HP H. apply eval_initial_spec in H as [(_ & ->)|(_ & y & _ & ->)]; exact HP.
    - intros s s' HP H. unfold edm in H. apply bind_ok in H as (x & _ & H). destruct (gradf _ _ _ _ _) as [gr s4] eqn:G. apply Ok_inj in H. subst s'.
      apply gradf_calls in G as (_ & _ & _ & T1 & T2). eapply pair_keep; [exact T1|exact T2|exact HP].
    - intros s s' _ _ H. apply reinit_spec in H as (so & E & ->). apply sol_new_spec in E as (_ & ->). left. split; reflexivity. }
  induction h as [|o h IH]; intros s s' HP H; cbn [run_ops] in H; [apply Ok_inj in H; subst; exact HP|].
  apply bind_ok in H as (s1 & H1 & H). eapply IH; [|exact H]. destruct o; cbn [do_op] in H1.
  - apply bind_ok in H1 as ([pop s2] & H1 & H2). apply Ok_inj in H2. subst s1. eapply pair_ask; eauto.
  - eapply pair_eval; eauto.
  - eapply pair_tell; eauto.
  - apply Ok_inj in H1. subst s1. exact HP.
  - apply bind_ok in H1 as ([b s2] & H1 & H2). apply Ok_inj in H2. subst s1. eapply pair_stop; eauto.
  - apply bind_ok in H1 as (s2 & H1 & H2). apply bind_ok in H2 as (s3 & H2 & H3). apply Ok_inj in H3. subst s1. change (pair_ok s3). eapply pair_tell; [|eauto]. eapply pair_eval; eauto.
  - apply bind_ok in H1 as ([r s2] & H1 & H2). apply Ok_inj in H2. subst s1. eapply PR; eauto.
Qed.
(** Columns of the pair. *)
Lemma ask_pair s pop s' pop0 n2 x1 x2 n3 : ask no e g s = Ok (pop, s') -> n_sample no (g_lambda g) (n_eigen no (t_niter s) (s_num (t_sol s))) = (pop0, n2) ->
  n_tpa_points no n2 = (x1, x2, n3) -> g_tpa g = 2%Z -> (0 < t_niter s)%Z -> pair_ok s ->
  exists a b, nth_error pop (pair_first g) = Some a /\ nth_error pop (S (pair_first g)) = Some b /\
    forall i, ~ is_fixed g i -> nth_error a i = nth_error x1 i /\ nth_error b i = nth_error x2 i.
Proof.
  intros H Es Et HT HI HP. unfold ask in H. rewrite Es in H. apply bind_ok in H as ([pop2 s2] & E2 & H). apply bind_ok in H as ([pop3 s3] & E3 & H). apply bind_ok in H as (pop4 & E4 & H).
  apply Ok_inj in H. injection H as <- <-.
  assert (K2 : t_niter s2 = t_niter s /\ s_num (t_sol s2) = n2 /\ s_tpa1 (t_sol s2) = s_tpa1 (t_sol s) /\ s_tpa2 (t_sol s2) = s_tpa2 (t_sol s)).
  { destruct (g_gradient g) eqn:G; [|apply Ok_inj in E2; injection E2 as <- <-; auto].
    apply bind_ok in E2 as (a & _ & E2). match type of E2 with context [gradf no e g a ?s1] => destruct (gradf no e g a s1) as [gr s2'] eqn:Eg end.
    apply gradf_calls in Eg as ((O1 & _) & _ & O3 & O4 & O5).
    assert (F : t_niter s2' = t_niter s). { unfold keep in O1. injection O1. intros. auto. }
    destruct (n_gradcol no gr _); [apply bind_ok in E2 as (pop' & _ & E2)|]; apply Ok_inj in E2; injection E2 as <- <-; auto. }
  destruct K2 as (KN & KS & K1 & K2). rewrite KN, HT in E3. cbn [Z.eqb Pos.eqb] in E3. destruct (Z.ltb_spec 0 (t_niter s)); [|lia]. cbn [andb] in E3.
  rewrite KS, Et in E3. apply bind_ok in E3 as (pa & E5 & E3). apply bind_ok in E3 as (pb & E6 & E3). apply Ok_inj in E3. injection E3 as <- _.
  assert (Q : exists q : nat, q = pair_first g /\ set_col (Z.of_nat q) x1 pop2 = Ok pa /\ set_col (Z.of_nat (S q)) x2 pa = Ok pb).
  { exists (pair_first g). split; [reflexivity|]. unfold pair_first. destruct (g_gradient g) eqn:G; [split; [exact E5|exact E6]|].
    destruct HP as [[P1 P2]|P]; [|congruence]. cbn [s_tpa1 s_tpa2 set_s_num] in E5, E6. rewrite K1, P1 in E5. rewrite K2, P2 in E6. split; [exact E5|exact E6]. }
  destruct Q as (q & <- & Q1 & Q2). apply set_col_nth in Q1 as (L1 & M1 & A1 & _). apply set_col_nth in Q2 as (L2 & M2 & A2 & B2).
  rewrite Nat2Z.id in A1, A2. rewrite <- B2 in A1 by lia. pose proof (fix_rows_length _ _ _ E4) as L4.
  assert (Z1 : (q < length pop4)%nat /\ (S q < length pop4)%nat) by lia.
  destruct Z1 as [Z1 Z2]. apply nth_error_Some in Z1, Z2. destruct (nth_error pop4 q) as [a|] eqn:Ea; [|congruence]. destruct (nth_error pop4 (S q)) as [b|] eqn:Eb; [|congruence].
  exists a, b. split; [first [reflexivity|exact Ea]|]. split; [first [reflexivity|exact Eb]|]. intros i Hi.
  destruct (fix_rows_nth _ _ _ E4 _ _ Ea) as (ya & Ya & Fa). destruct (fix_rows_nth _ _ _ E4 _ _ Eb) as (yb & Yb & Fb).
  rewrite A1 in Ya. rewrite A2 in Yb. injection Ya as <-. injection Yb as <-.
  split; [apply Fa|apply Fb]; intros v Hv; apply Hi; exists v; exact Hv.
Qed.
End Pair.

(** * The mean before the last iteration *)
Section Prev.
Variable p : npar.
Lemma gen_prev e g cols phen s s' : p_upd p = Active \/ k_tpa (p_k p) <> 0%Z -> run_ops (cma_num p) e g [OGen cols phen] s = Ok s' ->
  x_prev (s_num (t_sol s')) = mean_of s.
Proof.
  intros HU H. cbn [run_ops do_op] in H. apply bind_ok in H as (s1' & H & H'). apply Ok_inj in H'. subst s1'.
  apply bind_ok in H as (s1 & H1 & H). apply bind_ok in H as (s2 & H2 & H). apply Ok_inj in H. subst s'. change (x_prev (s_num (t_sol s2)) = mean_of s).
  assert (M1 : x_mean (s_num (t_sol s1)) = mean_of s) by (apply (eval_num (cma_num p) e g (fun n => x_mean n = mean_of s)) in H1; auto).
  unfold tell in H2. apply bind_ok in H2 as (so1 & R & H2). apply bind_ok in H2 as (so3 & E3 & H2). apply Ok_inj in H2. subst s2.
  apply ubc_spec in E3 as [K _]. unfold kept_by_tell in K. injection K as _ _ _ _ _ _ _ K2 _ _ _ _ _.
  assert (N1 : s_num so1 = s_num (t_sol s1)).
  { destruct (g_uh g); [|unfold sort_candidates in R; destruct (compares_ok _); [apply Ok_inj in R; subst; reflexivity|discriminate]].
    unfold uncertainty_handling in R. apply bind_ok in R as (? & _ & R). apply bind_ok in R as (? & _ & R). cbv zeta in R. apply bind_ok in R as (? & _ & R). apply bind_ok in R as (? & _ & R). apply Ok_inj in R. subst so1. reflexivity. }
  assert (M3 : x_mean (s_num so3) = mean_of s). { rewrite K2. destruct (_ && _)%bool; cbn; rewrite N1; exact M1. }
  cbn [t_sol set_t_sol]. 
  assert (U : x_prev (update_num p (s_niter so3) (map c_x (s_cands so3)) (s_num so3)) = mean_of s).
  { unfold update_num. cbn [x_prev]. destruct HU as [HU|HU]; [rewrite HU; exact M3|]. destruct (Z.eqb_spec (k_tpa (p_k p)) 0); [contradiction|]. destruct (p_upd p); exact M3. }
  match goal with |- context [if ?b then set_s_num _ _ else _] => destruct b end; cbn [s_num set_s_num]; exact U.
Qed.
End Prev.

(** * Distances *)
Lemma mahal_diag n a dec z : diagonalises n a dec -> pos_def n a ->
  mahalanobis2 n a z (dot n (fun l => mv n (mt (snd dec)) z l / sqrt (fst dec l)) (fun l => mv n (mt (snd dec)) z l / sqrt (fst dec l))).
Proof.
  intros HD HP. set (ev := fst dec). set (v := snd dec).
  assert (PE : forall l, (l < n)%nat -> 0 < ev l) by (intros; apply (diag_ev_pos n a dec HD); auto).
  exists (fun i => rsum n (fun l => v i l * (tr n v z l / ev l))).
  assert (TS : forall m, (m < n)%nat -> tr n v (fun i => rsum n (fun l => v i l * (tr n v z l / ev l))) m = tr n v z m / ev m) by (intros; apply (tr_synth n a dec HD (fun l => tr n v z l / ev l)); auto).
  split.
  - intros i Hi. rewrite <- (synth n a dec HD z i Hi). fold v. unfold mv at 1.
    destruct HD as (_ & _ & E). set (u := fun i => rsum n (fun l => v i l * (tr n v z l / ev l))) in *.
    rewrite (rsum_ext n _ (fun j => rsum n (fun l => v i l * ev l * (v j l * u j)))).
    + rewrite rsum_swap. apply rsum_ext. intros l Hl. rewrite rsum_scal. change (rsum n (fun j => v j l * u j)) with (tr n v u l). rewrite (TS l Hl). pose proof (PE l Hl). field. lra.
    + intros j Hj. rewrite E by auto. symmetry. etransitivity; [|apply (rsum_scal_r n (u j) (fun l => snd dec i l * fst dec l * snd dec j l))]. apply rsum_ext. intros l _. unfold ev, v. ring.
  - transitivity (rsum n (fun l => tr n v z l * (tr n v z l / ev l))).
    + unfold dot. rewrite (rsum_ext n _ (fun i => rsum n (fun l => v i l * z i * (tr n v z l / ev l)))) by (intros; rewrite <- rsum_scal; apply rsum_ext; intros; ring).
      rewrite rsum_swap. apply rsum_ext. intros l _. rewrite rsum_scal_r. reflexivity.
    + unfold dot. apply rsum_ext. intros l Hl. change (mv n (mt v) z l) with (tr n v z l). pose proof (PE l Hl) as P.
      assert (S : sqrt (ev l) * sqrt (ev l) = ev l) by (apply sqrt_sqrt; lra). assert (0 < sqrt (ev l)) by (apply sqrt_lt_R0; exact P).
      rewrite <- S at 1. field. lra.
Qed.
Lemma mahal_sep n v z : (forall i, (i < n)%nat -> 0 < v i) ->
  mahalanobis2 n (diag v) z (dot n (fun l => z l / sqrt (v l)) (fun l => z l / sqrt (v l))).
Proof.
  intros HP. exists (fun i => z i / v i). split.
  - intros i Hi. unfold mv, diag. rewrite (rsum_single n _ i Hi); [rewrite Nat.eqb_refl; pose proof (HP i Hi); field; lra|]. intros j _ Hj. destruct (Nat.eqb_spec i j); [congruence|ring].
  - unfold dot. apply rsum_ext. intros l Hl. pose proof (HP l Hl) as P. assert (S : sqrt (v l) * sqrt (v l) = v l) by (apply sqrt_sqrt; lra). assert (0 < sqrt (v l)) by (apply sqrt_lt_R0; exact P).
    rewrite <- S at 1. field. lra.
Qed.
Lemma mahal_scal n a z q t : mahalanobis2 n a z q -> mahalanobis2 n a (fun i => t * z i) (t * t * q).
Proof.
  intros (u & A & B). exists (fun i => t * u i). split.
  - intros i Hi. rewrite <- A by exact Hi. unfold mv. rewrite <- rsum_scal. apply rsum_ext. intros; ring.
  - rewrite <- B. unfold dot. rewrite <- rsum_scal. apply rsum_ext. intros; ring.
Qed.
Lemma mahal_pos n a z q : pos_def n a -> mahalanobis2 n a z q -> (exists i, (i < n)%nat /\ z i <> 0) -> 0 < q.
Proof.
  intros P (u & A & B) (i & Hi & Hz). assert (Q : quad n a u = q). { rewrite <- B. unfold quad. rewrite dot_comm. apply dot_ext; auto. }
  rewrite <- Q. apply P. destruct (Exists_dec (fun j => u j <> 0) (seq 0 n)) as [X|X].
  { intros j. destruct (Req_EM_T (u j) 0); [right|left]; auto. }
  - apply Exists_exists in X as (j & Hj & X). apply in_seq in Hj. exists j. split; [lia|exact X].
  - exfalso. apply Hz. rewrite <- A by exact Hi. unfold mv. rewrite (rsum_ext n _ (fun _ => 0)); [apply rsum_0|]. intros j Hj.
    destruct (Req_EM_T (u j) 0) as [->|D]; [ring|]. exfalso. apply X, Exists_exists. exists j. split; [apply in_seq; lia|exact D].
Qed.

Section Points.
Variable p : npar.
Let k := p_k p.
Let d := k_dim k.
Lemma pair_points e g cols phen prev s pop s' : p_upd p = Active \/ k_tpa k <> 0%Z -> k_vd k = false -> g_tpa g = 2%Z -> same_problem p g ->
  run_ops (cma_num p) e g [OGen cols phen] prev = Ok s -> (0 < t_niter s)%Z -> pair_ok g s ->
  (k_sep k = false -> p_lazy p = false /\ eigensolver_ok p /\ symmetric d (cov_of s)) ->
  pos_def d (full_cov p (s_num (t_sol s))) -> 0 < sigma_of s -> (exists i, (i < d)%nat /\ mean_of s i <> mean_of prev i) ->
  ask (cma_num p) e g s = Ok (pop, s') ->
  mirrored_pair p g prev s pop (fun i => p_normal p (drawn s + k_lambda k * d + i)%nat).
Proof.
  intros HU HV HT (G1 & G2 & G3) HG HI HP HF PD SP MV H.
  pose proof (gen_prev p e g cols phen prev s HU HG) as PV.
  set (n1 := eigen_num p (t_niter s) (s_num (t_sol s))).
  assert (E1 : x_mean n1 = mean_of s /\ x_prev n1 = mean_of prev /\ x_sigma n1 = sigma_of s /\ x_sep n1 = variances_of s /\ x_pos n1 = drawn s).
  { rewrite <- PV. unfold n1, eigen_num. destruct (_ || _)%bool; [repeat split; reflexivity|]. destruct (_ || _ || _)%bool; repeat split; reflexivity. }
  destruct E1 as (EM & EP & ES & EV & EX).
  set (n2 := with_pos n1 (x_pos n1 + g_lambda g * d)%nat (x_upos n1)).
  assert (Es : exists pop0, n_sample (cma_num p) (g_lambda g) (n_eigen (cma_num p) (t_niter s) (s_num (t_sol s))) = (pop0, n2)) by (eexists; reflexivity).
  destruct Es as [pop0 Es].
  destruct (ask_pair (cma_num p) e g s pop s' pop0 n2 _ _ _ H Es eq_refl HT HI HP) as (a & b & A & B & Q).
  set (ms := fun i => mean_of s i - mean_of prev i).
  set (r := fun i => p_normal p (drawn s + k_lambda k * d + i)%nat).
  set (sn := shift_norm p n2) in *.
  assert (MH : mahalanobis2 d (full_cov p (s_num (t_sol s))) ms (sigma_of s * sn * (sigma_of s * sn)) /\ 0 <= sn).
  { set (y := if k_sep k then fun i => ms i / sqrt (variances_of s i) else fun l => mv d (mt (snd (x_dec n1))) ms l / sqrt (fst (x_dec n1) l)).
    assert (SN : sn = norm d y / sigma_of s).
    { unfold sn, shift_norm. fold k d. rewrite HV. unfold n2. cbn [with_pos x_mean x_prev x_sep x_dec x_sigma]. rewrite EM, EP, ES, EV. unfold y. destruct (k_sep k); reflexivity. }
    assert (NN : sigma_of s * sn * (sigma_of s * sn) = dot d y y).
    { rewrite SN. replace (sigma_of s * (norm d y / sigma_of s)) with (norm d y) by (field; lra). unfold norm. apply sqrt_sqrt, dot_self_nonneg. }
    split; [rewrite NN|rewrite SN; apply Rmult_le_pos; [apply norm_nonneg|left; apply Rinv_0_lt_compat, SP]].
    unfold y. unfold full_cov in PD |- *. fold k in PD |- *. rewrite HV in PD |- *. destruct (k_sep k) eqn:KS; cbn [orb negb] in *.
    - apply mahal_sep. intros i Hi. pose (b1 := fun j => if Nat.eqb i j then 1 else 0).
      assert (QB : quad d (diag (x_sep (s_num (t_sol s)))) b1 = x_sep (s_num (t_sol s)) i).
      { unfold quad, dot, mv, diag. rewrite (rsum_single d _ i Hi).
        - rewrite (rsum_single d _ i Hi); [unfold b1; rewrite Nat.eqb_refl; ring|]. intros j _ Hj. destruct (Nat.eqb_spec i j); [congruence|ring].
        - intros j _ Hj. unfold b1 at 1. destruct (Nat.eqb_spec i j); [congruence|ring]. }
      unfold variances_of. rewrite <- QB. apply PD. exists i. split; [exact Hi|]. unfold b1. rewrite Nat.eqb_refl. lra.
    - destruct (HF eq_refl) as (L & EO & SY).
      assert (DE : x_dec n1 = p_eig p (mtab d (x_cov (s_num (t_sol s))))). { unfold n1, eigen_num. fold k d. rewrite KS, HV, L. cbn [orb negb]. rewrite orb_true_r. reflexivity. }
      rewrite DE. apply mahal_diag; [apply EO, SY|exact PD]. }
  destruct MH as [MH SN0].
  assert (SNP : 0 < sn).
  { destruct SN0 as [L|L]; [exact L|exfalso]. rewrite <- L in MH. apply (mahal_pos d _ ms _ PD) in MH; [lra|]. destruct MV as (i & Hi & Hm). exists i. split; [exact Hi|]. unfold ms. intros X. apply Hm. lra. }
  exists a, b, (norm d r / sn). cbv zeta. fold k d ms. split; [exact A|]. split; [exact B|]. split.
  { apply Rmult_le_pos; [apply norm_nonneg|left; apply Rinv_0_lt_compat, SNP]. }
  split.
  - intros i Hi Hf. destruct (Q i Hf) as [-> ->].
    assert (TE : forall v, nth_error (tab d v) i = Some (v i)). { intros v. rewrite (nth_error_nth' _ 0) by (rewrite tab_length; exact Hi). f_equal. apply (at0_tab d v i Hi). }
    unfold n2 in Q |- *. fold k d. rewrite !TE. cbn [with_pos x_mean x_prev x_pos]. fold n2. fold sn. rewrite EM, EP, EX, G2. fold k d.
    change (fun j => p_normal p (drawn s + k_lambda k * d + j)%nat) with r. change (mean_of s i - mean_of prev i) with (ms i).
    split; f_equal; field; lra.
  - pose proof (mahal_scal _ _ _ _ (norm d r / sn) MH) as MS. replace (norm d r / sn * (norm d r / sn) * (sigma_of s * sn * (sigma_of s * sn))) with (sigma_of s * sigma_of s * (norm d r * norm d r)) in MS by (field; lra).
    unfold norm in MS at 2 3. rewrite sqrt_sqrt in MS by apply dot_self_nonneg. exact MS.
Qed.
End Points.

(** * The effect on the step size *)
Lemma find_id_nth {T} id (l : list (cand T)) : forall i, In id (map c_id l) -> exists r c, find_id id i l = (i + Z.of_nat r)%Z /\ nth_error l r = Some c /\ c_id c = id.
Proof.
  induction l as [|c l IH]; intros i H; [destruct H|]. cbn [find_id]. destruct (Z.eqb_spec (c_id c) id) as [E|E].
  - exists 0%nat, c. split; [lia|]. split; [reflexivity|exact E].
  - destruct H as [H|H]; [contradiction|]. destruct (IH (i + 1)%Z H) as (r & c' & A & B & C). exists (S r), c'. split; [lia|]. split; [exact B|exact C].
Qed.
Lemma ask_ids {T N} (no : numops T N) e g s pop s' : ask no e g s = Ok (pop, s') -> g_tpa g = 2%Z -> (0 < t_niter s)%Z -> pair_ok g s ->
  s_tpa1 (t_sol s') = Z.of_nat (pair_first g) /\ s_tpa2 (t_sol s') = Z.of_nat (S (pair_first g)).
Proof.
  intros H HT HI HP. pose proof (pair_ask no e g s pop s' HP H) as HP'. unfold pair_first. destruct (g_gradient g) eqn:G; [|destruct HP' as [[-> ->]|]; [split; reflexivity|congruence]].
  unfold ask in H. destruct (n_sample no (g_lambda g) _) as [pop0 n2]. rewrite G in H. apply bind_ok in H as ([pop2 s2] & E2 & H).
  assert (KN : t_niter s2 = t_niter s).
  { apply bind_ok in E2 as (a & _ & E2). match type of E2 with context [gradf no e g a ?s1] => destruct (gradf no e g a s1) as [gr s2'] eqn:Eg end.
    apply gradf_calls in Eg as ((O1 & _) & _ & O3 & O4 & O5).
    assert (F : t_niter s2' = t_niter s). { unfold keep in O1. injection O1. intros. auto. }
    destruct (n_gradcol no gr _); [apply bind_ok in E2 as (pop' & _ & E2)|]; apply Ok_inj in E2; injection E2 as <- <-; auto. }
  apply bind_ok in H as ([pop3 s3] & E3 & H). apply bind_ok in H as (pop4 & _ & H). apply Ok_inj in H. injection H as _ <-.
  rewrite KN, HT in E3. cbn [Z.eqb Pos.eqb] in E3. destruct (Z.ltb_spec 0 (t_niter s)); [|lia]. cbn [andb] in E3.
  destruct (n_tpa_points no _) as [[x1 x2] n3]. apply bind_ok in E3 as (? & _ & E3). apply bind_ok in E3 as (? & _ & E3). apply Ok_inj in E3. injection E3 as _ <-. split; reflexivity.
Qed.
Lemma new_gen_pair {T N} (e : env T N) cols phen old : forall r k c, In c (new_gen e r k cols phen old) -> exists i, c_id c = Z.of_nat (r + i) /\ nth_error cols i = Some (c_x c).
Proof.
  induction cols as [|x cols IH]; intros r k c H; [destruct H|]. destruct H as [<-|H].
  - exists 0%nat. cbn. split; [f_equal; lia|reflexivity].
  - destruct (IH _ _ _ H) as (i & A & B). exists (S i). split; [rewrite A; f_equal; lia|exact B].
Qed.
Section Effect.
Variable p : npar.
Let k := p_k p.
Lemma gen_step e g cols phen s s' q : no_elitism g -> g_uh g = false -> g_tpa g = 2%Z -> k_tpa k = 2%Z ->
  length (s_cands (t_sol s)) = length cols -> (S q < length cols)%nat -> (0 < t_niter s)%Z -> t_niter s = s_niter (t_sol s) ->
  s_tpa1 (t_sol s) = Z.of_nat q -> s_tpa2 (t_sol s) = Z.of_nat (S q) -> run_ops (cma_num p) e g [OGen cols phen] s = Ok s' ->
  exists r1 r2, ranked_at s' cols q r1 /\ ranked_at s' cols (S q) r2 /\
    path_of s' = (1 - p_tpac p) * path_of s + p_tpac p * (INR r2 - INR r1) / (INR (k_lambda k) - 1) /\
    sigma_of s' = sigma_of s * exp (path_of s' / k_dsigma k).
Proof.
  intros HE HU HT KT HL HQ HI HN T1 T2 H. cbn [run_ops do_op] in H. apply bind_ok in H as (s1' & H & H'). apply Ok_inj in H'. subst s1'.
  apply bind_ok in H as (s1 & H1 & H). apply bind_ok in H as (s2 & H2 & H). apply Ok_inj in H.
  apply eval_spec in H1 as (_ & _ & K & _ & _ & U1 & U2 & N & _ & C & _). specialize (N HU). apply keep_iter in K as [KN KT'].
  assert (EL : s_cands (t_sol s1) = new_gen e 0 (length (t_log s)) cols phen (s_cands (t_sol s))).
  { destruct C as [[C _]|(C & _)]; [|unfold elit_on in C; rewrite HE in C; cbn in C; rewrite !andb_false_r in C; discriminate].
    rewrite C. unfold mid_cands. rewrite skipn_all2 by lia. apply app_nil_r. }
  apply tell_spec in H2 as (so1 & so2 & so3 & n4 & R & E2 & E3 & E4 & Q). specialize (Q HU). destruct R as [(_ & _ & R)|(R & _)]; [|congruence].
  rewrite HT, KT' in E2. cbn [Z.eqb Pos.eqb] in E2. destruct (Z.ltb_spec 0 (t_niter s)) as [_|]; [|lia]. cbn [andb] in E2.
  apply ubc_spec in E3 as [KK _]. unfold kept_by_tell in KK. injection KK as K1 _ K2 _ _ _ _ K3 _ _ _ _ _.
  assert (CS : s_cands (t_sol s') = sort_cands (s_cands (t_sol s1))) by (rewrite <- H, E4; cbn; rewrite K1, E2, R; reflexivity).
  assert (IDS : Permutation (map c_id (sort_cands (s_cands (t_sol s1)))) (map Z.of_nat (seq 0 (length cols)))).
  { rewrite <- (new_gen_id e 0 (length (t_log s)) cols phen (s_cands (t_sol s))), <- EL. apply Permutation_map, sort_perm. }
  assert (IN : forall i, (i < length cols)%nat -> In (Z.of_nat i) (map c_id (sort_cands (s_cands (t_sol s1))))).
  { intros i Hi. eapply Permutation_in; [apply Permutation_sym, IDS|]. apply in_map, in_seq. lia. }
  assert (PT : forall i r c, nth_error (sort_cands (s_cands (t_sol s1))) r = Some c -> c_id c = Z.of_nat i -> ranked_at s' cols i r).
  { intros i r c Hc Hi. exists c. rewrite CS. split; [exact Hc|]. split; [exact Hi|].
    apply nth_error_In in Hc. apply (Permutation_in _ (sort_perm _)) in Hc. rewrite EL in Hc. apply new_gen_pair in Hc as (j & A & B). replace i with j by lia. exact B. }
  destruct (find_id_nth (Z.of_nat q) _ 0%Z (IN q ltac:(lia))) as (r1 & c1 & A1 & B1 & D1).
  destruct (find_id_nth (Z.of_nat (S q)) _ 0%Z (IN (S q) HQ)) as (r2 & c2 & A2 & B2 & D2).
  exists r1, r2. split; [eapply PT; eauto|]. split; [eapply PT; eauto|].
  assert (RD : tpa_rank_diff so1 = (Z.of_nat r2 - Z.of_nat r1)%Z).
  { unfold tpa_rank_diff. rewrite R. cbn [s_tpa1 s_tpa2 s_cands set_s_cands]. rewrite U1, U2, T1, T2, A1, A2. lia. }
  assert (NN : s_num (t_sol s') = update_num p (s_niter (t_sol s)) (map c_x (s_cands so3)) (tpa_num p (Z.of_nat r2 - Z.of_nat r1) (s_num (t_sol s)))).
  { rewrite <- H, E4. change (n4 = update_num p (s_niter (t_sol s)) (map c_x (s_cands so3)) (tpa_num p (Z.of_nat r2 - Z.of_nat r1) (s_num (t_sol s)))).
    rewrite Q, K2, K3, E2. cbn [tpa_update s_num set_s_num s_niter]. rewrite RD. rewrite R. cbn [s_num set_s_cands s_niter]. rewrite KN, N. reflexivity. }
  unfold path_of, sigma_of. rewrite NN. cbn [x_tpas x_sigma update_num tpa_num with_tpas]. fold k. split.
  - rewrite minus_IZR, <- !INR_IZR_INZ. reflexivity.
  - unfold new_sigma. fold k. rewrite KT. cbn [Z.ltb Z.compare Pos.compare Pos.compare_cont]. destruct (Z.ltb_spec 0 (s_niter (t_sol s))); [|lia]. reflexivity.
Qed.
End Effect.
