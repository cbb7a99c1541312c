(** The second evaluations of uncertainty handling. *)
From Coq Require Import Reals List Lia Lra ZArith.
From Verif Require Import Base Dbl Vec VecProofs Params Config Search SpecSearch SearchInv StopProofs EoMatrixProofs GradProofs Update SpecUpdate SpecSample SpecGrad SpecReev.
Import ListNotations.
Local Open Scope R_scope.

Lemma floor_part fl rl : INR fl <= rl < INR fl + 1 -> IZR (Int_part rl) = INR fl.
Proof.
  intros [A B]. rewrite INR_IZR_INZ in *. f_equal. unfold Int_part. rewrite <- (up_tech rl (Z.of_nat fl)); [lia|exact A|]. rewrite plus_IZR. exact B.
Qed.
Lemma skipn_tl {A} r (l : list A) : skipn (S r) l = tl (skipn r l).
Proof. revert l. induction r as [|r IH]; intros [|a l]; try reflexivity. cbn [skipn] in *. apply IH. Qed.
Lemma new_points_from (cols phen : list (list R)) r : (r + length cols <= length phen)%nat -> new_points r cols phen = firstn (length cols) (skipn r phen).
Proof.
  revert r. induction cols as [|x cols IH]; intros r H; [reflexivity|]. cbn [new_points length] in *. rewrite IH by lia. unfold phen_at.
  destruct (skipn r phen) as [|y q] eqn:E; [apply (f_equal (@length _)) in E; rewrite skipn_length in E; cbn in E; lia|].
  destruct phen as [|b phen]; [cbn in H; lia|].
  assert (N : nth_error (b :: phen) r = Some y) by (rewrite <- (firstn_skipn r (b :: phen)), E, nth_error_app2; rewrite firstn_length_le by lia; [rewrite Nat.sub_diag; reflexivity|lia]).
  assert (Q : skipn (S r) (b :: phen) = q). { rewrite skipn_tl, E. reflexivity. }
  cbn [firstn]. rewrite Q. f_equal. apply nth_error_nth. exact N.
Qed.
Lemma new_points_nil (cols : list (list R)) r : new_points r cols [] = cols.
Proof. revert r. induction cols as [|x cols IH]; intros r; [reflexivity|]. cbn [new_points]. rewrite IH. reflexivity. Qed.
Lemma new_points_eq (cols phen : list (list R)) : (phen = [] \/ (length cols <= length phen)%nat) -> new_points 0 cols phen = evaluated cols phen.
Proof.
  intros H. unfold evaluated. destruct phen as [|a phen]; [apply new_points_nil|]. apply new_points_from. destruct H; [discriminate|lia].
Qed.
Section Reev.
Variables (p : npar) (e : env R num) (g : cfg R).
Let k := p_k p.
Let d := k_dim k.
Let rl := k_rlambda k * INR (k_lambda k).
Lemma reev_thm s s1 cols phen : g_uh g = true -> INR (g_reev g) <= rl < INR (g_reev g) + 1 ->
  (phen = [] \/ length phen = length cols) -> eval (cma_num p) e g cols phen s = Ok s1 ->
  exists r ys, reev_count rl (p_unif p (coins s)) r /\ (r <= length cols)%nat /\ length ys = r /\
    new_calls s s1 (evaluated cols phen ++ ys) /\
    (forall c x y, nth_error (evaluated cols phen) c = Some x -> nth_error ys c = Some y ->
       perturbed p (p_epsuh p * sigma_of s) (drawn s + c * d) x y) /\
    drawn s1 = (drawn s + r * d)%nat /\ coins s1 = S (coins s).
Proof.
  intros HU HR HP H. unfold eval in H. rewrite HU in H. apply bind_ok in H as (sa & H1 & H). apply bind_ok in H as (s2 & H2 & H). apply bind_ok in H as (s3 & H3 & H).
  apply Ok_inj in H. change 0%Z with (Z.of_nat 0) in H1. apply eval_cols_spec in H1 as (_ & _ & ->).
  set (sa := set_t_gens _ _) in H2.
  assert (LA : t_log sa = t_log s ++ eval_from e (length (t_log s)) (new_points 0 cols phen)) by reflexivity.
  assert (NA : s_num (t_sol sa) = s_num (t_sol s)) by reflexivity. clearbody sa.
  unfold perform_uh in H2. rewrite NA in H2.
  change (n_coin (cma_num p)) with (coin_num p) in H2. change (n_mutate (cma_num p)) with (mutate_num p) in H2.
  destruct (coin_num p (s_num (t_sol s))) as [coin n1] eqn:EC. cbv zeta in H2.
  set (reev := match (if coin then S (g_reev g) else g_reev g) with O => 1%nat | S _ => _ end) in H2.
  set (src := match phen with [] => cols | _ :: _ => phen end) in H2.
  destruct (Nat.ltb_spec (length src) reev) as [|HL]; [discriminate|].
  destruct (mutate_num p (firstn reev src) n1) as [muts n2] eqn:EM. apply bind_ok in H2 as ([l sb] & HE & H2). cbn [fst snd] in H2. apply Ok_inj in H2.
  apply eval_uh_spec in HE as (ys & LY & -> & _ & _ & HY). cbn [t_sol set_t_sol s_reev set_s_reev t_log] in LY. rewrite Nat.sub_0_r in LY.
  assert (LS : length src = length cols) by (unfold src; destruct HP as [->|HP]; [reflexivity|]; destruct phen; [reflexivity|exact HP]).
  assert (ES : evaluated cols phen = src). { unfold evaluated, src. destruct phen as [|a q]; [reflexivity|]. apply firstn_all2. unfold src in LS. lia. }
  rewrite LS in HL. rewrite Nat.min_r in LY by lia.
  assert (CO : reev_count rl (p_unif p (coins s)) reev).
  { exists (g_reev g). split; [exact HR|]. unfold coin_num in EC. fold k in EC. fold rl in EC. rewrite (floor_part _ _ HR) in EC. injection EC as EC _. unfold coins.
    unfold reev. destruct (Rlt_dec _ _) as [Q|Q] in EC; subst coin.
    - split; [reflexivity|intros; lra].
    - split; [intros; contradiction|]. intros _. destruct (g_reev g); reflexivity. }
  assert (N1 : x_sigma n1 = sigma_of s /\ x_pos n1 = drawn s /\ x_upos n1 = S (coins s)) by (unfold coin_num in EC; injection EC as _ <-; repeat split).
  destruct N1 as (S1 & P1 & U1). exists reev, ys. split; [exact CO|]. split; [exact HL|]. split; [exact LY|].
  assert (LF : length (firstn reev src) = reev) by (rewrite firstn_length; lia).
  unfold mutate_num in EM. fold k d in EM. rewrite LF in EM. injection EM as EM EN.
  assert (F3 : t_log s3 = t_log s2 /\ s_num (t_sol s3) = s_num (t_sol s2)). { apply elitist_spec in H3 as (cs & -> & _). split; reflexivity. }
  destruct F3 as [L3 N3]. split; [|split].
  - rewrite ES. subst s1. unfold new_calls. cbn [t_log set_t_sol update_fevals set_t_nevals]. rewrite L3. subst s2. cbn [t_log set_t_sol set_t_log t_sol]. rewrite LA.
    rewrite new_points_eq, ES by (destruct HP as [->|HP]; [left; reflexivity|right; lia]).
    eexists. rewrite <- app_assoc. split; [reflexivity|]. rewrite map_app. f_equal; apply GradProofs.eval_from_points.
  - intros c x y Hx Hy. rewrite ES in Hx. assert (HC : (c < reev)%nat) by (rewrite <- LY; apply nth_error_Some; congruence).
    specialize (HY c y Hy). cbn [Nat.add] in HY. rewrite <- EM in HY.
    rewrite (map_nth_error _ c (seq 0 reev) (d := c)) in HY; [|rewrite (nth_error_nth' _ 0%nat) by (rewrite seq_length; exact HC); rewrite seq_nth by exact HC; reflexivity].
    injection HY as <-. split; [apply tab_length|]. intros i Hi. rewrite at0_tab by exact Hi. rewrite S1, P1. f_equal. 
    assert (NX : nth c (firstn reev src) [] = x).
    { apply nth_error_nth. rewrite EoMatrixProofs.nth_error_firstn_lt by exact HC. exact Hx. }
    rewrite NX. reflexivity.
  - subst s1. unfold drawn, coins. change (s_num (t_sol (update_fevals _ s3))) with (s_num (t_sol s3)). rewrite N3. subst s2. cbn. rewrite <- EN. cbn. rewrite P1, U1. auto.
Qed.
End Reev.
