(** Index safety and absence of faults. *)
From Coq Require Import Permutation.
From Verif Require Import Base Dbl DblProofs Config Search SpecSearch SpecStop SpecSafe SortProofs SearchInv CounterProofs HistProofs StopProofs.
Local Open Scope Z_scope.

Definition isreal (v : dbl) : Prop := finite_dbl v.
Lemma isreal_nn v : isreal v -> v <> NaN. Proof. apply finite_nn. Qed.
Lemma finite_half a b : finite_dbl a -> finite_dbl b -> finite_dbl (dhalf (dadd a b)).
Proof.
  intros A B. destruct (finite_Fin a A) as [x ->]. destruct (finite_Fin b B) as [y ->].
  destruct A as [A1 A2], B as [B1 B2]. unfold dbl_max in *. cbn [dneg dadd dhalf] in *. pose proof (proj1 (dle_fin _ _) A1) as A1'. pose proof (proj1 (dle_fin _ _) A2) as A2'. pose proof (proj1 (dle_fin _ _) B1) as B1'. pose proof (proj1 (dle_fin _ _) B2) as B2'. clear A1 A2 B1 B2.
  split; unfold dbl_max; cbn [dneg]; apply dle_fin; generalize dependent ((2 ^ 53 - 1) * 2 ^ 2045); intros M; intros.
  - apply Z.div_le_upper_bound; lia.
  - apply Z.div_le_lower_bound; lia.
Qed.
Lemma upd_at_def {A} (l : list A) i a : 0 <= i < Z.of_nat (length l) -> exists l', upd_at l i a = Ok l'.
Proof.
  intros H. unfold upd_at. destruct (Z.ltb_spec i 0); [lia|]. destruct (Z.leb_spec (Z.of_nat (length l)) i); [lia|]. cbn; eauto.
Qed.
Lemma at_def {A} (l : list A) i : 0 <= i < Z.of_nat (length l) -> exists a, at_ l i = Ok a.
Proof. intros H. destruct (at_in l i) as (a & E & _); [auto|eauto]. Qed.
Lemma upd_at_forall {A} (P : A -> Prop) l i a l' : upd_at l i a = Ok l' -> P a -> Forall P l -> Forall P l'.
Proof.
  intros H Ha Hl. unfold upd_at in H. destruct (_ || _); [discriminate|]. injection H as <-.
  apply Forall_app. rewrite <- (firstn_skipn (Z.to_nat i) l) in Hl at 1.
  rewrite <- (firstn_skipn (S (Z.to_nat i)) l) in Hl.
  pose proof Hl as Hl'. 
  assert (Hf : forall x, In x (firstn (Z.to_nat i) l) \/ In x (skipn (S (Z.to_nat i)) l) -> In x l).
  { intros x [Hx|Hx]; [rewrite <- (firstn_skipn (Z.to_nat i) l)|rewrite <- (firstn_skipn (S (Z.to_nat i)) l)]; apply in_app_iff; auto. }
  rewrite !firstn_skipn in Hl. rewrite Forall_forall in Hl.
  split; [|constructor; auto]; apply Forall_forall; intros x Hx; apply Hl; auto.
Qed.

Section Safe.
Context {T N : Type}.
Variable no : numops T N.
Variable e : env T N.
Variable g : cfg T.
Notation st := (st T N).
Implicit Types (s : st).
Hypothesis HV : real_values e.
Hypothesis HD : dims_ok no g.
Hypothesis HP : pheno_total e g.
Hypothesis HF : fixed_in_range g.
Hypothesis HR : room g.
Hypothesis HE : elitism_le1 g.
Hypothesis HU : g_uh g = false.

Definition pop_ok (pop : list (list T)) := length pop = g_lambda g /\ Forall (fun x => length x = g_dim g) pop.

Definition sinv s : Prop :=
  length (s_cands (t_sol s)) = g_lambda g /\ s_kcand (t_sol s) = kth g /\ s_maxhist (t_sol s) = hist_len g /\
  length (s_khist (t_sol s)) = length (s_hist (t_sol s)) /\
  Forall (fun c => isreal (c_f c)) (s_hist (t_sol s)) /\ Forall isreal (s_bf (t_sol s)) /\ Forall isreal (s_med (t_sol s)) /\
  ((s_tpa1 (t_sol s) = 0 /\ s_tpa2 (t_sol s) = 1) \/ (g_gradient g = true /\ s_tpa1 (t_sol s) = 1 /\ s_tpa2 (t_sol s) = 2)) /\
  t_niter s = s_niter (t_sol s) /\ 0 <= t_niter s /\ t_initel s = false /\
  ((s_niter (t_sol s) = 0 /\ s_best (t_sol s) = cand0) \/ isreal (c_f (s_best (t_sol s)))).

Lemma kth_range : 0 <= kth g < Z.of_nat (g_lambda g).
Proof.
  destruct HR as [HR1 _]. unfold kth, cdiv. split; [|lia].
  apply Z.min_glb; [lia|].
  assert (- (2 + 5 * Z.of_nat (g_lambda g)) / 20 <= 0); [|lia].
  apply Z.div_le_upper_bound; lia.
Qed.

Lemma sinv_new x0 n s : st_new no g x0 n = Ok s -> sinv s.
Proof.
  intros H. apply st_new_spec in H as (Hl & so & H & ->). apply sol_new_spec in H as (_ & ->).
  unfold sinv; cbn. rewrite repeat_length. repeat (split; auto); lia.
Qed.

Lemma fix_rows_safe fx : (forall i v, In (i, v) fx -> 0 <= i < Z.of_nat (g_dim g)) -> forall pop, pop_ok pop ->
  exists pop', fix_rows fx pop = Ok pop' /\ pop_ok pop'.
Proof.
  induction fx as [|[i v] fx IH]; intros Hi pop Hp; cbn [fix_rows]; [eauto|].
  assert (S : exists p, set_row i v pop = Ok p /\ pop_ok p).
  { destruct Hp as [Hp1 Hp2]. assert (0 <= i < Z.of_nat (g_dim g)) by (eapply Hi; left; eauto).
    unfold set_row, pop_ok. rewrite <- Hp1. clear Hp1. induction Hp2 as [|x l Hx Hl IHl]; cbn [mapM]; [exists []; split; auto|].
    destruct (upd_at_def x i v) as [x' Ex]; [lia|]. rewrite Ex. cbn.
    destruct IHl as (p & -> & L & F). cbn. exists (x' :: p). split; auto. split; [cbn; lia|].
    constructor; auto. apply upd_at_length in Ex. lia. }
  destruct S as (p & -> & Hp'). cbn. apply IH; auto. intros j w Hj. eapply Hi. right; eauto.
Qed.

Lemma ask_safe s : sinv s -> exists pop s', ask no e g s = Ok (pop, s') /\ pop_ok pop /\ sinv s'.
Proof.
  intros H. destruct HD as (D1 & D2 & D3 & D4 & D5). destruct HR as [R1 R2].
  unfold ask. destruct (n_sample no (g_lambda g) (n_eigen no (t_niter s) (s_num (t_sol s)))) as [pop n2] eqn:Es.
  assert (P1 : pop_ok pop).
  { split; [replace pop with (fst (n_sample no (g_lambda g) (n_eigen no (t_niter s) (s_num (t_sol s))))) by (rewrite Es; auto); apply D1|].
    apply Forall_forall. intros x Hx. apply (D2 (g_lambda g) (n_eigen no (t_niter s) (s_num (t_sol s)))). rewrite Es. auto. }
  cbv zeta. set (s1 := set_t_sol (set_s_num n2 (t_sol s)) s).
  assert (I1 : sinv s1) by exact H.
  match goal with |- context [bind ?m (fun _ => let (_, _) := _ in _)] => set (p2 := m) end.
  assert (P2 : exists pop2 s2, p2 = Ok (pop2, s2) /\ pop_ok pop2 /\ sinv s2).
  { unfold p2. destruct (g_gradient g) eqn:Eg; [|eauto].
    destruct (HP (n_xmean no (s_num (t_sol s1))) (D3 _)) as [x ->]. cbn [bind].
    destruct (gradf no e g x s1) as [gr s2] eqn:Egr.
    assert (I2 : sinv s2).
    { apply gradf_calls in Egr as ((K & _ & C & _) & _ & _ & T1 & T2). unfold keep in K.
      injection K as K1 K2 K3 K4 K5 K6 K7 K8 K9 K10 K11 K12 K13 K14 K15.
      unfold sinv. rewrite C, K1, K2, K3, K4, K5, K9, K10, K11, K13, K14, T1, T2. exact I1. }
    destruct (n_gradcol no gr (s_num (t_sol s2))) as [nx|] eqn:En; [|eauto].
    destruct (upd_at_def pop 0 nx) as [pop' Ep]; [destruct P1; lia|]. unfold set_col. rewrite Ep. cbn.
    exists pop', s2. split; auto. split; auto. split; [apply upd_at_length in Ep; destruct P1; lia|].
    eapply upd_at_forall; [exact Ep|cbn; eauto|apply P1]. }
  destruct P2 as (pop2 & s2 & -> & P2 & I2). cbn [bind].
  match goal with |- context [bind ?m (fun _ => let (_, _) := _ in _)] => set (p3 := m) end.
  assert (P3 : exists pop3 s3, p3 = Ok (pop3, s3) /\ pop_ok pop3 /\ sinv s3).
  { unfold p3. destruct (g_tpa g =? 2) eqn:Et; cbn [andb]; [|eauto]. destruct (0 <? t_niter s2); [|eauto].
    apply Z.eqb_eq in Et. specialize (D5 (s_num (t_sol s2))).
    destruct (n_tpa_points no (s_num (t_sol s2))) as [[x1 x2] n3]. destruct D5 as [L1 L2].
    cbv zeta. set (so := if g_gradient g then _ else _).
    assert (B : 0 <= s_tpa1 so < Z.of_nat (g_lambda g) /\ 0 <= s_tpa2 so < Z.of_nat (g_lambda g)).
    { unfold so. destruct (g_gradient g) eqn:Eg; cbn; [specialize (R2 eq_refl Et); lia|].
      destruct I2 as (_ & _ & _ & _ & _ & _ & _ & [I2|(I2 & _)] & _); [lia|congruence]. }
    assert (I3 : sinv (set_t_sol so s2)).
    { unfold so. destruct (g_gradient g) eqn:Eg; [|exact I2].
      destruct I2 as (A1 & A2 & A3 & A4 & A5 & A6 & A7 & A8 & A9).
      split; [exact A1|]. split; [exact A2|]. split; [exact A3|]. split; [exact A4|]. split; [exact A5|]. split; [exact A6|]. split; [exact A7|].
      split; [right; auto|exact A9]. }
    destruct P2 as [P21 P22]. unfold set_col.
    destruct (upd_at_def pop2 (s_tpa1 so) x1) as [pa Ea]; [lia|]. rewrite Ea. cbn [bind].
    assert (La : length pa = g_lambda g) by (apply upd_at_length in Ea; lia).
    destruct (upd_at_def pa (s_tpa2 so) x2) as [pb Eb]; [lia|]. rewrite Eb. cbn [bind].
    exists pb, (set_t_sol so s2). split; auto. split; auto. split; [apply upd_at_length in Eb; lia|].
    eapply upd_at_forall; [exact Eb|auto|]. eapply upd_at_forall; [exact Ea|auto|auto]. }
  destruct P3 as (pop3 & s3 & -> & P3 & I3). cbn [bind].
  destruct (fix_rows_safe (g_fixed g) HF pop3 P3) as (pop4 & -> & P4). cbn. eauto.
Qed.

Lemma eval_cols_safe cols : forall r phen s, 0 <= r -> r + Z.of_nat (length cols) <= Z.of_nat (length (s_cands (t_sol s))) ->
  (phen = [] \/ r + Z.of_nat (length cols) <= Z.of_nat (length phen)) -> exists s', eval_cols e r cols phen s = Ok s'.
Proof.
  induction cols as [|x cols IH]; intros r phen s Hr Hl Hp; cbn [eval_cols length] in *; [eauto|].
  destruct (at_def (s_cands (t_sol s)) r) as [c ->]; [lia|]. cbn [bind].
  assert (Y : exists y, match phen with [] => Ok x | _ => at_ phen r end = Ok y).
  { destruct phen; [eauto|]. destruct Hp; [discriminate|]. apply at_def. lia. }
  destruct Y as [y ->]. cbn [bind]. unfold call.
  destruct (upd_at_def (s_cands (t_sol (set_t_log (t_log s ++ [(y, e_f e (length (t_log s)) y)]) s))) r (mkCand (e_f e (length (t_log s)) y) x r (c_r c))) as [cs Ec]; [cbn; lia|].
  rewrite Ec. cbn [bind]. apply upd_at_length in Ec. apply IH; try lia.
  - cbn in *. lia.
  - destruct Hp; [auto|right; lia].
Qed.
Lemma elitist_safe n s : (n = length (s_cands (t_sol s)))%nat -> (2 <= n)%nat -> exists s', elitist g n s = Ok s'.
Proof.
  intros -> H. unfold elitist. destruct (_ && _); [|eauto].
  rewrite Nat.ltb_irrefl. destruct (Nat.ltb _ _); [|eauto].
  destruct (upd_at_def (s_cands (t_sol s)) 1 (if e_restart (g_elit g) || e_init (g_elit g) then s_init (t_sol s) else if e_best (g_elit g) then s_best (t_sol s) else cand0)) as [cs ->]; [lia|].
  cbn; eauto.
Qed.
Lemma new_gen_real r k cols phen old : Forall (fun c => isreal (c_f c)) (new_gen e r k cols phen old).
Proof. revert r k; induction cols as [|x cols IH]; intros r k; cbn; constructor; [cbn; apply HV|auto]. Qed.

Lemma eval_safe s cols phen : sinv s -> length cols = g_lambda g -> (phen = [] \/ (g_lambda g <= length phen)%nat) ->
  exists s', eval no e g cols phen s = Ok s'.
Proof.
  intros H Hc Hp. destruct HR as [R1 _]. unfold eval.
  destruct (eval_cols_safe cols 0 phen s) as [s1 E1]; [lia| | |].
  - destruct H as (-> & _). lia.
  - destruct Hp; [auto|right; lia].
  - rewrite E1. cbn [bind]. rewrite HU. cbv zeta. cbn [bind].
    change 0 with (Z.of_nat 0) in E1. pose proof E1 as E1'. apply eval_cols_spec in E1 as (Q1 & Q2 & E1).
    set (s2 := set_t_gens _ s1).
    destruct (elitist_safe (length cols) s2) as [s3 ->]; [|lia|cbn; eauto].
    rewrite Hc. unfold s2. rewrite E1. cbn. rewrite app_length, skipn_length, new_gen_length.
    destruct H as (-> & _). lia.
Qed.
(** After eval: candidates are real, everything else is kept. *)
Lemma eval_real s cols phen s' : sinv s -> length cols = g_lambda g -> eval no e g cols phen s = Ok s' ->
  sinv s' /\ Forall (fun c => isreal (c_f c)) (s_cands (t_sol s')).
Proof.
  intros H Hc He. apply eval_spec in He as (A1 & A2 & K & A4 & A5 & T1 & T2 & _ & _ & A8 & _).
  unfold keep in K. injection K as K1 K2 K3 K4 K5 K6 K7 K8 K9 K10 K11 K12 K13 K14 K15.
  assert (I : sinv s').
  { unfold sinv. rewrite A5, K1, K2, K3, K4, K5, K9, K10, K11, K13, K14, T1, T2. exact H. }
  split; auto.
  assert (M : Forall (fun c => isreal (c_f c)) (mid_cands e cols phen s)).
  { unfold mid_cands. rewrite skipn_all2 by (destruct H as (-> & _); lia). rewrite app_nil_r. apply new_gen_real. }
  destruct A8 as [[-> _]|(E & Eu & _)]; auto.
  eapply upd_at_forall; [exact Eu| |exact M].
  unfold ref_cand, elit_on in *. destruct HE as [E1 E2]. rewrite E1, E2 in *. cbn [orb] in *.
  destruct H as (_ & _ & _ & _ & _ & _ & _ & _ & B1 & B2 & _ & B3).
  apply andb_true_iff in E as [E _]. apply Z.ltb_lt in E. destruct B3 as [[B3 _]|B3]; [lia|auto].
Qed.

Lemma rev_cons_ex {A} (l : list A) : (1 <= length l)%nat -> exists x r, rev l = x :: r.
Proof. intros H. destruct (rev l) eqn:E; [|eauto]. apply (f_equal (@length A)) in E. rewrite rev_length in E. cbn in E. lia. Qed.
Lemma compares_real (l : list (cand T)) : Forall (fun c => isreal (c_f c)) l -> compares_ok l = true.
Proof. intros H. apply compares_ok_nonan. intros c Hc. rewrite Forall_forall in H. apply isreal_nn, H. auto. Qed.

Lemma medians_safe (so : sol T N) : (2 <= length (s_cands so))%nat ->
  exists so', update_medians no so = Ok so' /\ s_cands so' = s_cands so.
Proof.
  intros H1. unfold update_medians. set (n := Z.of_nat (length (s_cands so))) in *.
  destruct (Z.eqb_spec n 0); [lia|].
  assert (Hn2 : 0 <= n / 2 < n) by (split; [apply Z.div_pos; lia|apply Z.div_lt; lia]).
  assert (Hn1 : 1 <= n / 2) by (apply Z.div_le_lower_bound; unfold n; lia).
  destruct (at_def (s_cands so) (n / 2)) as [m2 E2]; [fold n; lia|].
  destruct (at_def (s_cands so) (n / 2 - 1)) as [m1 E1]; [fold n; lia|].
  rewrite E1, E2. cbn [bind]. destruct (n mod 2 =? 0); cbn [bind]; eauto.
Qed.
Lemma ubc_safe (so : sol T N) : (2 <= length (s_cands so))%nat -> 0 <= s_kcand so < Z.of_nat (length (s_cands so)) ->
  exists so', update_best_candidates no so = Ok so'.
Proof.
  intros H1 H2. unfold update_best_candidates, update_hist.
  destruct (at_def (s_cands so) 0) as [c0 E0]; [lia|]. destruct (at_def (s_cands so) (s_kcand so)) as [ck Ek]; [lia|].
  rewrite E0, Ek. cbn [bind].
  match goal with |- context [update_medians no ?x] => set (s1 := x) end.
  assert (Hc : s_cands s1 = s_cands so) by reflexivity.
  destruct (medians_safe s1) as (s2 & -> & C2); [rewrite Hc; auto|]. cbn [bind]. unfold update_seen.
  rewrite C2, Hc, E0. cbn [bind]. destruct (rev_cons_ex (s_cands so)) as (x & r & ->); [lia|]. eauto.
Qed.

Lemma tell_safe s : sinv s -> Forall (fun c => isreal (c_f c)) (s_cands (t_sol s)) -> exists s', tell no e g s = Ok s' /\ sinv (inc_iter s').
Proof.
  intros H Hr. assert (X : exists s', tell no e g s = Ok s').
  { unfold tell. rewrite HU. unfold sort_candidates. rewrite compares_real by auto. cbn [bind].
    set (s1 := set_s_cands (sort_cands (s_cands (t_sol s))) (t_sol s)).
    cbv zeta. set (s2 := if (g_tpa g =? 2) && (0 <? t_niter s) then tpa_update no s1 else s1).
    assert (C2 : s_cands s2 = sort_cands (s_cands (t_sol s)) /\ s_kcand s2 = s_kcand (t_sol s)) by (unfold s2; destruct ((g_tpa g =? 2) && (0 <? t_niter s)); split; reflexivity).
    destruct C2 as [C2 C3]. pose proof kth_range. destruct HR as [R1 _]. destruct H as (A1 & A2 & _).
    destruct (ubc_safe s2) as [s3 ->]; [rewrite C2, sort_length; lia|rewrite C2, C3, sort_length; lia|]. cbn; eauto. }
  destruct X as [s' Et]. exists s'. split; auto.
  pose proof Et as Et'. apply tell_effect in Et' as (_ & _ & _ & T1 & T2 & _ & _ & T3 & _ & T4 & T5 & _ & T6 & c0 & ck & cl & m & rest & lim & C1 & C2 & C3 & C4 & C5 & C6 & C7 & C8 & C9 & C10 & C11 & C12 & C13).
  destruct (T6 HU) as [T7 _].
  assert (TP : s_tpa1 (t_sol s') = s_tpa1 (t_sol s) /\ s_tpa2 (t_sol s') = s_tpa2 (t_sol s)).
  { apply tell_spec in Et as (s1 & s2 & s3 & n4 & R & E2 & U & -> & _). destruct R as [(_ & _ & R)|(Q & _)]; [|congruence].
    apply ubc_spec in U as (K & _). unfold kept_by_tell in K. injection K as K1 K2 K3 K4 K5 K6 K7 K8 K9 K10 K11 K12 K13.
    cbn. rewrite K12, K13, E2, R. destruct ((g_tpa g =? 2) && (0 <? t_niter s)); split; reflexivity. }
  assert (Hreal : forall c, In c (s_cands (t_sol s')) -> isreal (c_f c)).
  { intros c Hc. rewrite T7 in Hc. apply (proj1 (sort_in _ _)) in Hc. rewrite Forall_forall in Hr. apply (Hr c). auto. }
  assert (R0 : isreal (c_f c0)) by (apply Hreal; eapply nth_error_In; eauto).
  destruct H as (A1 & A2 & A3 & A4 & A5 & A6 & A7 & A8 & A9 & A10 & A11 & A12).
  unfold sinv. cbn [t_sol inc_iter set_t_sol set_s_niter s_cands s_kcand s_maxhist s_khist s_hist s_bf s_med s_tpa1 s_tpa2 t_niter set_t_niter s_niter t_initel s_best].
  split; [rewrite T7, sort_length; auto|]. split; [congruence|]. split; [congruence|].
  assert (DL : forall A B (b : bool) (l : list A) (l' : list B), length l = length l' -> length (drop_if b l) = length (drop_if b l')).
  { intros A B b l l' E. destruct b; auto. destruct l, l'; cbn in *; congruence. }
  assert (DF : forall A (P : A -> Prop) b l, Forall P l -> Forall P (drop_if b l)).
  { intros A P b l F. destruct b; auto. destruct F; cbn; auto. }
  split; [rewrite C5, C6; apply DL; rewrite !app_length; cbn; lia|].
  split; [rewrite C5; apply DF, Forall_app; auto|]. split; [rewrite C7; apply DF, Forall_app; auto|].
  split.
  { rewrite C8. apply DF, Forall_app. split; auto. constructor; auto.
    cbv zeta in C13. destruct (Nat.even (length (s_cands (t_sol s')))).
    - destruct C13 as (a & b & Ha & Hb & ->). apply nth_error_In, Hreal in Ha, Hb. apply finite_half; auto.
    - destruct C13 as (a & Ha & ->). apply nth_error_In, Hreal in Ha. auto. }
  split; [destruct TP as [-> ->]; auto|]. split; [lia|]. split; [lia|]. split; [congruence|].
  right. rewrite C9. unfold best_take. destruct A12 as [[B1 B2]|B].
  - rewrite B1, B2. cbn. auto.
  - destruct (_ || _); auto.
Qed.

Lemma median_safe l : Forall isreal l -> (1 <= length l)%nat -> exists m, median l = Ok m.
Proof.
  intros H Hl. unfold median.
  assert (existsb is_nan l = false).
  { clear Hl. induction H as [|x l Hx _ IH]; cbn; auto. destruct (finite_Fin x Hx) as [z ->]. auto. }
  rewrite H0. cbn [andb]. set (n := Z.of_nat (length l)).
  assert (Ls : length (sort_dbl l) = length l) by (apply Permutation_length, sort_dbl_perm).
  assert (Hn2 : 0 <= n / 2 < n) by (unfold n; split; [apply Z.div_pos; lia|apply Z.div_lt; lia]).
  destruct (at_def (sort_dbl l) (n / 2)) as [b Eb]; [rewrite Ls; fold n; lia|].
  destruct (Z.eqb_spec (n mod 2) 0) as [E|E]; [|cbn; eauto].
  assert (1 <= n / 2).
  { destruct (Z.eq_dec n 1) as [E1|E1]; [rewrite E1 in E; discriminate|]. apply Z.div_le_lower_bound; unfold n in *; lia. }
  destruct (at_def (sort_dbl l) (n / 2 - 1)) as [a Ea]; [rewrite Ls; fold n; lia|].
  cbv zeta. rewrite Ea, Eb. cbn. eauto.
Qed.
Lemma criterion_safe s c : sinv s -> exists b, criterion no g c (t_sol s) = Ok b.
Proof.
  intros (A1 & A2 & A3 & A4 & A5 & A6 & A7 & _). destruct HR as [R1 _].
  unfold criterion. destruct (c =? 8); [eauto|]. destruct (c =? 9); [eauto|]. destruct (c =? 7); [eauto|]. destruct (c =? 10); [eauto|].
  destruct (c =? 1).
  { unfold tol_hist_fun_crit. destruct (Z.eqb_spec (Z.of_nat (g_lambda g)) 0); [lia|]. cbv zeta.
    destruct (Z.ltb _ _); [eauto|]. rewrite recent_ok by lia. cbn [bind]. eauto. }
  destruct (c =? 5).
  { unfold equal_fun_vals_crit. cbv zeta. destruct (Z.ltb _ _); [eauto|].
    rewrite recent_ok by lia. cbn [bind]. rewrite recent_ok by lia. cbn [bind]. eauto. }
  destruct (c =? 6); [|eauto].
  unfold stagnation_crit. destruct (Z.ltb_spec (Z.of_nat (length (s_bf (t_sol s)))) 20); cbn [orb]; [eauto|].
  destruct (Z.ltb_spec (Z.of_nat (length (s_med (t_sol s)))) 20); [eauto|].
  destruct (median_safe (s_bf (t_sol s))) as [a ->]; [auto|lia|]. cbn [bind].
  destruct (median_safe (firstn 20 (s_med (t_sol s)))) as [b ->]; [|rewrite firstn_length; lia|cbn; eauto].
  apply Forall_forall. intros x Hx. rewrite Forall_forall in A7. apply A7. rewrite <- (firstn_skipn 20 (s_med (t_sol s))). apply in_app_iff; auto.
Qed.
Lemma stop_safe s : sinv s -> exists b s', stop no e g s = Ok (b, s') /\ sinv s'.
Proof.
  intros H. assert (X : exists b s', stop no e g s = Ok (b, s')).
  { unfold stop. destruct (_ <? _); [eauto|]. destruct (negb _); [eauto|]. destruct (_ =? _); [eauto|].
    assert (X : forall fl, exists r, stop_scan no g fl (t_sol s) = Ok r).
    { induction fl as [|[c a] fl IH]; cbn [stop_scan]; [eauto|]. destruct a; auto.
      destruct (criterion_safe s c H) as [b ->]. cbn [bind]. destruct b; eauto. }
    destruct (X (g_flags g)) as [r ->]. cbn. eauto. }
  destruct X as (b & s' & E). exists b, s'. split; auto.
  apply stop_spec in E as [(_ & -> & _)|(_ & _ & [(_ & _ & ->)|(_ & r & _ & _ & ->)])]; auto.
Qed.

Lemma round_safe s : sinv s -> exists s', round no e g s = Ok s' /\ sinv s'.
Proof.
  intros H. unfold round. destruct (ask_safe s H) as (pop & s1 & -> & [P1 P2] & I1). cbn [bind fst snd].
  assert (M : exists ph, mapM (e_pheno e) pop = Ok ph).
  { clear P1. induction P2 as [|x l Hx Hl IH]; cbn; [eauto|]. destruct (HP x Hx) as [y ->]. destruct IH as [ph ->]. cbn. eauto. }
  destruct M as [ph Em]. rewrite Em. cbn [bind]. apply mapM_length in Em.
  destruct (eval_safe s1 pop ph I1 P1) as [s2 E2]; [right; lia|]. rewrite E2. cbn [bind].
  destruct (eval_real s1 pop ph s2 I1 P1 E2) as [I2 F2].
  destruct (tell_safe s2 I2 F2) as (s3 & -> & I3). cbn. eauto.
Qed.
Lemma loop_safe fuel : forall s, sinv s -> (exists s', loop no e g (round no e g) fuel s = Ok s' /\ sinv s') \/ loop no e g (round no e g) fuel s = Fault Diverges.
Proof.
  induction fuel as [|fuel IH]; intros s H; cbn [loop]; [auto|].
  destruct (stop_safe s H) as (b & s1 & -> & I1). cbn [bind fst snd]. destruct b; [eauto|].
  destruct (round_safe s1 I1) as (s2 & -> & I2). cbn [bind]. auto.
Qed.
Lemma init_safe s : sinv s -> exists s', eval_initial no e g s = Ok s' /\ sinv s'.
Proof.
  intros H. unfold eval_initial. destruct (_ || _); [|eauto].
  destruct HD as (_ & _ & D3 & _). destruct (HP _ (D3 (s_num (t_sol s)))) as [y ->]. cbn. eexists. split; [reflexivity|].
  destruct H as (A1 & A2 & A3 & A4 & A5 & A6 & A7 & A8 & A9 & A10 & A11 & A12).
  do 11 (split; [assumption|]). right. cbn. apply HV.
Qed.
Lemma edm_safe s : sinv s -> exists s', edm no e g s = Ok s' /\ sinv s'.
Proof.
  intros H. unfold edm. destruct HD as (_ & _ & D3 & _). destruct (HP _ (D3 (s_num (t_sol s)))) as [y ->]. cbn [bind].
  destruct (gradf no e g y s) as [gr s2] eqn:Egr. eexists. split; [reflexivity|].
  apply gradf_calls in Egr as ((K & _ & C & _) & _ & _ & T1 & T2). unfold keep in K.
  injection K as K1 K2 K3 K4 K5 K6 K7 K8 K9 K10 K11 K12 K13 K14 K15.
  unfold sinv. cbn. rewrite C, K1, K2, K3, K4, K5, K9, K10, K11, K13, K14, T1, T2. exact H.
Qed.
Lemma optimize_safe rf fuel s : sinv s ->
  (exists r s', optimize no e g (round no e g) rf fuel s = Ok (r, s') /\ sinv s') \/
  (optimize no e g (round no e g) rf fuel s = Fault Diverges /\ exists s1, sinv s1 /\ eval_initial no e g s = Ok s1 /\ loop no e g (round no e g) fuel s1 = Fault Diverges).
Proof.
  intros H. destruct (init_safe s H) as (s1 & E1 & I1).
  destruct rf; cbn [optimize]; rewrite E1; cbn [bind].
  all: destruct (loop_safe fuel s1 I1) as [(s2 & E2 & I2)|E2]; rewrite E2; cbn [bind]; [left|right; eauto].
  all: assert (X : exists s3, (if g_edm g then edm no e g s2 else Ok s2) = Ok s3 /\ sinv s3) by (destruct (g_edm g); [apply edm_safe; auto|eauto]).
  all: destruct X as (s3 & -> & I3); cbn [bind]; unfold restart_wanted; destruct HE as [_ ->]; cbn; eauto.
Qed.
Lemma op_safe o s : proper_op g o -> sinv s -> (exists s', do_op no e g o s = Ok s' /\ sinv s') \/ do_op no e g o s = Fault Diverges.
Proof.
  destruct o; cbn [proper_op do_op]; intros W H; try contradiction.
  - left. destruct (ask_safe s H) as (pop & s1 & -> & _ & I1). cbn. eauto.
  - left. destruct (stop_safe s H) as (b & s1 & -> & I1). cbn. eauto.
  - left. destruct W as [W1 W2]. destruct (eval_safe s cols phen H W1 W2) as [s2 E2]. rewrite E2. cbn [bind].
    destruct (eval_real s cols phen s2 H W1 E2) as [I2 F2]. destruct (tell_safe s2 I2 F2) as (s3 & -> & I3). cbn. eauto.
  - destruct (optimize_safe rfuel fuel s H) as [(r & s' & -> & I)|[-> _]]; cbn; eauto.
Qed.
Lemma ops_safe h : forall s, Forall (proper_op g) h -> sinv s -> (exists s', run_ops no e g h s = Ok s' /\ sinv s') \/ run_ops no e g h s = Fault Diverges.
Proof.
  induction h as [|o h IH]; intros s W H; cbn [run_ops]; [eauto|]. inversion W; subst.
  destruct (op_safe o s H2 H) as [(s' & -> & I)| ->]; cbn [bind]; auto.
Qed.
Theorem no_fault h x0 n s0 : st_new no g x0 n = Ok s0 -> Forall (proper_op g) h ->
  (exists s, run_ops no e g h s0 = Ok s) \/ run_ops no e g h s0 = Fault Diverges.
Proof.
  intros H0 W. destruct (ops_safe h s0 W (sinv_new _ _ _ H0)) as [(s & E & _)|E]; eauto.
Qed.
End Safe.
