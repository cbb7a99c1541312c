(** Absence of faults with uncertainty handling and with initial elitism. *)
From Coq Require Import Permutation.
From Verif Require Import Base Dbl DblProofs Config Search SpecSearch SpecStop SpecSafe SpecUh SpecWindow SortProofs SearchInv CounterProofs HistProofs StopProofs SafeProofs UhProofs WindowProofs.
Local Open Scope Z_scope.

Section SafeAll.
Context {T N : Type}.
Variable no : numops T N.
Variable e : env T N.
Variable g : cfg T.
Notation st := (st T N).
Implicit Types (s : st).
Hypothesis HV : real_values e.
Hypothesis HD : dims_ok no g.
Hypothesis HP : pheno_total e g.
Hypothesis HF : fixed_in_range g.
Hypothesis HR : room g.
Hypothesis HE : e_restart (g_elit g) = false.
Hypothesis HU : g_uh g = true -> reevaluation_ok no g /\ std_sort_ok e.

Definition init_real s : Prop := e_init (g_elit g) = true -> isreal (c_f (s_init (t_sol s))).
Definition uinv s : Prop := sinv g s /\ init_real s.
Definition cuh_ok s : Prop := g_uh g = true -> map r_idx (s_cuh (t_sol s)) = seq 0 (length (s_cands (t_sol s))).

Lemma keep_init s s' : keep s' = keep s -> s_init (t_sol s') = s_init (t_sol s).
Proof. unfold keep. intros K. injection K as K1 K2 K3 K4 K5 K6 K7 K8 K9 K10 K11 K12 K13 K14 K15. auto. Qed.

Lemma eval_uh_safe n : forall r muts s, (r + n <= length (s_cands (t_sol s)))%nat -> (s_reev (t_sol s) <= length muts)%nat ->
  exists p, eval_uh e r n muts s = Ok p /\ s_cands (t_sol (snd p)) = s_cands (t_sol s).
Proof.
  induction n as [|n IH]; intros r muts s Hr Hm; cbn [eval_uh]; [eexists; split; eauto|].
  destruct (at_def (s_cands (t_sol s)) (Z.of_nat r)) as [c ->]; [lia|]. cbn [bind].
  destruct (Nat.ltb_spec r (s_reev (t_sol s))).
  - destruct (at_def muts (Z.of_nat r)) as [y ->]; [lia|]. cbn [bind]. unfold call.
    destruct (IH (S r) muts (set_t_log (t_log s ++ [(y, e_f e (length (t_log s)) y)]) s)) as (p & -> & Q); [cbn; lia|cbn; lia|].
    cbn [bind]. eexists. split; [reflexivity|]. cbn. exact Q.
  - destruct (IH (S r) muts s) as (p & -> & Q); [lia|lia|]. cbn [bind]. eexists. split; [reflexivity|]. cbn. exact Q.
Qed.
Lemma eval_all_safe s cols phen : uinv s -> length cols = g_lambda g -> (phen = [] \/ (g_lambda g <= length phen)%nat) ->
  exists s', eval no e g cols phen s = Ok s'.
Proof.
  intros [H _] Hc Hp. destruct HR as [R1 _]. unfold eval.
  destruct (eval_cols_safe e cols 0 phen s) as [s1 E1]; [lia| | |].
  - destruct H as (-> & _). lia.
  - destruct Hp; [auto|right; lia].
  - rewrite E1. cbn [bind]. cbv zeta.
    change 0 with (Z.of_nat 0) in E1. apply eval_cols_spec in E1 as (Q1 & Q2 & E1).
    set (s2 := set_t_gens _ s1).
    assert (L2 : length (s_cands (t_sol s2)) = g_lambda g).
    { unfold s2. rewrite E1. cbn. rewrite app_length, skipn_length, new_gen_length. destruct H as (-> & _). lia. }
    assert (P : exists s3, (if g_uh g then perform_uh no e g cols phen s2 else Ok s2) = Ok s3 /\ length (s_cands (t_sol s3)) = g_lambda g).
    { destruct (g_uh g) eqn:EU; [|eauto]. destruct (HU eq_refl) as [[U1 U2] _].
      unfold perform_uh. destruct (n_coin no (s_num (t_sol s2))) as [coin n1].
      set (reev := match _ with O => _ | _ => _ end).
      assert (Hre : (reev <= g_lambda g)%nat) by (unfold reev; destruct (if coin then S (g_reev g) else g_reev g) eqn:Er; destruct coin; lia).
      set (src := match phen with [] => cols | _ => phen end).
      assert (Hsrc : (g_lambda g <= length src)%nat) by (unfold src; destruct phen; [lia|destruct Hp; [discriminate|auto]]).
      destruct (Nat.ltb_spec (length src) reev); [lia|].
      destruct (n_mutate no (firstn reev src) n1) as [muts n2] eqn:Em.
      assert (Lm : length muts = reev).
      { specialize (U2 (firstn reev src) n1). rewrite Em in U2. cbn in U2. rewrite U2, firstn_length. lia. }
      destruct (eval_uh_safe (length cols) 0 muts (set_t_sol (set_s_reev reev (set_s_num n2 (t_sol s2))) s2)) as (p & -> & Q).
      - cbn [t_sol set_t_sol s_cands set_s_reev set_s_num]. lia.
      - cbn. lia.
      - cbn [bind]. eexists. split; [reflexivity|]. cbn. rewrite Q. cbn. exact L2. }
    destruct P as (s3 & -> & L3). cbn [bind].
    destruct (elitist_safe g (length cols) s3) as [s4 ->]; [lia|lia|]. cbn. eauto.
Qed.
Lemma eval_all_real s cols phen s' : uinv s -> length cols = g_lambda g -> eval no e g cols phen s = Ok s' ->
  uinv s' /\ Forall (fun c => isreal (c_f c)) (s_cands (t_sol s')) /\ cuh_ok s'.
Proof.
  intros [H HI] Hc He. apply eval_spec in He as (A1 & A2 & K & A4 & A5 & T1 & T2 & _ & _ & A8 & A9).
  unfold keep in K. injection K as K1 K2 K3 K4 K5 K6 K7 K8 K9 K10 K11 K12 K13 K14 K15.
  assert (I : sinv g s').
  { unfold sinv. rewrite A5, K1, K2, K3, K4, K5, K9, K10, K11, K13, K14, T1, T2. exact H. }
  split. { split; auto. unfold init_real. rewrite K8. exact HI. }
  split.
  - assert (M : Forall (fun c => isreal (c_f c)) (mid_cands e cols phen s)).
    { unfold mid_cands. rewrite skipn_all2 by (destruct H as (-> & _); lia). rewrite app_nil_r. apply new_gen_real. exact HV. }
    destruct A8 as [[-> _]|(E & Eu & _)]; auto.
    eapply upd_at_forall; [exact Eu| |exact M].
    unfold ref_cand, elit_on in *. rewrite HE in *. cbn [orb] in *.
    destruct (e_init (g_elit g)) eqn:Ei; [apply HI; auto|].
    destruct H as (_ & _ & _ & _ & _ & _ & _ & _ & B1 & B2 & _ & B3).
    apply andb_true_iff in E as [E E']. apply Z.ltb_lt in E. try rewrite E'.
    destruct B3 as [[B3 _]|B3]; [lia|auto].
  - intros U. destruct (A9 U) as (B & _ & _). rewrite B, A5. f_equal. destruct H as (-> & _). auto.
Qed.

Lemma std_sort_total cmp l : std_sort e cmp l = Fault BadCompare \/ exists l', std_sort e cmp l = Ok l'.
Proof. unfold std_sort. destruct (swo_on cmp l); eauto. Qed.
Lemma uh_total (so : sol T N) : std_sort_ok e -> map r_idx (s_cuh so) = seq 0 (length (s_cands so)) ->
  uncertainty_handling e g so = Fault BadCompare \/ exists so', uncertainty_handling e g so = Ok so'.
Proof.
  intros US Hi. unfold uncertainty_handling.
  destruct (std_sort_total cmp_f (s_cuh so)) as [-> |(l1 & E1)]; [auto|]. rewrite E1. cbn [bind].
  destruct (std_sort_total cmp_mut (number set_r_r1 0 l1)) as [-> |(l2 & E2)]; [auto|]. rewrite E2. cbn [bind]. cbv zeta.
  match goal with |- context [std_sort e ?c ?l] => destruct (std_sort_total c l) as [Q|(l4 & E4)]; [rewrite Q; auto|rewrite E4] end. cbn [bind].
  right. apply (std_sort_spec e US) in E1 as (P1 & _), E2 as (P2 & _), E4 as (P4 & _).
  assert (PI : Permutation (map r_idx l4) (map r_idx (s_cuh so))).
  { rewrite P4, map_map. rewrite (map_ext _ r_idx) by (intros c; apply with_delta_f).
    rewrite (number_other set_r_r2 r_idx) by reflexivity. rewrite P2. rewrite (number_other set_r_r1 r_idx) by reflexivity. now rewrite P1. }
  assert (M : exists cs, mapM (fun c => at_ (s_cands so) (Z.of_nat (r_idx c))) l4 = Ok cs).
  { assert (B : forall c, In c l4 -> (r_idx c < length (s_cands so))%nat).
    { intros c Hc. apply (in_map r_idx) in Hc. apply (Permutation_in _ PI) in Hc. rewrite Hi in Hc. apply in_seq in Hc. lia. }
    clear -B. induction l4 as [|c l IH]; cbn; [eauto|].
    destruct (at_def (s_cands so) (Z.of_nat (r_idx c))) as [a ->]; [specialize (B c (or_introl eq_refl)); lia|].
    destruct IH as (cs & ->); [intros; apply B; right; auto|]. cbn. eauto. }
  destruct M as (cs & ->). cbn. eauto.
Qed.

Lemma tell_all_safe s : uinv s -> Forall (fun c => isreal (c_f c)) (s_cands (t_sol s)) -> cuh_ok s ->
  (exists s', tell no e g s = Ok s' /\ uinv (inc_iter s')) \/ (g_uh g = true /\ tell no e g s = Fault BadCompare).
Proof.
  intros [H HI] Hr HC.
  assert (X : (exists s1 : sol T N, (if g_uh g then uncertainty_handling e g (t_sol s) else sort_candidates (t_sol s)) = Ok s1 /\
      Permutation (s_cands s1) (s_cands (t_sol s)) /\ s_kcand s1 = s_kcand (t_sol s)) \/
      (g_uh g = true /\ uncertainty_handling e g (t_sol s) = Fault BadCompare)).
  { destruct (g_uh g) eqn:EU.
    - destruct (HU eq_refl) as [_ US]. destruct (uh_total (t_sol s) US (HC EU)) as [->|(s1 & E)]; [auto|left].
      exists s1. split; auto. pose proof (uh_ranks e g US _ _ (HC EU) E) as (P & _). split; auto. apply uh_nevals in E. tauto.
    - left. unfold sort_candidates. rewrite compares_real by auto. eexists. split; [reflexivity|]. split; [apply sort_perm|reflexivity]. }
  destruct X as [(s1 & E1 & P1 & Kc)|(U & E1)].
  2: { right. split; auto. unfold tell. rewrite U, E1. reflexivity. }
  left. assert (Y : exists s', tell no e g s = Ok s').
  { unfold tell. rewrite E1. cbn [bind].
    cbv zeta. set (s2 := if (g_tpa g =? 2) && (0 <? t_niter s) then tpa_update no s1 else s1).
    assert (C2 : s_cands s2 = s_cands s1 /\ s_kcand s2 = s_kcand s1) by (unfold s2; destruct ((g_tpa g =? 2) && (0 <? t_niter s)); split; reflexivity).
    destruct C2 as [C2 C3]. pose proof (kth_range g HR). destruct HR as [R1 _]. destruct H as (A1 & A2 & _).
    pose proof (Permutation_length P1) as PL.
    destruct (ubc_safe no s2) as [s3 ->]; [rewrite C2, PL; lia|rewrite C2, C3, Kc, PL; lia|]. cbn; eauto. }
  destruct Y as [s' Et]. exists s'. split; auto.
  pose proof Et as Et'. apply tell_effect in Et' as (_ & _ & _ & T1 & T2 & _ & _ & T3 & TI & T4 & T5 & _ & _ & c0 & ck & cl & m & rest & lim & C1 & C2 & C3 & C4 & C5 & C6 & C7 & C8 & C9 & C10 & C11 & C12 & C13).
  assert (TP : s_tpa1 (t_sol s') = s_tpa1 (t_sol s) /\ s_tpa2 (t_sol s') = s_tpa2 (t_sol s) /\ Permutation (s_cands (t_sol s')) (s_cands (t_sol s))).
  { pose proof Et as Et2. apply tell_spec in Et as (sa & sb & sc & n4 & R & E2 & U & -> & _).
    apply ubc_spec in U as (K & _). unfold kept_by_tell in K. injection K as K1 K2 K3 K4 K5 K6 K7 K8 K9 K10 K11 K12 K13.
    cbn. rewrite K12, K13, K1, E2.
    assert (Q : sa = s1).
    { destruct R as [(Q1 & Q2 & ->)|(Q1 & R)]; rewrite Q1 in E1; [|congruence].
      unfold sort_candidates in E1. rewrite Q2 in E1. injection E1 as <-. auto. }
    assert (R2 : s_tpa1 s1 = s_tpa1 (t_sol s) /\ s_tpa2 s1 = s_tpa2 (t_sol s)).
    { destruct R as [(_ & _ & R)|(_ & R)]; [subst; split; reflexivity|subst sa; apply uh_nevals in R; tauto]. }
    rewrite Q. destruct R2 as [R2 R3]. destruct ((g_tpa g =? 2) && (0 <? t_niter s)); auto. }
  destruct TP as (TP1 & TP2 & TP3).
  assert (Hreal : forall c, In c (s_cands (t_sol s')) -> isreal (c_f c)).
  { intros c Hc. apply (Permutation_in _ TP3) in Hc. rewrite Forall_forall in Hr. apply (Hr c). auto. }
  assert (R0 : isreal (c_f c0)) by (apply Hreal; eapply nth_error_In; eauto).
  destruct H as (A1 & A2 & A3 & A4 & A5 & A6 & A7 & A8 & A9 & A10 & A11 & A12).
  split; [|unfold init_real; cbn; rewrite TI; exact HI].
  unfold sinv. cbn [t_sol inc_iter set_t_sol set_s_niter s_cands s_kcand s_maxhist s_khist s_hist s_bf s_med s_tpa1 s_tpa2 t_niter set_t_niter s_niter t_initel s_best].
  split; [rewrite (Permutation_length TP3); auto|]. split; [congruence|]. split; [congruence|].
  assert (DL : forall A B (b : bool) (l : list A) (l' : list B), length l = length l' -> length (drop_if b l) = length (drop_if b l')).
  { intros A B b l l' E. destruct b; auto. destruct l, l'; cbn in *; congruence. }
  assert (DF : forall A (P : A -> Prop) b l, Forall P l -> Forall P (drop_if b l)).
  { intros A P b l F. destruct b; auto. destruct F; cbn; auto. }
  split; [rewrite C5, C6; apply DL; rewrite !app_length; cbn; lia|].
  split; [rewrite C5; apply DF, Forall_app; auto|]. split; [rewrite C7; apply DF, Forall_app; auto|].
  split.
  { rewrite C8. apply DF, Forall_app. split; auto. constructor; auto.
    cbv zeta in C13. destruct (Nat.even (length (s_cands (t_sol s')))).
    - destruct C13 as (a & b & Ha & Hb & ->). apply nth_error_In, Hreal in Ha, Hb. apply finite_half; auto.
    - destruct C13 as (a & Ha & ->). apply nth_error_In, Hreal in Ha. auto. }
  split; [rewrite TP1, TP2; auto|]. split; [lia|]. split; [lia|]. split; [congruence|].
  right. rewrite C9. unfold best_take. destruct A12 as [[B1 B2]|B].
  - rewrite B1, B2. cbn. auto.
  - destruct (_ || _); auto.
Qed.

Lemma ask_all_safe s : uinv s -> exists pop s', ask no e g s = Ok (pop, s') /\ pop_ok g pop /\ uinv s'.
Proof.
  intros [H HI]. destruct (ask_safe no e g HD HP HF HR s H) as (pop & s' & E & P & I). exists pop, s'. split; auto. split; auto. split; auto.
  apply ask_spec in E as ((K & _) & _). unfold init_real. rewrite (keep_init _ _ K). exact HI.
Qed.
Lemma stop_all_safe s : uinv s -> exists b s', stop no e g s = Ok (b, s') /\ uinv s'.
Proof.
  intros [H HI]. destruct (stop_safe no e g HR s H) as (b & s' & E & I). exists b, s'. split; auto. split; auto.
  apply stop_spec in E as [(_ & -> & _)|(_ & _ & [(_ & _ & ->)|(_ & r & _ & _ & ->)])]; auto.
Qed.
Lemma round_all_safe s : uinv s -> (exists s', round no e g s = Ok s' /\ uinv s') \/ (g_uh g = true /\ round no e g s = Fault BadCompare).
Proof.
  intros H. unfold round. destruct (ask_all_safe s H) as (pop & s1 & -> & [P1 P2] & I1). cbn [bind fst snd].
  assert (M : exists ph, mapM (e_pheno e) pop = Ok ph).
  { clear P1. induction P2 as [|x l Hx Hl IH]; cbn; [eauto|]. destruct (HP x Hx) as [y ->]. destruct IH as [ph ->]. cbn. eauto. }
  destruct M as [ph Em]. rewrite Em. cbn [bind]. apply mapM_length in Em.
  destruct (eval_all_safe s1 pop ph I1 P1) as [s2 E2]; [right; lia|]. rewrite E2. cbn [bind].
  destruct (eval_all_real s1 pop ph s2 I1 P1 E2) as (I2 & F2 & U2).
  destruct (tell_all_safe s2 I2 F2 U2) as [(s3 & -> & I3)|(U & ->)]; cbn; eauto.
Qed.
Definition okres {A} (r : res A) (P : A -> Prop) : Prop :=
  (exists a, r = Ok a /\ P a) \/ r = Fault Diverges \/ (g_uh g = true /\ r = Fault BadCompare).
Lemma loop_all_safe fuel : forall s, uinv s -> okres (loop no e g (round no e g) fuel s) uinv.
Proof.
  unfold okres. induction fuel as [|fuel IH]; intros s H; cbn [loop]; [auto|].
  destruct (stop_all_safe s H) as (b & s1 & -> & I1). cbn [bind fst snd]. destruct b; [eauto|].
  destruct (round_all_safe s1 I1) as [(s2 & -> & I2)|(U & ->)]; cbn [bind]; auto.
Qed.
Lemma init_all_safe s : sinv g s -> exists s', eval_initial no e g s = Ok s' /\ uinv s'.
Proof.
  intros H. unfold eval_initial. destruct (_ || _) eqn:W.
  - destruct HD as (_ & _ & D3 & _). destruct (HP _ (D3 (s_num (t_sol s)))) as [y ->]. cbn. eexists. split; [reflexivity|].
    destruct H as (A1 & A2 & A3 & A4 & A5 & A6 & A7 & A8 & A9 & A10 & A11 & A12). split; [|intros _; cbn; apply HV].
    do 11 (split; [assumption|]). right. cbn. apply HV.
  - exists s. split; auto. split; auto. intros Q. rewrite Q in W. rewrite orb_true_r in W. discriminate.
Qed.
Lemma edm_all_safe s : uinv s -> exists s', edm no e g s = Ok s' /\ uinv s'.
Proof.
  intros [H HI]. destruct (edm_safe no e g HD HP s H) as (s' & E & I). exists s'. split; auto. split; auto.
  apply edm_spec in E as ((K & _) & _). unfold init_real. rewrite (keep_init _ _ K). exact HI.
Qed.
Lemma optimize_all_safe rf fuel s : sinv g s -> okres (optimize no e g (round no e g) rf fuel s) (fun p => uinv (snd p)).
Proof.
  intros H. destruct (init_all_safe s H) as (s1 & E1 & I1).
  destruct rf; cbn [optimize]; rewrite E1; cbn [bind].
  all: destruct (loop_all_safe fuel s1 I1) as [(s2 & E2 & I2)|[E2|(U & E2)]]; rewrite E2; cbn [bind]; [|right; left; auto|right; right; auto].
  all: assert (X : exists s3, (if g_edm g then edm no e g s2 else Ok s2) = Ok s3 /\ uinv s3) by (destruct (g_edm g); [apply edm_all_safe; auto|eauto]).
  all: destruct X as (s3 & -> & I3); cbn [bind]; unfold restart_wanted; rewrite HE; cbn; left; eexists; split; [reflexivity|auto].
Qed.
Lemma op_all_safe o s : proper_op g o -> uinv s -> okres (do_op no e g o s) uinv.
Proof.
  destruct o; cbn [proper_op do_op]; intros W H; try contradiction.
  - left. destruct (ask_all_safe s H) as (pop & s1 & -> & _ & I1). cbn. eauto.
  - left. destruct (stop_all_safe s H) as (b & s1 & -> & I1). cbn. eauto.
  - destruct W as [W1 W2]. destruct (eval_all_safe s cols phen H W1 W2) as [s2 E2]. rewrite E2. cbn [bind].
    destruct (eval_all_real s cols phen s2 H W1 E2) as (I2 & F2 & U2). unfold okres. destruct (tell_all_safe s2 I2 F2 U2) as [(s3 & -> & I3)|(U & ->)]; cbn; eauto.
  - unfold okres. destruct (optimize_all_safe rfuel fuel s (proj1 H)) as [((r & s') & -> & I)|[-> |(U & ->)]]; cbn; eauto.
Qed.
Lemma ops_all_safe h : forall s, Forall (proper_op g) h -> uinv s -> okres (run_ops no e g h s) (fun _ => True).
Proof.
  unfold okres. induction h as [|o h IH]; intros s W H; cbn [run_ops]; [eauto|]. inversion W; subst.
  destruct (op_all_safe o s H2 H) as [(s' & -> & I)|[-> |(U & ->)]]; cbn [bind]; auto.
Qed.
(** optimize() first when initial elitism is on. *)
Theorem no_fault_all h x0 n s0 : st_new no g x0 n = Ok s0 -> Forall (proper_op g) h ->
  (e_init (g_elit g) = true -> exists rf fuel h', h = OOptimize rf fuel :: h') ->
  (exists s, run_ops no e g h s0 = Ok s) \/ run_ops no e g h s0 = Fault Diverges \/
  (g_uh g = true /\ run_ops no e g h s0 = Fault BadCompare).
Proof.
  intros H0 W HO. pose proof (sinv_new no g x0 n s0 H0) as I0.
  assert (X : okres (run_ops no e g h s0) (fun _ => True)).
  { destruct (e_init (g_elit g)) eqn:Ei.
    - destruct (HO eq_refl) as (rf & fuel & h' & ->). inversion W; subst. unfold okres. cbn [run_ops do_op].
      destruct (optimize_all_safe rf fuel s0 I0) as [((r & s') & -> & I)|[-> |(U & ->)]]; cbn; auto.
      apply ops_all_safe; auto.
    - apply ops_all_safe; auto. split; auto. intros Q. congruence. }
  destruct X as [(s & E & _)|X]; eauto.
Qed.
End SafeAll.
