(** TOLHISTFUN and STAGNATION along a search. *)
From Coq Require Import ZArith Lia List Bool Permutation.
From Verif Require Import Base Dbl Config Search SpecSearch SpecInvar SpecSafe SpecUh SpecStop SpecWindow SearchInv CounterProofs HistProofs SafeProofs UhProofs StopProofs WindowProofs Demo DemoProofs.
Import ListNotations.
Local Open Scope Z_scope.

Lemma skipn_plus {A} a b (l : list A) : skipn a (skipn b l) = skipn (b + a) l.
Proof. revert l. induction b as [|b IH]; intros [|x l]; cbn [skipn Nat.add]; auto. now rewrite skipn_nil. Qed.
Lemma lastn_lastn {A} a b (l : list A) : (a <= b)%nat -> lastn a (lastn b l) = lastn a l.
Proof. intros H. unfold lastn. rewrite skipn_length, skipn_plus. f_equal. lia. Qed.
Lemma in_lastn {A} k (l : list A) x : In x (lastn k l) -> In x l.
Proof. intros H. rewrite <- (firstn_skipn (length l - k) l), in_app_iff. auto. Qed.
Lemma at_ok {A} (l : list A) i : 0 <= i < Z.of_nat (length l) -> exists a, at_ l i = Ok a.
Proof.
  intros H. unfold at_. destruct (Z.ltb_spec i 0); [lia|]. destruct (nth_error l (Z.to_nat i)) eqn:E; [eauto|]. apply nth_error_None in E. lia.
Qed.
Lemma insert_length x l : length (insert_dbl x l) = S (length l).
Proof. induction l as [|y l IH]; cbn; auto. destruct (dlt y x); cbn; auto. Qed.
Lemma sort_length l : length (sort_dbl l) = length l.
Proof. induction l as [|x l IH]; cbn; auto. rewrite insert_length. auto. Qed.
Lemma median_ok l : l <> [] -> (forall u, In u l -> u <> NaN) -> exists m, median l = Ok m.
Proof.
  intros HL HN. unfold median. assert (E : existsb is_nan l = false).
  { apply not_true_is_false. intros E. apply existsb_exists in E as (u & Hu & E). apply (HN u Hu). destruct u; try discriminate. reflexivity. }
  rewrite E. cbn [andb]. assert (P : 0 < Z.of_nat (length l)) by (destruct l; [congruence|cbn; lia]). set (n := Z.of_nat (length l)) in *.
  pose proof (Z.div_mod n 2). pose proof (Z.mod_pos_bound n 2). pose proof (sort_length l) as SL.
  destruct (Z.eqb_spec (n mod 2) 0).
  - destruct (at_ok (sort_dbl l) (n / 2 - 1)) as [a ->]; [rewrite SL; fold n; lia|]. destruct (at_ok (sort_dbl l) (n / 2)) as [b ->]; [rewrite SL; fold n; lia|]. cbn [bind]. eauto.
  - apply at_ok. rewrite SL. fold n. lia.
Qed.

Section Along.
Context {T N : Type}.
Variables (no : numops T N) (e : env T N) (g : cfg T).
Hypothesis HS : samples_ok no.
Hypothesis HD : forall n, length (n_xmean no n) = g_dim g.
Hypothesis HU : std_sort_ok e.
Variables (h : list (op T)) (x0 : list T) (n : N) (s0 s : st T N).
Hypothesis H0 : st_new no g x0 n = Ok s0.
Hypothesis HW : Forall (whole_gen g) h.
Hypothesis HR : run_ops no e g h s0 = Ok s.
Lemma tolhist_along : exists before since ranks bests,
  t_gens s = before ++ since /\ s_niter (t_sol s) = Z.of_nat (length since) /\
  Forall2 (ranking_of g) since ranks /\ Forall2 (at_rank 0) ranks bests /\
  ((forall b, In b bests -> finite_dbl (c_f b)) ->
   (criterion no g 1 (t_sol s) = Ok true <->
    (tol_window g <= length since)%nat /\
    forall a b, In a (lastn (tol_window g) bests) -> In b (lastn (tol_window g) bests) ->
      dlt (dabs (dsub (c_f a) (c_f b))) (dmax (g_ftol g) dbl_1em12) = true)).
Proof using HS HD HU H0 HW HR.
  pose proof (winv_run no e g HS HD HU h x0 n s0 s H0 HW HR) as (W & _ & _ & MH & L1).
  destruct W as (before & since & ranks & bests & kths & meds & W1 & W2 & W3 & W4 & W5 & W6 & W7 & _).
  exists before, since, ranks, bests. do 4 (split; [assumption|]). intros HF.
  pose proof (Forall2_len _ _ _ W3) as L3. pose proof (Forall2_len _ _ _ W4) as L4.
  assert (D : 0 <= 30 * Z.of_nat (g_dim g) / Z.of_nat (g_lambda g)) by (apply Z.div_pos; lia).
  assert (WT : window g (t_sol s) = Z.of_nat (tol_window g)).
  { unfold window, tol_window, history_limit. rewrite MH. unfold hist_len. destruct (Z.ltb_spec 0 (g_max_hist g)); lia. }
  assert (W0 : 1 <= window g (t_sol s)).
  { unfold window. rewrite MH. unfold hist_len. destruct (Z.ltb_spec 0 (g_max_hist g)); lia. }
  assert (TL : (tol_window g <= history_limit g)%nat) by (unfold tol_window; lia).
  assert (LH : length (s_hist (t_sol s)) = Nat.min (history_limit g) (length since)) by (rewrite W7, lastn_length, L4, L3; reflexivity).
  change (criterion no g 1 (t_sol s)) with (tol_hist_fun_crit g (t_sol s)).
  assert (OK : exists b, tol_hist_fun_crit g (t_sol s) = Ok b).
  { unfold tol_hist_fun_crit. destruct (Z.eqb_spec (Z.of_nat (g_lambda g)) 0); [lia|]. cbv zeta. fold (window g (t_sol s)). destruct (Z.ltb_spec (Z.min (window g (t_sol s)) (Z.of_nat (length (s_hist (t_sol s))))) (window g (t_sol s))); [eauto|].
    rewrite recent_ok by lia. cbn [bind]. eauto. }
  destruct OK as [b OK]. rewrite OK.
  assert (HF' : forall c, In c (s_hist (t_sol s)) -> finite_dbl (c_f c)) by (intros c Hc; rewrite W7 in Hc; apply HF, (in_lastn _ _ _ Hc)).
  assert (IFF : b = true <-> converged g (t_sol s)) by (apply tol_hist_iff'; auto).
  transitivity (b = true); [split; [intros Q; apply Ok_inj in Q; auto|intros ->; auto]|]. rewrite IFF. unfold converged. rewrite WT, Nat2Z.id, W7, lastn_lastn by exact TL. rewrite <- W7, LH.
  split; intros (A & B); (split; [lia|exact B]).
Qed.
Lemma stagnation_along : exists before since ranks bests meds,
  t_gens s = before ++ since /\ s_niter (t_sol s) = Z.of_nat (length since) /\
  Forall2 (ranking_of g) since ranks /\ Forall2 (at_rank 0) ranks bests /\ Forall2 middle_value ranks meds /\
  ((forall b, In b bests -> c_f b <> NaN) -> (forall m, In m meds -> m <> NaN) ->
   (criterion no g 6 (t_sol s) = Ok true <->
    (20 <= length since)%nat /\
    exists a b, is_median (lastn 20 (map c_f bests)) a /\ is_median (firstn 20 (lastn (medians_limit g (length since - 1)) meds)) b /\ dle b a = true)).
Proof using HS HD HU H0 HW HR.
  pose proof (winv_run no e g HS HD HU h x0 n s0 s H0 HW HR) as (W & _ & _ & MH & L1).
  destruct W as (before & since & ranks & bests & kths & meds & W1 & W2 & W3 & W4 & W5 & W6 & _ & _ & W7 & W8).
  exists before, since, ranks, bests, meds. do 5 (split; [assumption|]). intros HB HM.
  pose proof (Forall2_len _ _ _ W3) as L3. pose proof (Forall2_len _ _ _ W4) as L4. pose proof (Forall2_len _ _ _ W6) as L6.
  assert (LB : length (s_bf (t_sol s)) = Nat.min 20 (length since)) by (rewrite W7, lastn_length, map_length, L4, L3; reflexivity).
  assert (ML : (120 <= medians_limit g (length since - 1))%nat) by (apply (medians_limit_step g L1)).
  assert (LM : length (s_med (t_sol s)) = Nat.min (medians_limit g (length since - 1)) (length since)) by (rewrite W8, lastn_length, L6, L3; reflexivity).
  assert (NB : forall v, In v (s_bf (t_sol s)) -> v <> NaN).
  { intros v Hv. rewrite W7 in Hv. apply in_lastn, in_map_iff in Hv as (c & <- & Hc). apply HB, Hc. }
  assert (NM : forall v, In v (s_med (t_sol s)) -> v <> NaN) by (intros v Hv; rewrite W8 in Hv; apply HM, (in_lastn _ _ _ Hv)).
  assert (NF : forall v, In v (firstn 20 (s_med (t_sol s))) -> v <> NaN) by (intros v Hv; apply NM; rewrite <- (firstn_skipn 20 (s_med (t_sol s))), in_app_iff; auto).
  change (criterion no g 6 (t_sol s)) with (stagnation_crit (t_sol s)).
  assert (OK : exists b, stagnation_crit (t_sol s) = Ok b).
  { unfold stagnation_crit. destruct (Z.ltb_spec (Z.of_nat (length (s_bf (t_sol s)))) 20); cbn [orb]; [eauto|]. destruct (Z.ltb_spec (Z.of_nat (length (s_med (t_sol s)))) 20); [eauto|].
    destruct (median_ok (s_bf (t_sol s))) as [a ->]; [intros E; apply (f_equal (@length _)) in E; cbn [length] in E; lia|exact NB|].
    destruct (median_ok (firstn 20 (s_med (t_sol s)))) as [b ->]; [|exact NF|cbn [bind]; eauto].
    intros E. apply (f_equal (@length _)) in E. rewrite firstn_length in E. cbn [length] in E. lia. }
  destruct OK as [b OK]. rewrite OK.
  assert (IFF : b = true <-> stagnated (t_sol s)) by (apply stagnation_iff'; auto).
  transitivity (b = true); [split; [intros Q; apply Ok_inj in Q; auto|intros ->; auto]|]. rewrite IFF. unfold stagnated. rewrite LB, LM, <- W7, <- W8.
  split; [intros (A1 & A2 & A3); split; [lia|exact A3]|intros (A1 & A2); split; [lia|split; [lia|exact A2]]].
Qed.
End Along.

(** A generation of which nothing could be evaluated, between one whose values are
    0 and one whose values are 100. *)
Definition gap_g : cfg Z := set_g_max_hist 3 (mk_cfg 2 4).
Definition gap_e : env Z nat := mkEnv (fun k _ => if (k <? 4)%nat then dint 0 else if (k <? 8)%nat then NaN else dint 100) false (fun x => Ok x) (fun _ => 0) isort.
Lemma tolhist_gap : exists s, (do s0 <- st_new demo_no gap_g [4; 4] 0%nat; rounds demo_no gap_g gap_e 3 s0) = Ok s /\
  map c_f (s_hist (t_sol s)) = [dint 0; NaN; dint 100] /\ criterion demo_no gap_g 1 (t_sol s) = Ok true.
Proof. eexists. split; [vm_compute; reflexivity|]. split; vm_compute; reflexivity. Qed.
(** Constant objective, seven points in the plane: 10 + ceil (60 / 7) = 19. *)
Definition flat_e : env Z nat := mk_env (fun _ _ => 0).
Lemma tolhist_early : exists s, (do s0 <- st_new demo_no (mk_cfg 2 7) [4; 4] 0%nat; rounds demo_no (mk_cfg 2 7) flat_e 18 s0) = Ok s /\
  s_niter (t_sol s) = 18 /\ criterion demo_no (mk_cfg 2 7) 1 (t_sol s) = Ok true.
Proof. eexists. split; [vm_compute; reflexivity|]. split; vm_compute; reflexivity. Qed.
