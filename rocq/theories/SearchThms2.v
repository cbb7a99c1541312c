(** Further consequences: constructors, uncertainty handling, fixed
    parameters, two-point adaptation. *)
From Coq Require Import Permutation.
From Verif Require Import Base Dbl DblProofs Params ParamsProofs Config SpecConfig ConfigProofs Search SpecSearch SpecInvar SortProofs SearchInv CounterProofs HistProofs SpecStop StopProofs SpecSafe SafeProofs RunProofs ElitProofs SpecUh UhProofs LogProofs SearchThms.
Local Open Scope Z_scope.

(** The flags of an optimiser have the codes as keys. *)
Lemma flags_fold_keys m : forall fl, map fst (fold_left (fun fl e => set_criteria_active fl (fst e) (snd e)) m fl) = map fst fl.
Proof.
  induction m as [|x m IH]; intros fl; cbn; auto. rewrite IH. unfold set_criteria_active. rewrite map_map. apply map_ext. intros y. destruct (fst y =? fst x); auto.
Qed.
Lemma flags_ctor_keys m : map fst (flags_of_ctor m) = criteria_codes.
Proof. unfold flags_of_ctor. rewrite flags_fold_keys. reflexivity. Qed.

(** Comparison of uncertainty handling. *)
Lemma cmp_ranks_irrefl reev tot c : cmp_ranks reev tot c c = false.
Proof. unfold cmp_ranks. destruct (_ =? _); [rewrite Z.eqb_refl; apply dlt_irrefl|apply Z.ltb_irrefl]. Qed.
Lemma cmp_ranks_swo reev tot l : (forall a b, In a l -> In b l -> r_r1 a + r_r2 a = 2 * r_r2 b -> a = b) ->
  strict_weak_order (cmp_ranks reev tot) (fun c => In c l).
Proof.
  intros H.
  assert (K : forall a b, In a l -> In b l -> cmp_ranks reev tot a b = (r_r1 a + r_r2 a <? r_r1 b + r_r2 b)).
  { intros a b Ha Hb. unfold cmp_ranks. destruct (Z.eqb_spec (r_r1 a + r_r2 a) (r_r2 b + r_r2 b)); [|auto].
    assert (a = b) by (apply H; auto; lia). subst b. rewrite Z.eqb_refl, dlt_irrefl, Z.ltb_irrefl. auto. }
  split; [intros; apply cmp_ranks_irrefl|]. split; [|split].
  - intros a b Ha Hb. rewrite !K by auto. intros E. apply Z.ltb_lt in E. apply Z.ltb_ge. lia.
  - intros a b c Ha Hb Hc. rewrite !K by auto. intros E1 E2. apply Z.ltb_lt in E1, E2. apply Z.ltb_lt. lia.
  - intros a b c Ha Hb Hc. rewrite !K by auto. intros E1 E2 E3 E4. apply Z.ltb_ge in E1, E2, E3, E4. split; apply Z.ltb_ge; lia.
Qed.

Section Thms2.
Context {T N : Type}.
Variable no : numops T N.
Variable e : env T N.
Variable g : cfg T.
Notation st := (st T N).
Implicit Types (s : st).

(** Maximisation *)
Lemma maximum_seen (f : nat -> list T -> dbl) h x0 n s0 s :
  let em := with_objective (ctor_func true f) e in
  populations_only em g -> samples_ok no -> no_nan em -> st_new no g x0 n = Ok s0 -> Forall (whole_gen g) h -> run_ops no em g h s0 = Ok s ->
  (exists y v, In (y, v) (t_log s)) ->
  (exists k y, nth_error (t_log s) k = Some (y, dneg (f k y)) /\ c_f (s_best (t_sol s)) = dneg (f k y) /\
     forall k' y' v', nth_error (t_log s) k' = Some (y', v') -> v' = dneg (f k' y') /\ dle (f k' y') (f k y) = true).
Proof.
  intros em HP HS HN H0 HG HR Hne.
  assert (HL : forall k y v, nth_error (t_log s) k = Some (y, v) -> v = dneg (f k y)).
  { assert (L : call_log em s) by (eapply call_log_run; eauto). intros k y v E. apply L in E. exact E. }
  destruct (best_over_calls no em g HP h x0 n s0 s HS HN H0 HG HR Hne) as ((y & B1) & _ & B2).
  apply In_nth_error in B1 as [k B1]. exists k, y. pose proof (HL _ _ _ B1) as E. rewrite <- E. split; [auto|]. split; auto.
  intros k' y' v' E'. pose proof (HL _ _ _ E') as Ev. split; auto. apply nth_error_In in E'. apply B2 in E' as [E' _]. rewrite E, Ev in E'.
  rewrite <- (dneg_invol (f k' y')), <- (dneg_invol (f k y)). unfold dle in *. rewrite dneg_lt.
  apply orb_true_iff in E' as [E'|E']; apply orb_true_iff; [left; auto|right].
  apply deq_eq in E'. rewrite E'. apply deq_refl. rewrite dneg_nan. specialize (HN k' y'). unfold em in HN. cbn in HN. auto.
Qed.

(** One generation with uncertainty handling. *)
Lemma uh_generation s s1 s2 cols phen : std_sort_ok e -> g_uh g = true -> no_elitism g -> length cols = length (s_cands (t_sol s)) -> (1 <= length cols)%nat ->
  eval no e g cols phen s = Ok s1 -> tell no e g s1 = Ok s2 ->
  (exists r, (1 <= r <= length cols)%nat /\ length (t_log s2) = (length (t_log s) + length cols + r)%nat /\
     s_nevals (t_sol s2) = s_nevals (t_sol s) + Z.of_nat (length cols + r)) /\
  map c_x (s_cands (t_sol s1)) = cols /\ map c_id (s_cands (t_sol s1)) = upto (length cols) /\
  Permutation (s_cands (t_sol s2)) (s_cands (t_sol s1)) /\
  Permutation (map (fun c => (r_idx c, r_f c)) (s_cuh (t_sol s2))) (combine (seq 0 (length cols)) (map c_f (s_cands (t_sol s1)))) /\
  ranks_by r_f r_r1 (s_cuh (t_sol s2)) /\ ranks_by r_mut r_r2 (s_cuh (t_sol s2)) /\
  (forall i a, nth_error (s_cuh (t_sol s2)) i = Some a -> nth_error (s_cands (t_sol s2)) i = nth_error (s_cands (t_sol s1)) (r_idx a)).
Proof.
  intros HS HU HE HL H1 E Et.
  apply eval_spec in E as (_ & HP & K & G & LC & _ & _ & _ & (ys & L & _ & Y & _ & N1 & N2) & C & U).
  pose proof Et as Et'. apply tell_effect in Et' as (L2 & _ & _ & _ & _ & _ & NN & _).
  destruct (U HU) as (U1 & U2 & U3). clear U.
  assert (Ec : s_cands (t_sol s1) = new_gen e 0 (length (t_log s)) cols phen (s_cands (t_sol s))).
  { assert (elit_on g s = false). { unfold elit_on. rewrite HE. cbn. now rewrite andb_false_r, andb_false_r. }
    destruct C as [[C _]|[C _]]; [|congruence]. rewrite C. unfold mid_cands. rewrite HL, skipn_all, app_nil_r. reflexivity. }
  split. { exists (length ys). rewrite L2, L, app_length, eval_from_length, app_length, new_points_length, NN, N2. destruct (Y HU) as [Q|Q]; [|subst cols; cbn in H1; lia]. lia. }
  rewrite Ec. split; [apply new_gen_x|]. split; [rewrite new_gen_id; reflexivity|]. rewrite <- Ec.
  apply tell_spec in Et as (t1 & t2 & t3 & n4 & R & E2 & Ub & -> & _). destruct R as [(Q & _)|[_ R]]; [congruence|].
  apply ubc_spec in Ub as (KK & _). unfold kept_by_tell in KK. injection KK as K1 _ _ _ _ _ _ _ _ _ K2 _ _.
  assert (K1' : s_cands t3 = s_cands t1) by (rewrite K1, E2; destruct (_ && _); reflexivity).
  assert (K2' : s_cuh t3 = s_cuh t1) by (rewrite K2, E2; destruct (_ && _); reflexivity).
  cbn [t_sol set_t_sol set_s_num s_cands s_cuh]. rewrite K1', K2'.
  apply (uh_ranks e g HS) in R; [|now rewrite U1, LC, HL]. destruct R as (R1 & R2 & R3 & R4 & R5).
  split; [exact R1|]. split; [|split; [exact R3|split; [exact R4|exact R5]]].
  apply (Permutation_map (fst (B := dbl))) in R2. rewrite !map_map in R2. cbn [fst] in R2. rewrite R2.
  rewrite <- U1, Ec, <- U3. clear. induction (s_cuh (t_sol s1)); cbn; auto.
Qed.

(** Fixed parameters in the population. *)
Lemma set_row_spec i v (pop pop' : list (list T)) : set_row i v pop = Ok pop' -> forall x, In x pop' ->
  nth_error x (Z.to_nat i) = Some v /\ exists y, In y pop /\ upd_at y i v = Ok x.
Proof.
  intros H x Hx. destruct (mapM_in _ _ _ _ H Hx) as (y & Hy & E). split; [|eauto].
  apply upd_at_ok in E as [E ->]. rewrite nth_error_upd by lia. now rewrite Nat.eqb_refl.
Qed.
Lemma fix_rows_spec fx : NoDup (map fst fx) -> (forall i v, In (i, v) fx -> 0 <= i) -> forall pop pop', fix_rows (T := T) fx pop = Ok pop' ->
  forall x, In x pop' -> (forall i v, In (i, v) fx -> nth_error x (Z.to_nat i) = Some v) /\
    exists y, In y pop /\ forall j, (forall i v, In (i, v) fx -> Z.to_nat i <> j) -> nth_error x j = nth_error y j.
Proof.
  induction fx as [|[i v] fx IH]; intros ND HP pop pop' H x Hx; cbn [fix_rows] in H.
  - apply Ok_inj in H. subst pop'. split; [intros i v []|]. exists x. auto.
  - apply bind_ok in H as (pop1 & E1 & H). cbn in ND. apply NoDup_cons_iff in ND as [ND1 ND2].
    destruct (IH ND2 (fun i v Hi => HP i v (or_intror Hi)) pop1 pop' H x Hx) as (A & y & Hy & B).
    destruct (set_row_spec _ _ _ _ E1 y Hy) as (C & z & Hz & D). apply upd_at_ok in D as [D ->].
    split.
    + intros i' v' [Q|Hi]; [|apply A; auto]. injection Q as <- <-. rewrite B; [exact C|].
      intros i' v' Hi Q. assert (0 <= i) by (apply (HP i v); left; auto). assert (0 <= i') by (apply (HP i' v'); right; auto).
      assert (i' = i) by lia. subst i'. apply ND1. apply (in_map fst) in Hi. exact Hi.
    + exists z. split; auto. intros j Hj. rewrite B by (intros i' v' Hi; apply (Hj i' v'); right; auto).
      rewrite nth_error_upd by lia. destruct (Nat.eqb_spec (Z.to_nat i) j) as [Q|Q]; [exfalso; apply (Hj i v); [left; auto|auto]|].
      destruct (Nat.eqb_spec j (Z.to_nat i)); congruence || auto.
Qed.
Lemma ask_fixed s pop s' : NoDup (map fst (g_fixed g)) -> (forall i v, In (i, v) (g_fixed g) -> 0 <= i) -> ask no e g s = Ok (pop, s') ->
  forall x i v, In x pop -> In (i, v) (g_fixed g) -> nth_error x (Z.to_nat i) = Some v.
Proof.
  intros ND HP H x i v Hx Hi. unfold ask in H. destruct (n_sample no (g_lambda g) _) as [pop1 n2].
  apply bind_ok in H as ([pop2 s2] & _ & H). apply bind_ok in H as ([pop3 s3] & _ & H). apply bind_ok in H as (pop4 & H3 & H). apply Ok_inj in H. injection H as <- _.
  destruct (fix_rows_spec _ ND HP _ _ H3 x Hx) as [A _]. auto.
Qed.

(** Positions of the two points of two-point adaptation. *)
Lemma find_id_range id l : forall i, In id (map c_id (l : list (cand T))) -> i <= find_id id i l <= i + Z.of_nat (length l) - 1.
Proof.
  induction l as [|c l IH]; intros i H; cbn in H; [destruct H|]. cbn [find_id length]. destruct (Z.eqb_spec (c_id c) id); [lia|].
  destruct H as [H|H]; [congruence|]. specialize (IH (i + 1) H). lia.
Qed.
Lemma find_id_absent id l : forall i, ~ In id (map c_id (l : list (cand T))) -> find_id id i l = -1.
Proof. induction l as [|c l IH]; intros i H; cbn in *; auto. destruct (Z.eqb_spec (c_id c) id); [exfalso; auto|]. apply IH. auto. Qed.
Lemma rank_diff_bound (so : sol T N) : In (s_tpa1 so) (map c_id (s_cands so)) -> In (s_tpa2 so) (map c_id (s_cands so)) ->
  Z.abs (tpa_rank_diff so) <= Z.of_nat (length (s_cands so)) - 1.
Proof. intros H1 H2. unfold tpa_rank_diff. pose proof (find_id_range _ _ 0 H1). pose proof (find_id_range _ _ 0 H2). lia. Qed.

(** EQUALFUNVALS is not looked at when the dimension is below the history length. *)
Lemma equalfunvals_dead (so : sol T N) : Z.of_nat (g_dim g) < s_maxhist so -> criterion no g 5 so = Ok false.
Proof.
  intros H. unfold criterion. cbn [Z.eqb Pos.eqb]. unfold equal_fun_vals_crit.
  destruct (Z.ltb_spec (Z.min (Z.of_nat (g_dim g)) (Z.of_nat (length (s_hist so)))) (s_maxhist so)); [reflexivity|lia].
Qed.
End Thms2.

Lemma no_divergence_evals T N (no : numops T N) (e : env T N) (g : cfg T) m x0 n s0 rf fuel :
  samples_ok no -> pheno_returns e -> flags_wf g -> active g 8 -> g_max_fevals g = m -> m <> -1 ->
  st_new no g x0 n = Ok s0 -> 2 + Z.max 0 m <= Z.of_nat fuel -> Z.max 0 m < Z.of_nat rf ->
  optimize no e g (round no e g) rf fuel s0 <> Fault Diverges.
Proof.
  intros HS HP Hf Ha Hm Hm1 H0 Hfu Hrf. pose proof H0 as H0'. apply st_new_spec in H0' as (HL & _). apply cnt_new in H0 as (C0 & _ & _ & N0 & K0 & _ & _ & _).
  apply (optimize_terminates_evals no e g m rf); auto; lia.
Qed.
