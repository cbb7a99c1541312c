From Coq Require Import Permutation.
From Verif Require Import Base Dbl Config Par ParProofs GpParProofs Search SpecSearch SearchInv EvalPar StopProofs.
Local Open Scope Z_scope.

Section EP.
Context {T N : Type}.
Variable no : numops T N.
Variable e : env T N.
Variable g : cfg T.
Variable f : list T -> dbl.
Hypothesis Hf : forall k x, e_f e k x = f x.
Notation st := (st T N).

Lemma eval_split cols phen s : eval no e g cols phen s = do s1 <- eval_cols e 0 cols phen s; eval_rest no e g cols phen s1.
Proof. reflexivity. Qed.

Lemma threads_nth cols phen : forall r t,
  nth_error (eval_threads f r cols phen) t = match nth_error cols t with Some x => Some (NaN, eval_iter f (r + t) x (point phen (r + t) x)) | None => None end.
Proof.
  induction cols as [|x cols IH]; intros r [|t]; cbn [eval_threads nth_error]; auto.
  - now rewrite Nat.add_0_r.
  - rewrite IH, Nat.add_succ_r. reflexivity.
Qed.
Lemma loop_owned cols phen cands : owned (eval_loop f cols phen cands).
Proof.
  intros t l acts a Ht Ha. cbn [eval_loop p_threads] in Ht. rewrite threads_nth in Ht. destruct (nth_error cols t); [|discriminate].
  injection Ht as <- <-. cbn in Ha. decompose [or] Ha; subst; cbn; auto; contradiction.
Qed.
Lemma loop_sized cols phen cands : (length cols <= length cands)%nat -> sized _ _ _ (eval_loop f cols phen cands).
Proof.
  intros H. unfold sized, eval_loop; cbn. assert (L : forall r, length (eval_threads f r cols phen) = length cols) by (clear H; induction cols; intros; cbn; auto).
  rewrite L. auto.
Qed.
Lemma new_gen_nth cols phen old : forall r k i, nth_error (new_gen e r k cols phen old) i =
  match nth_error cols i with Some x => Some (mkCand (f (phen_at phen (r + i) x)) x (Z.of_nat (r + i)) (c_r (nth (r + i) old cand0))) | None => None end.
Proof.
  induction cols as [|x cols IH]; intros r k [|i]; cbn [new_gen nth_error]; auto.
  - now rewrite Hf, Nat.add_0_r.
  - rewrite IH, Nat.add_succ_r. reflexivity.
Qed.
Lemma events_eq cols phen : forall r k mem, (r + length cols <= length phen)%nat \/ phen = [] -> (length cols <= length mem)%nat ->
  rest_events _ _ _ mem (eval_threads f r cols phen) = eval_from e k (new_points r cols phen).
Proof.
  induction cols as [|x cols IH]; intros r k [|c mem] Hp Hm; cbn [eval_threads new_points rest_events]; auto; try (cbn in Hm; lia).
  rewrite eval_from_cons, Hf. cbn [eval_iter seq_run snd app a_run].
  assert (P : point phen r x = phen_at phen r x).
  { unfold point, phen_at. destruct phen; auto. apply nth_indep. destruct Hp as [Hp|Hp]; [cbn in *; lia|discriminate]. }
  rewrite P. f_equal. apply IH; [|cbn in Hm; lia]. destruct Hp; [left; cbn in *; lia|auto].
Qed.

Lemma rest_perm cols phen s s0 l l' : Permutation l l' -> g_uh g = false ->
  eval_rest no e g cols phen (set_t_log l s) = Ok s0 -> exists s1, eval_rest no e g cols phen (set_t_log l' s) = Ok s1 /\ same_but_order s1 s0.
Proof.
  intros P HU. unfold eval_rest. rewrite HU. cbn [bind].
  set (G := t_gens _ ++ _). change (t_gens (set_t_log l' s)) with (t_gens (set_t_log l s)). change (s_cands (t_sol (set_t_log l' s))) with (s_cands (t_sol (set_t_log l s))). fold G.
  unfold elitist. cbn [t_niter set_t_gens set_t_log t_initel t_sol].
  destruct ((0 <? t_niter s) && _).
  - cbv zeta. destruct (_ <? _)%nat; [discriminate|]. destruct (_ <? _)%nat.
    + destruct (upd_at _ 1 _) as [cs|]; cbn [bind]; [|discriminate]. intros Q. apply Ok_inj in Q. subst s0. eexists. split; [reflexivity|]. repeat split; auto.
    + cbn [bind]. intros Q. apply Ok_inj in Q. subst s0. eexists. split; [reflexivity|]. repeat split; auto.
  - cbn [bind]. intros Q. apply Ok_inj in Q. subst s0. eexists. split; [reflexivity|]. repeat split; auto.
Qed.

Lemma loop_result cols phen old k sched ps : (length cols <= length old)%nat -> (phen = [] \/ (length cols <= length phen)%nat) ->
  prun sched (eval_loop f cols phen old) = Some ps -> finished ps ->
  p_mem ps = new_gen e 0 k cols phen old ++ skipn (length cols) old /\ Permutation (p_trace ps) (eval_from e k (new_points 0 cols phen)).
Proof.
  intros HC HP Hr Hfin.
  destruct (schedule_free _ _ _ sched _ _ (loop_owned cols phen old) Hr Hfin) as [Hm Ht].
  cbn [eval_loop p_trace p_mem p_threads app] in Ht.
  rewrite (events_eq cols phen 0 k old) in Ht; [|destruct HP; auto|auto]. split; auto.
  apply nth_error_ext. intros i. rewrite Hm. unfold fin_slot, eval_loop; cbn [p_mem p_threads]. rewrite threads_nth.
  destruct (Nat.ltb_spec i (length cols)) as [Hi|Hi].
  - rewrite nth_error_app1 by (rewrite new_gen_length; auto). rewrite new_gen_nth.
    destruct (nth_error cols i) as [x|] eqn:Ex; [|apply nth_error_None in Ex; lia].
    destruct (nth_error old i) as [c|] eqn:Ec; [|apply nth_error_None in Ec; lia].
    cbn [eval_iter seq_run fst a_run plus]. f_equal. unfold set_c_f, set_c_x, set_c_id. cbn [c_f c_x c_id c_r].
    rewrite (nth_error_nth old i cand0 Ec). f_equal. f_equal. unfold point, phen_at. destruct phen; auto. apply nth_indep. destruct HP as [HP|HP]; [discriminate|lia].
  - rewrite nth_error_app2 by (rewrite new_gen_length; auto). rewrite new_gen_length.
    assert (nth_error cols i = None) as -> by (apply nth_error_None; auto).
    assert (S : nth_error (skipn (length cols) old) (i - length cols) = nth_error old i).
    { rewrite <- (firstn_skipn (length cols) old) at 2. rewrite nth_error_app2 by (rewrite firstn_length; lia). rewrite firstn_length. f_equal. lia. }
    rewrite S. destruct (nth_error old i); auto.
Qed.
Lemma eval_cols_ex phen cols : forall r (s : st), (r + length cols <= length (s_cands (t_sol s)))%nat -> (phen = [] \/ (r + length cols <= length phen)%nat) ->
  exists s1, eval_cols e (Z.of_nat r) cols phen s = Ok s1.
Proof.
  clear Hf. induction cols as [|x cols IH]; intros r s H1 H2; cbn [eval_cols]; [eauto|]. cbn [length] in *.
  destruct (at_in (s_cands (t_sol s)) (Z.of_nat r)) as (c & -> & _); [lia|]. cbn [bind].
  assert (Y : exists y, (match phen with [] => Ok x | _ => at_ phen (Z.of_nat r) end) = Ok y).
  { destruct phen; [eauto|]. destruct H2 as [H2|H2]; [discriminate|]. destruct (at_in (l :: phen) (Z.of_nat r)) as (y & -> & _); [lia|eauto]. }
  destruct Y as [y ->]. cbn [bind call]. unfold call. cbn [t_sol set_t_log].
  destruct (upd_at_in (s_cands (t_sol s)) (Z.of_nat r) (mkCand (e_f e (length (t_log s)) y) x (Z.of_nat r) (c_r c))) as [cs Ecs]; [lia|]. rewrite Ecs. cbn [bind].
  replace (Z.of_nat r + 1) with (Z.of_nat (S r)) by lia. apply IH; [|destruct H2; [auto|right; lia]].
  apply upd_at_length in Ecs. cbn. lia.
Qed.
(** Any schedule gives what the sequential loop gives. *)
Lemma eval_par_seq cols phen s s' : g_uh g = false ->
  (length cols <= length (s_cands (t_sol s)))%nat -> (phen = [] \/ (length cols <= length phen)%nat) ->
  eval_par no e g f cols phen s s' -> exists s1, eval no e g cols phen s = Ok s1 /\ same_but_order s1 s'.
Proof.
  intros HU HC HP (sched & ps & Hr & Hfin & Hrest).
  destruct (loop_result cols phen _ (length (t_log s)) sched ps HC HP Hr Hfin) as [M Ht].
  rewrite eval_split. destruct (eval_cols_ex phen cols 0 s) as [s1 E1]; auto. change (Z.of_nat 0) with 0 in E1. rewrite E1. cbn [bind].
  apply (eval_cols_spec e 0) in E1 as (_ & _ & E1). cbv zeta in E1. cbn [firstn app plus] in E1. rewrite <- M in E1. subst s1.
  eapply rest_perm; [|exact HU|exact Hrest]. apply Permutation_app_head. auto.
Qed.
(** and the evaluation can always complete in parallel when it can sequentially. *)
Lemma eval_par_ex cols phen s s1 : g_uh g = false ->
  (length cols <= length (s_cands (t_sol s)))%nat -> (phen = [] \/ (length cols <= length phen)%nat) ->
  eval no e g cols phen s = Ok s1 -> exists s', eval_par no e g f cols phen s s'.
Proof.
  intros HU HC HP He.
  destruct (can_finish _ _ _ (eval_loop f cols phen (s_cands (t_sol s))) (loop_owned _ _ _) (loop_sized _ _ _ HC)) as (sched & ps & Hr & Hfin).
  destruct (loop_result cols phen _ (length (t_log s)) sched ps HC HP Hr Hfin) as [M Ht].
  rewrite eval_split in He. apply bind_ok in He as (s2 & E1 & He).
  apply (eval_cols_spec e 0) in E1 as (_ & _ & E1). cbv zeta in E1. cbn [firstn app plus] in E1. rewrite <- M in E1. subst s2.
  destruct (rest_perm cols phen _ s1 _ (t_log s ++ p_trace ps) (Permutation_app_head _ (Permutation_sym Ht)) HU He) as (s' & E & _).
  exists s', sched, ps. auto.
Qed.
End EP.
