(** A strategy that already made calls behaves as a new one whose objective is
    the continuation of the objective: the ghost history and the strategy's
    evaluation counter are only written. *)
From Verif Require Import Base Dbl Config Search SpecInvar SearchInv RankProofs SpecRestart.
Local Open Scope Z_scope.

Section Frame.
Context {T N : Type}.
Variable no : numops T N.
Variable e : env T N.
Variable g : cfg T.
Variables (L : list (list T * dbl)) (G : list (list (cand T))) (K : Z).
Notation st := (st T N).
Implicit Types (s : st).
Notation pre := (behind L G K).
Notation e' := (after (length L) e).

Lemma pre_sol so s : set_t_sol so (pre s) = pre (set_t_sol so s). Proof. reflexivity. Qed.
Lemma call_pre x s : call e x (pre s) = (fst (call e' x s), pre (snd (call e' x s))).
Proof. unfold call, behind, after; cbn. now rewrite app_length, app_assoc. Qed.
Lemma calls_pre xs : forall s, calls e xs (pre s) = (fst (calls e' xs s), pre (snd (calls e' xs s))).
Proof.
  induction xs as [|x xs IH]; intros s; cbn [calls]; [reflexivity|]. rewrite call_pre.
  destruct (call e' x s) as [v s1]; cbn [fst snd]. rewrite IH. destruct (calls e' xs s1) as [vs s2]; reflexivity.
Qed.
Lemma fevals_pre n s : update_fevals n (pre s) = pre (update_fevals n s).
Proof. unfold update_fevals, behind; cbn. now rewrite Z.add_assoc. Qed.
Lemma inc_pre s : inc_iter (pre s) = pre (inc_iter s). Proof. reflexivity. Qed.

Lemma eval_cols_pre cols phen : forall r s, eval_cols e r cols phen (pre s) = rmap pre (eval_cols e' r cols phen s).
Proof.
  induction cols as [|x cols IH]; intros r s; cbn [eval_cols]; [reflexivity|].
  change (t_sol (pre s)) with (t_sol s). destruct (at_ _ r) as [c|]; cbn [bind rmap]; [|reflexivity].
  destruct (match phen with [] => Ok x | _ => at_ phen r end) as [y|]; cbn [bind rmap]; [|reflexivity].
  rewrite call_pre. destruct (call e' y s) as [v s1]; cbn [fst snd]. change (t_sol (pre s1)) with (t_sol s1).
  destruct (upd_at _ _ _); cbn [bind rmap]; [|reflexivity]. rewrite pre_sol. apply IH.
Qed.
Lemma eval_uh_pre n muts : forall r s, eval_uh e r n muts (pre s) = rmap (fun p => (fst p, pre (snd p))) (eval_uh e' r n muts s).
Proof.
  induction n as [|n IH]; intros r s; cbn [eval_uh]; [reflexivity|].
  change (t_sol (pre s)) with (t_sol s). destruct (at_ _ _) as [c|]; cbn [bind rmap]; [|reflexivity].
  destruct (_ <? _)%nat.
  - destruct (at_ muts _) as [y|]; cbn [bind rmap]; [|reflexivity]. rewrite call_pre. destruct (call e' y s) as [v s1]; cbn [fst snd].
    rewrite IH. destruct (eval_uh _ _ _ _ _); reflexivity.
  - rewrite IH. destruct (eval_uh _ _ _ _ _); reflexivity.
Qed.
Lemma perform_uh_pre cols phen s : perform_uh no e g cols phen (pre s) = rmap pre (perform_uh no e' g cols phen s).
Proof.
  unfold perform_uh. change (t_sol (pre s)) with (t_sol s). destruct (n_coin _ _) as [coin n1].
  destruct (_ <? _)%nat; [reflexivity|]. destruct (n_mutate _ _ _) as [muts n2]. rewrite pre_sol, eval_uh_pre.
  destruct (eval_uh _ _ _ _ _); reflexivity.
Qed.
Lemma elitist_pre n s : elitist g n (pre s) = rmap pre (elitist g n s).
Proof.
  unfold elitist. change (t_sol (pre s)) with (t_sol s). change (t_niter (pre s)) with (t_niter s). change (t_initel (pre s)) with (t_initel s).
  destruct (_ && _); [|reflexivity]. destruct (_ <? _)%nat; [reflexivity|]. destruct (_ <? _)%nat; [|reflexivity]. destruct (upd_at _ _ _); reflexivity.
Qed.
Lemma eval_pre cols phen s : eval no e g cols phen (pre s) = rmap pre (eval no e' g cols phen s).
Proof.
  unfold eval. rewrite eval_cols_pre. destruct (eval_cols _ _ _ _ _) as [s1|]; cbn [bind rmap]; [|reflexivity].
  assert (X : forall l, set_t_gens (t_gens (pre s1) ++ [l]) (pre s1) = pre (set_t_gens (t_gens s1 ++ [l]) s1)).
  { intros l. unfold behind; cbn. now rewrite app_assoc. }
  change (t_sol (pre s1)) with (t_sol s1). rewrite X.
  assert (Y : (if g_uh g then perform_uh no e g cols phen (pre (set_t_gens (t_gens s1 ++ [firstn (length cols) (s_cands (t_sol s1))]) s1)) else Ok (pre (set_t_gens (t_gens s1 ++ [firstn (length cols) (s_cands (t_sol s1))]) s1)))
    = rmap pre (if g_uh g then perform_uh no e' g cols phen (set_t_gens (t_gens s1 ++ [firstn (length cols) (s_cands (t_sol s1))]) s1) else Ok (set_t_gens (t_gens s1 ++ [firstn (length cols) (s_cands (t_sol s1))]) s1))).
  { destruct (g_uh g); [apply perform_uh_pre|reflexivity]. }
  rewrite Y. clear X Y. destruct (if g_uh g then _ else _) as [s2|]; cbn [bind rmap]; [|reflexivity].
  change (t_sol (pre s2)) with (t_sol s2). rewrite elitist_pre. destruct (elitist _ _ _); cbn [bind rmap]; [|reflexivity].
  now rewrite fevals_pre.
Qed.
Lemma tell_pre s : tell no e g (pre s) = rmap pre (tell no e' g s).
Proof.
  unfold tell. change (t_sol (pre s)) with (t_sol s). change (t_niter (pre s)) with (t_niter s).
  change (uncertainty_handling e' g (t_sol s)) with (uncertainty_handling e g (t_sol s)).
  destruct (if g_uh g then _ else _) as [s1|]; cbn [bind rmap]; [|reflexivity].
  destruct (update_best_candidates _ _); reflexivity.
Qed.
Lemma gradf_pre x s : gradf no e g x (pre s) = (fst (gradf no e' g x s), pre (snd (gradf no e' g x s))).
Proof.
  unfold gradf. change (e_gfunc e') with (e_gfunc e). destruct (e_gfunc e); [reflexivity|]. rewrite calls_pre.
  destruct (calls e' _ s) as [vs s1]; cbn [fst snd]. now rewrite fevals_pre.
Qed.
Lemma ask_pre s : ask no e g (pre s) = rmap (fun p => (fst p, pre (snd p))) (ask no e' g s).
Proof.
  unfold ask. change (t_sol (pre s)) with (t_sol s). change (t_niter (pre s)) with (t_niter s).
  destruct (n_sample _ _ _) as [pop n2]. rewrite pre_sol. set (s1 := set_t_sol _ s). clearbody s1. clear s.
  change (e_pheno e') with (e_pheno e).
  assert (X : forall p2 : list (list T) * st, (let (pop2, s2) := p2 in
     do p3 <- (if (g_tpa g =? 2) && (0 <? t_niter (pre s2)) then
              let '(x1, x2, n3) := n_tpa_points no (s_num (t_sol (pre s2))) in
              let so := set_s_num n3 (t_sol (pre s2)) in
              let so := if g_gradient g then set_s_tpa1 1 (set_s_tpa2 2 so) else so in
              do pa <- set_col (s_tpa1 so) x1 pop2;
              do pb <- set_col (s_tpa2 so) x2 pa;
              Ok (pb, set_t_sol so (pre s2))
            else Ok (pop2, pre s2));
     let (pop3, s3) := p3 in do pop4 <- fix_rows (g_fixed g) pop3; Ok (pop4, s3))
   = rmap (fun p : list (list T) * st => (fst p, pre (snd p))) (let (pop2, s2) := p2 in
     do p3 <- (if (g_tpa g =? 2) && (0 <? t_niter s2) then
              let '(x1, x2, n3) := n_tpa_points no (s_num (t_sol s2)) in
              let so := set_s_num n3 (t_sol s2) in
              let so := if g_gradient g then set_s_tpa1 1 (set_s_tpa2 2 so) else so in
              do pa <- set_col (s_tpa1 so) x1 pop2;
              do pb <- set_col (s_tpa2 so) x2 pa;
              Ok (pb, set_t_sol so s2)
            else Ok (pop2, s2));
     let (pop3, s3) := p3 in do pop4 <- fix_rows (g_fixed g) pop3; Ok (pop4, s3))).
  { intros [pop2 s2]. change (t_sol (pre s2)) with (t_sol s2). change (t_niter (pre s2)) with (t_niter s2). destruct (_ && _).
    - destruct (n_tpa_points _ _) as [[x1 x2] n3]. cbv zeta. match goal with |- context [set_col ?a x1 ?b] => destruct (set_col a x1 b) end; cbn [bind rmap]; [|reflexivity].
      match goal with |- context [set_col ?a x2 ?b] => destruct (set_col a x2 b) end; cbn [bind rmap]; [|reflexivity].
      destruct (fix_rows _ _); reflexivity.
    - cbn [bind]. destruct (fix_rows _ _); reflexivity. }
  destruct (g_gradient g).
  - change (t_sol (pre s1)) with (t_sol s1). destruct (e_pheno e _) as [x|]; cbn [bind rmap]; [|reflexivity].
    rewrite gradf_pre. destruct (gradf no e' g x s1) as [gr s2]; cbn [fst snd]. change (t_sol (pre s2)) with (t_sol s2).
    destruct (n_gradcol _ _ _) as [nx|].
    + destruct (set_col 0 nx pop) as [pop'|]; cbn [bind rmap]; [|reflexivity]. apply (X (pop', s2)).
    + cbn [bind]. apply (X (pop, s2)).
  - cbn [bind]. apply (X (pop, s1)).
Qed.
Lemma stop_pre s : stop no e g (pre s) = rmap (fun p => (fst p, pre (snd p))) (stop no e' g s).
Proof.
  unfold stop. change (t_sol (pre s)) with (t_sol s). change (t_niter (pre s)) with (t_niter s).
  change (e_progress e') with (e_progress e). destruct (_ <? _); [reflexivity|]. destruct (negb _); [reflexivity|]. destruct (_ =? 0); [reflexivity|].
  destruct (stop_scan _ _ _ _); reflexivity.
Qed.
Lemma round_pre s : round no e g (pre s) = rmap pre (round no e' g s).
Proof.
  unfold round. rewrite ask_pre. destruct (ask no e' g s) as [[pop s1]|]; cbn [bind rmap fst snd]; [|reflexivity].
  change (e_pheno e') with (e_pheno e). destruct (mapM _ _) as [ph|]; cbn [bind rmap]; [|reflexivity].
  rewrite eval_pre. destruct (eval _ _ _ _ _ _) as [s2|]; cbn [bind rmap]; [|reflexivity]. rewrite tell_pre. destruct (tell _ _ _ _); reflexivity.
Qed.
Lemma loop_pre fuel : forall s, loop no e g (round no e g) fuel (pre s) = rmap pre (loop no e' g (round no e' g) fuel s).
Proof.
  induction fuel as [|fuel IH]; intros s; cbn [loop]; [reflexivity|]. rewrite stop_pre. destruct (stop no e' g s) as [[b s1]|]; cbn [bind rmap fst snd]; [|reflexivity].
  destruct b; [reflexivity|]. rewrite round_pre. destruct (round no e' g s1) as [s2|]; cbn [bind rmap]; [|reflexivity]. apply IH.
Qed.
Lemma init_pre s : eval_initial no e g (pre s) = rmap pre (eval_initial no e' g s).
Proof.
  unfold eval_initial. change (t_sol (pre s)) with (t_sol s). change (t_initel (pre s)) with (t_initel s). change (e_pheno e') with (e_pheno e).
  destruct (_ || _); [|reflexivity]. destruct (e_pheno e _) as [y|]; cbn [bind rmap]; [|reflexivity]. rewrite call_pre. destruct (call e' y s) as [v s1]; cbn [fst snd].
  change (t_sol (pre s1)) with (t_sol s1). rewrite pre_sol, fevals_pre. reflexivity.
Qed.
Lemma edm_pre s : edm no e g (pre s) = rmap pre (edm no e' g s).
Proof.
  unfold edm. change (t_sol (pre s)) with (t_sol s). change (e_pheno e') with (e_pheno e).
  destruct (e_pheno e _) as [y|]; cbn [bind rmap]; [|reflexivity]. rewrite gradf_pre. destruct (gradf no e' g y s) as [gr s1]; reflexivity.
Qed.
Lemma optimize_pre rf fuel s : e_restart (g_elit g) = false ->
  optimize no e g (round no e g) rf fuel (pre s) = rmap (fun p => (fst p, pre (snd p))) (optimize no e' g (round no e' g) rf fuel s).
Proof.
  intros HE. destruct rf; cbn [optimize]; rewrite init_pre; destruct (eval_initial no e' g s) as [s1|]; cbn [bind rmap]; try reflexivity.
  all: rewrite loop_pre; destruct (loop no e' g _ fuel s1) as [s2|]; cbn [bind rmap]; try reflexivity.
  all: assert (X : (if g_edm g then edm no e g (pre s2) else Ok (pre s2)) = rmap pre (if g_edm g then edm no e' g s2 else Ok s2)) by (destruct (g_edm g); [apply edm_pre|reflexivity]).
  all: rewrite X; clear X; destruct (if g_edm g then _ else _) as [s3|]; cbn [bind rmap]; try reflexivity.
  all: unfold restart_wanted; rewrite HE; reflexivity.
Qed.
End Frame.
