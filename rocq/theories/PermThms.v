(** Renaming the parameters: instances. *)
From Coq Require Import Reals List Lia Lra Arith.
From Verif Require Import Base Dbl Vec VecProofs Params SpecParams Config Search SpecSearch SpecInvar SpecMorph SpecSafe SpecUh Update SpecUpdate ParamSound DemoNum DemoNumProofs NumThms SpecAffine AffineProofs AffineThms SpecRot SpecPerm PermProofs.
Import ListNotations.
Local Open Scope R_scope.

Lemma renaming s r p e g pr x0 n n' hs : renames (k_dim (p_k p)) s r -> no_matrix p -> same_problem p g -> plain_space p e g -> std_sort_ok e ->
  (forall so so', moved_sol (perm s) (permuted_num (k_dim (p_k p)) s) so so' -> pr so' = e_progress e so) ->
  length x0 = k_dim (p_k p) -> perm_stream (k_dim (p_k p)) s n n' -> Forall (point_op g) hs -> initial_known g hs ->
  moved_result (perm s) (permuted_num (k_dim (p_k p)) s)
    (do q <- st_new (cma_num p) g x0 n; run_ops (cma_num p) e g hs q)
    (do q <- st_new (cma_num (perm_par s p)) g (perm s x0) n'; run_ops (cma_num (perm_par s p)) (perm_env r pr e) g (map (move_op (perm s)) hs) q).
Proof. intros HQ HS HG HP HU HPr HX HN F HI. apply perm_history; auto. apply HP. Qed.
Lemma renaming_rounds s r p e g pr x0 n n' m : renames (k_dim (p_k p)) s r -> no_matrix p -> same_problem p g -> plain_space p e g -> std_sort_ok e ->
  (forall so so', moved_sol (perm s) (permuted_num (k_dim (p_k p)) s) so so' -> pr so' = e_progress e so) ->
  length x0 = k_dim (p_k p) -> perm_stream (k_dim (p_k p)) s n n' -> needs_initial g = false ->
  moved_result (perm s) (permuted_num (k_dim (p_k p)) s)
    (do q <- st_new (cma_num p) g x0 n; rounds (cma_num p) g e m q)
    (do q <- st_new (cma_num (perm_par s p)) g (perm s x0) n'; rounds (cma_num (perm_par s p)) g (perm_env r pr e) m q).
Proof. intros HQ HS HG HP HU HPr HX HN HI. apply perm_rounds; auto. apply HP. Qed.
Lemma draws_renamed d s z c i : (i < d)%nat -> perm_draws d s z (c * d + i)%nat = z (c * d + s i)%nat.
Proof.
  intros Hi. unfold perm_draws. replace (c * d + i)%nat with (i + c * d)%nat by lia.
  rewrite Nat.div_add, Nat.mod_add, Nat.div_small, Nat.mod_small by lia. f_equal.
Qed.
Lemma perm_inverse s r x : renames (length x) s r -> perm r (perm s x) = x /\ length (perm s x) = length x /\ forall i, (i < length x)%nat -> at0 (perm s x) i = at0 x (s i).
Proof.
  intros H. split; [|split; [apply tab_length|intros i Hi; unfold perm; now rewrite at0_tab]].
  unfold perm at 1. unfold perm at 1. rewrite tab_length. transitivity (tab (length x) (at0 x)); [|apply tab_at0; auto]. apply tab_ext. intros i Hi.
  destruct (H i Hi) as (_ & R1 & _ & R2). unfold perm. rewrite at0_tab by exact R1. now rewrite R2.
Qed.
(** Two parameters exchanged. *)
Definition swap (i : nat) : nat := match i with O => 1%nat | S O => O | _ => i end.
Lemma swap_renames d : (2 <= d)%nat -> renames d swap swap.
Proof. intros H i Hi. destruct i as [|[|i]]; cbn; repeat split; auto; lia. Qed.
