(** Instances of the theorems of PropsRot.v. *)
From Coq Require Import Reals Lra Lia ZArith List.
From Verif Require Import Base Dbl Vec VecProofs Params Config Search SpecSearch SpecInvar SpecMorph SpecSafe Update SpecUpdate SpecAffine SpecRot
  SearchInv SafeProofs DemoNum DemoNumProofs NumThms AffineThms.
Import ListNotations.
Open Scope R_scope.

(** The rotation by the angle of the 3-4-5 triangle. *)
Definition turn345 : mat := fun i j =>
  match i, j with 0%nat, 0%nat | 1%nat, 1%nat => 3 / 5 | 0%nat, 1%nat => - (4 / 5) | 1%nat, 0%nat => 4 / 5 | _, _ => 0 end.
Lemma turn345_orthogonal : orthogonal 2 turn345.
Proof.
  split; intros i j Hi Hj; destruct i as [|[|i]], j as [|[|j]]; try lia; cbn; lra.
Qed.
(** No criterion looks at single coordinates. *)
Definition cfg_free (k : cpar) : cfg R := set_g_flags (flags_of_ctor [(2, false); (3, false); (4, false)]%Z) (cfg_of k).
Lemma cfg_free_criteria k : no_coordinate_criteria (cfg_free k).
Proof. intros c H. cbn in H. repeat (destruct H as [H|H]; [injection H as <-; try discriminate; lia|]). contradiction. Qed.
Lemma run_free p h : (2 <= k_lambda (p_k p))%nat -> k_fixed (p_k p) = [] -> no_optimize h = true -> Forall (proper_op (cfg_free (p_k p))) h -> forall x0 n,
  exists s0 s, st_new (cma_num p) (cfg_free (p_k p)) x0 n = Ok s0 /\ run_ops (cma_num p) point_env (cfg_free (p_k p)) h s0 = Ok s.
Proof.
  intros HL HF0 NO W x0 n. set (g := cfg_free (p_k p)) in *.
  assert (HF : forall i v, In (i, v) (g_fixed g) -> (0 <= i < Z.of_nat (g_dim g))%Z) by (cbn; rewrite HF0; intros i v []).
  destruct (new_ok p HL x0 n) as [s0 H0]. exists s0. change (st_new (cma_num p) g x0 n = Ok s0) in H0.
  assert (HV := point_env_real). assert (HD := dims_of p g eq_refl).
  assert (HP : pheno_total point_env g) by (intros x _; cbn; eauto).
  assert (HR : room g) by (split; [exact HL|discriminate]). assert (HE : elitism_le1 g) by (split; reflexivity).
  assert (X : forall s, sinv g s -> exists s', run_ops (cma_num p) point_env g h s = Ok s'); [|destruct (X s0 (sinv_new (cma_num p) g x0 n s0 H0)) as [s E]; eauto].
  clear s0 H0. induction h as [|o h IH]; intros s I; cbn [run_ops]; [eauto|]. inversion W; subst.
  assert (Y : exists s', do_op (cma_num p) point_env g o s = Ok s' /\ sinv g s').
  { destruct o; cbn [proper_op do_op] in *; try contradiction; try discriminate.
    - destruct (ask_safe (cma_num p) point_env g HD HP HF HR s I) as (pop & s1 & E & _ & I1). rewrite E. cbn. eauto.
    - destruct (stop_safe (cma_num p) point_env g HR s I) as (b & s1 & E & I1). rewrite E. cbn. eauto.
    - destruct H1 as [W1 W2].
      destruct (eval_safe (cma_num p) point_env g HR eq_refl s cols phen I W1 W2) as [s2 E2]. rewrite E2. cbn [bind].
      destruct (eval_real (cma_num p) point_env g HV HE s cols phen s2 I W1 E2) as [I2 F2].
      destruct (tell_safe (cma_num p) point_env g HR eq_refl s2 I2 F2) as (s3 & E3 & I3). rewrite E3. cbn. eauto. }
  destruct Y as (s' & -> & I'). cbn [bind]. apply IH; auto. destruct o; auto; discriminate.
Qed.
(** The random streams of [num0], the sampler turned. *)
Definition num_turned (q : mat) : num :=
  mkNu (fun _ => 0) (fun _ => 0) 0 ident (fun _ => 0) (fun _ => 0) ident (fun _ => 0) (fun _ => 0) 0 false 0 (fun _ => 0)
    (rot_dec 2 q (x_dec num0)) (fun _ => 0) ident 0 0 0 0 0 0 0.
Lemma num_turned_stream q : rot_stream 2 q num0 (num_turned q).
Proof. repeat split; auto. intros i _. cbn. ring. Qed.
