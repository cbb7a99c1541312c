(** Runs of the error estimation on the small problem. *)
From Coq Require Import Reals Lra.
From Verif Require Import Base EoMatrix Pwq Scaling GenoPheno SpecBounds SpecGeno Errstats SpecErr
  EoMatrixProofs PwqProofs GenoPhenoProofs ScalingProofs GpParProofs ErrVec ErrVpk ErrPli ErrSafe ErrTerm ErrOnce ErrDemo.
Open Scope R_scope.

Lemma point_dim c : keeps_dim (point_search c).
Proof.
  intros rf ip o H. unfold point_search in H. cbv zeta in H. apply bind_ok in H; destruct H as (y & _ & H).
  apply Ok_inj in H; subst o. cbn. apply repeat_length.
Qed.
Lemma point_value c : true_value (point_search c).
Proof.
  intros rf ip o H. unfold point_search in H. cbv zeta in H. apply bind_ok in H; destruct H as (y & Hy & H).
  apply Ok_inj in H; subst o. cbn. eauto.
Qed.
Lemma valley_full : full_solution 2 valley_sol.
Proof.
  split; [exists optimum, []; split; reflexivity|]. split; [exists [], optimum; split; reflexivity|].
  split; [reflexivity|]. repeat constructor.
Qed.
Lemma rlt_t a b : a < b -> rlt a b = true.
Proof. unfold rlt. destruct (Rlt_dec a b); tauto. Qed.
Lemma rlt_f a b : b <= a -> rlt a b = false.
Proof. unfold rlt. destruct (Rlt_dec a b); [lra|reflexivity]. Qed.
Lemma rle_t a b : a <= b -> rle a b = true.
Proof. unfold rle. destruct (Rle_dec a b); tauto. Qed.
Lemma rle_f a b : b < a -> rle a b = false.
Proof. unfold rle. destruct (Rle_dec a b); [lra|reflexivity]. Qed.

Lemma valley_2 a b : valley [a; b] = Rabs (a - 10) + (Rabs (b - 10) + 0).
Proof. reflexivity. Qed.

Ltac ev1 := cbn -[Rplus Rminus Rmult Rdiv Ropp Rinv Rabs IZR rlt rle valley take_linear_step pl_loop].
Ltac ev := ev1; change (Pos.to_nat 1) with 1%nat; ev1.
Ltac absr := rewrite ?valley_2; repeat match goal with |- context [Rabs ?a] =>
    lazymatch a with context [Rabs _] => fail | _ => idtac end;
    first [rewrite (Rabs_pos_eq a) by lra | rewrite (Rabs_left1 a) by lra] end; lra.
Ltac dec := match goal with
  | |- context [rlt ?a ?b] => first [rewrite (rlt_t a b) by absr | rewrite (rlt_f a b) by absr]
  | |- context [rle ?a ?b] => first [rewrite (rle_t a b) by absr | rewrite (rle_f a b) by absr]
  end.
(** The coordinate [k] of the optimum moved to [v]. *)
Definition moved (k : nat) (v : R) : list R := match k with O => [v; 10] | _ => [10; v] end.
(** One and two doublings of the first step. *)
Lemma valley_step k d fup fuel : (k = 0 \/ k = 1)%nat -> (d = 1 \/ d = -1) -> (fup = 2 \/ fup = 4) ->
  exists x e, take_linear_step valley valley_par (S (S (S fuel))) k 0 fup 0.1 10 true (s_eigv valley_sol) d [10; 10] = Ok (e, moved k x) /\ x = 10 + fup * d.
Proof.
  intros [-> | ->] [-> | ->] [-> | ->]; do 2 eexists; (split; [unfold take_linear_step; ev; dec; cbn [step_loop]; unfold far; repeat (dec; ev); reflexivity|lra]).
Qed.
(** The restricted search. *)
Lemma valley_pk k v x sol : (k = 0 \/ k = 1)%nat -> s_cands sol = [optimum] ->
  optimize_pk valley valley_par (point_search 10) sol k v (moved k x) false false =
  Ok (mkES [mkEC (moved k v) (valley (moved k v))] [mkEC (moved k v) (valley (moved k v))] [] 1 0 []).
Proof. intros [-> | ->] H; unfold optimize_pk, optimize_vpk; rewrite H; ev; reflexivity. Qed.
Definition at_optimum (sol : esol) : Prop :=
  s_cands sol = [optimum] /\ s_hist sol = [optimum] /\ s_eigv sol = s_eigv valley_sol.
Lemma valley_value k fup d : (k = 0 \/ k = 1)%nat -> (d = 1 \/ d = -1) -> 0 < fup -> valley (moved k (10 + fup * d)) = fup.
Proof.
  intros [-> | ->] [-> | ->] H; cbn [moved]; rewrite valley_2;
    repeat match goal with |- context [Rabs ?a] => first [rewrite (Rabs_pos_eq a) by lra | rewrite (Rabs_left1 a) by lra] end; lra.
Qed.
Lemma valley_hits sol k d fup g : at_optimum sol -> (k = 0 \/ k = 1)%nat -> (d = 1 \/ d = -1) -> (fup = 2 \/ fup = 4) ->
  hits valley valley_par (point_search 10) sol (S (S (S g))) k 0 fup 0.1 d [10; 10] fup (moved k (10 + fup * d)).
Proof.
  intros (H1 & H2 & H3) Hk Hd Hf. destruct (valley_step k d fup g Hk Hd Hf) as (x & e & Hs & Ex).
  do 5 eexists. rewrite H3. split; [exact Hs|]. split; [destruct Hk as [-> | ->]; reflexivity|].
  split; [apply valley_pk; assumption|]. cbn [s_status best s_hist rev app ec_f ec_x]. split; [lia|]. split; [reflexivity|].
  subst x. assert (0 < fup) by lra. cbn [ec_f ec_x]. rewrite (valley_value k fup d) by assumption.
  split; [reflexivity|]. split; [reflexivity|]. split; [lra|]. unfold near_level. rewrite Rabs_pos_eq; lra.
Qed.
Lemma valley_interval sol k s fup f g m : at_optimum sol -> (k = 0 \/ k = 1)%nat -> (0 < s)%nat -> (fup = 2 \/ fup = 4) ->
  exists l, profile_likelihood valley valley_par (point_search 10) (S f) (S (S (S g))) sol k false s fup 0.1 m = Ok (l, insert_pli k l sol) /\
    p_min l = 10 - fup /\ p_max l = 10 + fup /\ p_errmin l = - fup /\ p_errmax l = fup.
Proof.
  intros Hs Hk H0 Hf. pose proof Hs as (H1 & H2 & H3).
  assert (Hb : best sol = Ok optimum) by (unfold best; rewrite H2; reflexivity).
  assert (N : nth_error [10; 10] k = Some 10) by (destruct Hk as [-> | ->]; reflexivity).
  assert (M : forall v, nth_error (moved k v) k = Some v) by (intros v; destruct Hk as [-> | ->]; reflexivity).
  destruct (pl_once valley valley_par (point_search 10) sol (S (S (S g))) k s fup 0.1 m f optimum [10; 10] 10 10
    fup (moved k (10 + fup * 1)) (10 + fup * 1) fup (moved k (10 + fup * -1)) (10 + fup * -1) H0 Hb N eq_refl eq_refl N) as (l & Hl & A & B & C & D).
  - replace (10 / 10) with 1 by lra. apply valley_hits; auto.
  - apply M.
  - replace (- (10) / 10) with (-1) by lra. apply valley_hits; auto.
  - apply M.
  - exists l. split; [exact Hl|]. rewrite A, B, C, D. assert (0 < fup) by lra. rewrite Rmin_left, Rmax_right by lra. repeat split; lra.
Qed.
