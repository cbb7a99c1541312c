(** Concrete starts for the examples and counterexamples of PropsStart. *)
From Coq Require Import Reals List ZArith Lia Lra.
From Verif Require Import Base Dbl Params SpecParams Config Pwq Scaling GenoPheno SpecBounds Search SpecSearch SpecSafe ReachProofs Demo DemoProofs DemoNum DemoNumProofs NumThms Update SpecUpdate Start SpecStart StartProofs StartThms.
Import ListNotations.
Open Scope R_scope.

Lemma big : 1000 < dbl_max_R.
Proof.
  unfold dbl_max_R. change (2 ^ 53 - 1)%Z with 9007199254740991%Z.
  assert (H : 1 <= 2 ^ 971) by (apply pow_R1_Rle; lra). revert H. generalize (2 ^ 971). intros t H. nra.
Qed.
Lemma a_box d a lo b hi : length lo = d -> length hi = d -> a <= b -> Forall2 Rle lo hi -> -1000 <= a -> box (S d) (a :: lo) (b :: hi).
Proof.
  intros L1 L2 H F G. split; [cbn; lia|]. split; [cbn; lia|]. split; [constructor; assumption|]. intros E. pose proof big. cbn in E. injection E as E _. lra.
Qed.
Lemma no_draws d : draws d (repeat 0 d).
Proof. split; [apply repeat_length|]. apply Forall_forall. intros x H. apply repeat_spec in H. lra. Qed.

Lemma not_at_bound : exists lb ub g x0 u, ordered lb ub /\ gp_bounds None lb ub = Ok g /\ inside lb ub x0 /\
  box (length lb) x0 x0 /\ draws (length lb) u /\ ~ starts_at g (length lb) x0 u.
Proof.
  assert (O : ordered [0] [10]) by (constructor; [lra|constructor]).
  destruct (GenoPhenoProofs.gp_bounds_total None [0] [10] O) as [g Hg].
  assert (I0 : inside [0] [10] [0]). { split; [reflexivity|]. split; [reflexivity|]. intros [|[|i]] l u v Hl Hu Hv; cbn in *; try discriminate. injection Hl as <-. injection Hu as <-. injection Hv as <-. lra. }
  assert (B : box (length [0]) [0] [0]) by (apply (a_box 0); try reflexivity; try lra; constructor).
  exists [0], [10], g, [0], [0]. do 4 (split; [assumption|]). split; [exact (no_draws 1)|].
  rewrite (at_pwq _ _ _ _ _ O Hg I0 B (no_draws 1)). intros C. specialize (C 0%nat 0 10 0 eq_refl eq_refl eq_refl).
  unfold strip in C. rewrite Rabs_R0 in C. rewrite Rmin_right in C by lra. lra.
Qed.
Lemma not_at_scaled : exists lb ub g x0 u, ordered lb ub /\ gp_bounds_lin None lb ub = Ok g /\ inside lb ub x0 /\
  box (length lb) x0 x0 /\ draws (length lb) u /\ lb = [0] /\ ub = [100] /\ x0 = [95] /\ ~ starts_at g (length lb) x0 u.
Proof.
  assert (O : ordered [0] [100]) by (constructor; [lra|constructor]).
  destruct (ScalingProofs.gp_bounds_lin_total None [0] [100] O) as [g Hg].
  assert (I0 : inside [0] [100] [95]). { split; [reflexivity|]. split; [reflexivity|]. intros [|[|i]] l u v Hl Hu Hv; cbn in *; try discriminate. injection Hl as <-. injection Hu as <-. injection Hv as <-. lra. }
  assert (B : box (length [0]) [95] [95]) by (apply (a_box 0); try reflexivity; try lra; constructor).
  exists [0], [100], g, [95], [0]. do 4 (split; [assumption|]). split; [exact (no_draws 1)|]. do 3 (split; [reflexivity|]).
  rewrite (at_lin _ _ _ _ _ O Hg I0 B (no_draws 1)). intros C. specialize (C 0%nat 0 100 95 eq_refl eq_refl eq_refl). lra.
Qed.
Lemma not_at_custom : exists ge ph x0 u, (forall x, ph (ge x) = x) /\ box 1 x0 x0 /\ draws 1 u /\ ~ starts_at (mkGP NoBound (Some (ge, ph)) NoScaling) 1 x0 u.
Proof.
  exists (map (fun v => v - 1)), (map (fun v => v + 1)), [0], [0]. split.
  { intros x. rewrite map_map. rewrite <- (map_id x) at 2. apply map_ext. intros v. ring. }
  assert (B : box 1 [0] [0]) by (apply (a_box 0); try reflexivity; try lra; constructor).
  split; [exact B|]. split; [exact (no_draws 1)|]. intros (m & Hm & Hp).
  destruct (mean_of_point (mkGP NoBound (Some (map (fun v => v - 1), map (fun v => v + 1))) NoScaling) 1 [0] [0] [] [0] B (no_draws 1)) as (y & (_ & P) & L & E).
  { split; constructor. }
  unfold set_x0_vector in Hm. rewrite E in Hm. cbn in Hm. injection Hm as <-. cbn in Hp. injection Hp as Hp.
  destruct y as [|v [|v' y]]; cbn in Hp; try discriminate. injection Hp as Hp. specialize (P 0%nat 0 0 v eq_refl eq_refl eq_refl). cbn in P. lra.
Qed.
(** A box, a fixed value and draws in dimension 2; bounds that leave room. *)
Definition dlo : list R := [0; 1].
Definition dhi : list R := [2; 1].
Definition dfx : list (Z * R) := [(1%Z, 3)].
Definition dlb : list R := [-5; -5].
Definition dub : list R := [5; 5].
Lemma d_box : box 2 dlo dhi. Proof. apply (a_box 1); try reflexivity; try lra. repeat constructor; lra. Qed.
Lemma d_draws : draws 2 [-1; 1 / 2]. Proof. split; [reflexivity|]. repeat constructor; lra. Qed.
Lemma d_fixed : fixed_in 2 dfx. Proof. split; [repeat constructor; intros []|]. repeat constructor; cbn; lia. Qed.
Lemma d_ordered : ordered dlb dub. Proof. repeat constructor; lra. Qed.
Lemma d_point y : start_point dlo dhi dfx y -> exists v, y = [v; 3] /\ 0 <= v <= 2.
Proof.
  intros [L P]. destruct y as [|v [|w [|t y]]]; try discriminate L. exists v. pose proof (P 0%nat 0 2 v eq_refl eq_refl eq_refl) as A. pose proof (P 1%nat 1 1 w eq_refl eq_refl eq_refl) as B.
  cbn in A, B. subst w. auto.
Qed.
Ltac two := intros [|[|i]]; cbn; intros; repeat match goal with H : Some _ = Some _ |- _ => injection H as <- | H : None = Some _ |- _ => discriminate H | H : nth_error [] ?k = Some _ |- _ => destruct k; discriminate H end.
Lemma d_off y : start_point dlo dhi dfx y -> off_strips dlb dub y.
Proof.
  intros P. destruct (d_point y P) as (v & -> & V). intros i l u w. revert i l u w. two; unfold strip; rewrite ?(Rabs_left (-5)), ?(Rabs_pos_eq 5) by lra; rewrite !Rmin_right by lra; lra.
Qed.
Lemma d_off_scaled y : start_point dlo dhi dfx y -> off_scaled_strips dlb dub y.
Proof. intros P. destruct (d_point y P) as (v & -> & V). intros i l u w. revert i l u w. two; lra. Qed.
Lemma d_off_user y : start_point dlo dhi dfx y -> off_user_strips [2; 1] [0; 1] dlb dub y.
Proof.
  intros P. destruct (d_point y P) as (v & -> & V). intros i s h l u w. revert i s h l u w. two; unfold strip;
    repeat match goal with |- context [Rabs ?t] => first [rewrite (Rabs_left t) by lra | rewrite (Rabs_pos_eq t) by lra] end; rewrite !Rmin_right by lra; lra.
Qed.
(** A search that evaluates its initial point. *)
Definition gstart : cfg R := set_g_init_fvalue true (set_g_max_fevals 10 (cfg_of k24)).
Lemma d_run : exists x0 s0 r s, initial_point 2 (set_x0_box dlo dhi) [-1; 1 / 2] = Ok x0 /\
  st_new (cma_num (npar_of k24 Full)) gstart x0 num0 = Ok s0 /\
  optimize (cma_num (npar_of k24 Full)) flat_env gstart (round (cma_num (npar_of k24 Full)) flat_env gstart) 1 20 s0 = Ok (r, s).
Proof.
  destruct (point_ok 2 dlo dhi _ d_box d_draws) as (x0 & Hx & _).
  assert (E : exists s0, st_new (cma_num (npar_of k24 Full)) gstart x0 num0 = Ok s0) by (eexists; reflexivity). destruct E as [s0 E].
  destruct (returns_evals (cma_num (npar_of k24 Full)) flat_env gstart) with (m := 10%Z) (x0 := x0) (n := num0) (s0 := s0) (fuel := 20%nat) (rf := 1%nat) as (r & s & H).
  - apply call_env_real.
  - apply dims_of. reflexivity.
  - intros x _. cbn. eauto.
  - intros i v [].
  - split; [cbn; lia|discriminate].
  - split; reflexivity.
  - reflexivity.
  - unfold pheno_returns. cbn. intros. discriminate.
  - reflexivity.
  - cbn; tauto.
  - reflexivity.
  - discriminate.
  - exact E.
  - cbn. lia.
  - exists x0, s0, r, s. auto.
Qed.
