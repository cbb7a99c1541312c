(** Termination of the profile likelihood. *)
From Coq Require Import Reals Lra.
From Verif Require Import Base EoMatrix Pwq Scaling GenoPheno SpecBounds SpecGeno Errstats SpecErr
  EoMatrixProofs PwqProofs GenoPhenoProofs ScalingProofs GpParProofs ErrVec ErrVpk ErrPli ErrSafe.
Local Open Scope nat_scope.

Lemma ends_bind {A B} (r : res A) (f : A -> res B) :
  ends r -> (forall a, r = Ok a -> ends (f a)) -> ends (bind r f).
Proof. unfold ends. destruct r as [a|e]; cbn [bind]; intros H1 H2; [apply H2; reflexivity|congruence]. Qed.
Lemma ends_ok {A} (a : A) : ends (Ok a).
Proof. discriminate. Qed.
Lemma ends_mapM2 {A B C} (f : A -> B -> res C) : (forall a b, ends (f a b)) -> forall la lb, ends (mapM2 f la lb).
Proof.
  intros H. induction la as [|a la IH]; intros [|b lb]; cbn [mapM2]; try (unfold ends; discriminate).
  apply ends_bind; [apply H|]. intros c _. apply ends_bind; [apply IH|]. intros; apply ends_ok.
Qed.
Lemma ends_rdiv a b : ends (rdiv a b).
Proof. unfold rdiv, ends. destruct (Req_EM_T b 0); discriminate. Qed.
Lemma ends_cast v : ends (cast_int v).
Proof. unfold cast_int, ends. repeat (match goal with |- context [if ?c then _ else _] => destruct c end; cbv beta iota zeta); discriminate. Qed.
Lemma ends_get {A} (l : list A) i : ends (get l i).
Proof. unfold get, ends. destruct (_ <? _)%Z; [discriminate|]. destruct (nth_error _ _); discriminate. Qed.
Lemma ends_put {A} (l : list A) i a : ends (put l i a).
Proof. unfold put, ends. destruct (_ || _); discriminate. Qed.
Lemma ends_pheno g x : ends (pheno g x).
Proof.
  unfold pheno. destruct (gp_bound g) as [|p]; [destruct (gp_scale g) as [|l]|].
  - apply ends_ok.
  - apply ends_mapM2. intros; apply ends_rdiv.
  - apply ends_bind.
    + unfold pwq_to_f. apply ends_bind.
      * apply ends_mapM2. intros q v. unfold shift_coord, shift_up, shift_down.
        apply ends_bind; [|intros ? _; apply ends_bind; [|intros; apply ends_ok]];
          (match goal with |- context [if ?c then _ else _] => destruct c end; [|apply ends_ok]);
          (apply ends_bind; [apply ends_rdiv|intros ? _]; apply ends_bind; [apply ends_cast|intros ? _; apply ends_ok]).
      * intros y Hy. apply ends_mapM2. intros q v. unfold quad_coord.
        destruct (Rlt_dec _ _); [|destruct (Rlt_dec _ _)]; try apply ends_ok;
          (apply ends_bind; [apply ends_rdiv|intros ? _; apply ends_ok]).
    + intros y Hy. unfold scale_f_step. destruct (gp_scale g) as [|l]; [apply ends_ok|]. destruct (l_id l); [apply ends_ok|].
      apply ends_mapM2. intros; apply ends_rdiv.
Qed.
Lemma ends_bounds par y k : ends (in_bounds par y k).
Proof.
  unfold in_bounds. apply ends_bind; [apply ends_get|]. intros v _. destruct (pheno_bounds _); [|apply ends_ok].
  apply ends_bind; [apply ends_get|]. intros; apply ends_ok.
Qed.
Lemma ends_direction par e k d : ends (direction par e k d).
Proof. unfold direction. destruct (_ =? _)%nat; [|discriminate]. apply ends_bind; [apply ends_get|]. intros; apply ends_ok. Qed.
Lemma ends_best s : ends (best s).
Proof. unfold best, ends. destruct (rev _); discriminate. Qed.
Lemma ends_store i f x e l : ends (pli_store i f x e l).
Proof. unfold pli_store. repeat (apply ends_bind; [apply ends_put|intros ? _]). apply ends_ok. Qed.
Lemma ends_pad m : forall j s sign f x e l, ends (pad j m s sign f x e l).
Proof. induction m as [|m IH]; intros; cbn [pad]; [apply ends_ok|]. apply ends_bind; [apply ends_store|]. intros; apply IH. Qed.
Lemma ends_pad_centre s sign e l : ends (pad_centre s sign e l).
Proof.
  unfold pad_centre. destruct s; [apply ends_ok|]. apply ends_bind; [apply ends_get|]. intros ? _.
  apply ends_bind; [apply ends_get|]. intros ? _. apply ends_pad.
Qed.
Lemma ends_put_all kv : forall v, ends (put_all kv v).
Proof. induction kv as [|[i a] kv IH]; intros v; cbn [put_all]; [apply ends_ok|]. apply ends_bind; [apply ends_put|]. intros; apply IH. Qed.
Lemma ends_sigma c k vk : ends (vpk_sigma c k vk).
Proof.
  unfold vpk_sigma. destruct (_ =? _)%nat; [|discriminate]. generalize 0%R. induction (rev (combine k vk)) as [|[i v] kv IH]; intros s; [apply ends_ok|].
  apply ends_bind; [apply ends_get|]. intros; apply IH.
Qed.
Lemma ends_geno g y : ends (geno g y).
Proof.
  unfold geno. destruct (gp_bound g) as [|p]; [destruct (gp_scale g) as [|l]|].
  - apply ends_ok.
  - apply ends_bind; [apply ends_mapM2; intros; apply ends_ok|]. intros ? _. destruct (gp_custom g); discriminate.
  - apply ends_bind; [unfold scale_i_step; destruct (gp_scale g) as [|l]; [apply ends_ok|]; destruct (l_id l); [apply ends_ok|apply ends_mapM2; intros; apply ends_ok]|].
    intros ? _. apply ends_bind; [apply ends_mapM2; intros; apply ends_ok|]. intros; apply ends_ok.
Qed.
Lemma ends_add_all k vals : forall x, ends (add_all k vals x).
Proof. induction k as [|i k IH]; intros x; cbn [add_all]; [apply ends_ok|]. apply ends_bind; [apply ends_get|]. intros; apply IH. Qed.

Section Term.
Variable func : list R -> R.
Variable par : epar.
Variable cm : (list R -> R) -> ipar -> res iout.

Lemma ends_vpk sol k vk x0 px pv : (forall rf ip, ends (cm rf ip)) -> ends (optimize_vpk func par cm sol k vk x0 px pv).
Proof.
  intros Hc. unfold optimize_vpk. apply ends_bind; [destruct px; [apply ends_ok|apply ends_pheno]|]. intros ? _.
  apply ends_bind; [apply ends_get|]. intros ? _. apply ends_bind; [apply ends_sigma|]. intros ? _. cbv zeta.
  apply ends_bind; [apply ends_put_all|]. intros ? _. apply ends_bind; [destruct pv; [apply ends_ok|apply ends_pheno]|]. intros ? _.
  destruct (fold_left _ _ _); [apply ends_ok|].
  apply ends_bind; [apply Hc|]. intros ? _. apply ends_bind; [|intros; apply ends_ok].
  destruct pv; [|apply ends_ok]. apply ends_bind; [apply ends_geno|]. intros; apply ends_add_all.
Qed.

(** Later steps: the counter decreases. *)
Lemma step_ends above k minf fup fd eigv x : forall i fuel d xtmp y fdiff, i < fuel ->
  ends (step_loop func par fuel above k minf fup fd false eigv x i d xtmp y fdiff).
Proof.
  induction i as [|i IH]; intros [|fuel] d xtmp y fdiff Hf; try lia; cbn [step_loop].
  - rewrite andb_false_r. apply ends_ok.
  - destruct (far above fup fd fdiff && (0 <? S i)%nat); [|apply ends_ok].
    apply ends_bind; [apply ends_bounds|]. intros [] _; [|apply ends_ok].
    apply ends_bind; [apply ends_direction|]. intros ? _.
    apply ends_bind; [apply ends_mapM2; intros; apply ends_ok|]. intros ? _.
    apply ends_bind; [apply ends_pheno|]. intros ? _. apply IH. cbn [pred]. lia.
Qed.
Lemma linear_ends fuel k minf fup delta m eigv d x : m < fuel ->
  ends (take_linear_step func par fuel k minf fup delta m false eigv d x).
Proof.
  intros Hf. unfold take_linear_step. cbv zeta. apply ends_bind; [apply ends_pheno|]. intros y _. destruct (rlt _ _).
  - apply ends_bind; [apply ends_direction|]. intros ? _. apply ends_bind; [apply ends_mapM2; intros; apply ends_ok|]. intros ? _.
    apply ends_bind; [apply step_ends; exact Hf|]. intros ? _. apply ends_bind; [apply ends_get|]. intros ? _.
    apply ends_bind; [apply ends_put|]. intros; apply ends_ok.
  - apply ends_bind; [apply step_ends; exact Hf|]. intros ? _. apply ends_bind; [apply ends_get|]. intros ? _.
    apply ends_bind; [apply ends_put|]. intros; apply ends_ok.
Qed.

(** The first step doubles [d] until the level or the bounds are left. *)
Definition doubled (eigv : list (list R)) (k : nat) (d : R) (x : list R) (j : nat) : res (list R) :=
  do r <- direction par eigv k (d * 2 ^ j); do z <- vadd x r; pheno (a_gp par) z.
Lemma first_ends k minf fup fd eigv x : forall j fuel i d xtmp y fdiff, j < fuel ->
  (fdiff = Rabs (func y - minf)%R) ->
  (j = 0 -> ~ (Rabs (func y - minf) < fup - fd)%R) ->
  (0 < j -> forall z, doubled eigv k d x j = Ok z -> ~ (Rabs (func z - minf) < fup - fd)%R) ->
  ends (step_loop func par fuel false k minf fup fd true eigv x i d xtmp y fdiff).
Proof.
  induction j as [|j IH]; intros [|fuel] i d xtmp y fdiff Hf Ed H0 H1; try lia; cbn [step_loop].
  - unfold far, rlt. subst fdiff. destruct (Rlt_dec _ _) as [C|C]; [exfalso; exact (H0 eq_refl C)|]. apply ends_ok.
  - destruct (far _ _ _ _ && _); [|apply ends_ok].
    apply ends_bind; [apply ends_bounds|]. intros [] _; [|apply ends_ok].
    apply ends_bind; [apply ends_direction|]. intros r Hr.
    apply ends_bind; [apply ends_mapM2; intros; apply ends_ok|]. intros z Hz.
    apply ends_bind; [apply ends_pheno|]. intros w Hw.
    apply IH; [lia|reflexivity| |].
    + intros ->. apply (H1 ltac:(lia)). unfold doubled. replace (d * 2 ^ 1)%R with (d * 2)%R by ring.
      rewrite Hr; cbn [bind]. rewrite Hz; cbn [bind]. exact Hw.
    + intros Hj u Hu. apply (H1 ltac:(lia)). unfold doubled in *.
      replace (d * 2 ^ S j)%R with (d * 2 * 2 ^ j)%R by (cbn; ring). exact Hu.
Qed.
Lemma first_linear_ends j fuel k minf fup delta m eigv d x : (forall y, pheno (a_gp par) x = Ok y -> func y = minf) ->
  (0 <= fup)%R -> (0 <= delta)%R -> 0 < j < fuel ->
  (forall z, doubled eigv k d x j = Ok z -> ~ (Rabs (func z - minf) < fup - delta * fup)%R) ->
  ends (take_linear_step func par fuel k minf fup delta m true eigv d x).
Proof.
  intros Hy Hfup Hdel Hj Hz. unfold take_linear_step. cbv zeta. apply ends_bind; [apply ends_pheno|]. intros y Ey.
  specialize (Hy y Ey). assert (E0 : Rabs (func y - minf) = 0%R) by (rewrite Hy; rewrite Rminus_diag_eq by reflexivity; apply Rabs_R0).
  unfold rlt at 1. destruct (Rlt_dec _ _) as [C|C].
  - exfalso. rewrite E0 in C. nra.
  - apply ends_bind; [apply (first_ends _ _ _ _ _ _ j); [lia|reflexivity|lia|intros _; exact Hz]|].
    intros ? _. apply ends_bind; [apply ends_get|]. intros ? _. apply ends_bind; [apply ends_put|]. intros; apply ends_ok.
Qed.

(** The whole computation. *)
Lemma pl_loop_ends sol k sign s minf fup delta maxiters curve lfuel : (forall rf ip, ends (cm rf ip)) -> 10 < lfuel ->
  forall fuel i linit d x l, (Z.of_nat i < maxiters)%Z -> (maxiters <= Z.of_nat (i + fuel))%Z ->
  (linit = true -> ends (take_linear_step func par lfuel k minf fup delta 10 true (s_eigv sol) d x)) ->
  ends (pl_loop func par cm fuel lfuel sol k sign s minf fup delta maxiters curve i linit d x l).
Proof.
  intros Hc Hl. induction fuel as [|fuel IH]; intros i linit d x l Hi Hf Hs; [lia|]. cbn [pl_loop].
  apply ends_bind; [destruct linit; [apply Hs; reflexivity|apply linear_ends; exact Hl]|]. intros [d' x'] _.
  apply ends_bind; [apply ends_get|]. intros ? _. apply ends_bind; [apply ends_vpk; exact Hc|]. intros ns _.
  destruct (_ <? _)%Z; [apply ends_pad_centre|]. apply ends_bind; [apply ends_best|]. intros b _.
  destruct (rlt _ _); [apply ends_pad_centre|]. apply ends_bind; [apply ends_pheno|]. intros y _.
  apply ends_bind; [destruct curve; [apply ends_store|apply ends_ok]|]. intros l1 _.
  destruct (_ && rle _ _); [apply ends_pad|]. destruct (curve && _); [apply ends_ok|].
  destruct (Z.eqb_spec (Z.of_nat (S i)) maxiters); [apply ends_ok|].
  apply IH; [lia|lia|discriminate].
Qed.

Lemma pl_ends fuel lfuel sol k curve s fup delta maxiters b xk : (forall rf ip, ends (cm rf ip)) -> 10 < lfuel ->
  (0 < maxiters <= Z.of_nat fuel)%Z -> best sol = Ok b -> nth_error (ec_x b) k = Some xk ->
  (forall d, d = (xk / 10)%R \/ d = (- xk / 10)%R ->
     ends (take_linear_step func par lfuel k (ec_f b) fup delta 10 true (s_eigv sol) d (ec_x b))) ->
  ends (profile_likelihood func par cm fuel lfuel sol k curve s fup delta maxiters).
Proof.
  intros Hc Hl Hm Hb Hx Hd. unfold profile_likelihood. rewrite Hb; cbn [bind].
  apply ends_bind; [apply ends_pheno|]. intros y _. apply ends_bind.
  { unfold pli_new. apply ends_bind; [destruct (_ =? _)%nat; [apply ends_put|discriminate]|]. intros ? _.
    apply ends_bind; [apply ends_put|]. intros ? _. apply ends_bind; [apply ends_put|]. intros ? _. apply ends_ok. }
  intros l0 _.
  assert (S : forall neg l, ends (profile_likelihood_search func par cm fuel lfuel l sol k neg s fup delta maxiters curve)).
  { intros neg l. unfold profile_likelihood_search. rewrite Hb; cbn [bind]. rewrite get_nat, Hx; cbn [bind].
    apply pl_loop_ends; [exact Hc|exact Hl|lia|lia|]. intros _. apply Hd. destruct neg; [right|left]; lra. }
  apply ends_bind; [apply S|]. intros l1 _. apply ends_bind; [apply S|]. intros l2 _.
  apply ends_bind; [|intros; apply ends_ok]. unfold setErrMinMax. apply ends_bind; [apply ends_get|]. intros ? _.
  apply ends_bind.
  - unfold getMinMax. apply ends_bind; [unfold argmin; destruct (map _ _); discriminate|]. intros ? _.
    apply ends_bind; [unfold argmin; destruct (map _ _); discriminate|]. intros ? _.
    repeat (apply ends_bind; [apply ends_get|intros ? _]). destruct (rlt _ _); apply ends_ok.
  - intros [[[? ?] ?] ?] _. repeat (apply ends_bind; [apply ends_get|intros ? _]). apply ends_ok.
Qed.

(** ** Divergence *)
(** Every doubled point stays below the level and inside the bounds. *)
Lemma step_forever k minf fup fd eigv x : forall fuel i d xtmp y, 0 < i ->
  (Rabs (func y - minf) < fup - fd)%R -> in_bounds par y k = Ok true ->
  (forall j, exists z, doubled eigv k d x j = Ok z /\ (Rabs (func z - minf) < fup - fd)%R /\ in_bounds par z k = Ok true) ->
  step_loop func par fuel false k minf fup fd true eigv x i d xtmp y (Rabs (func y - minf)) = Fault Diverges.
Proof.
  induction fuel as [|fuel IH]; intros i d xtmp y Hi Hy Hb Hall; cbn [step_loop]; [reflexivity|].
  unfold far, rlt. destruct (Rlt_dec _ _) as [_|C]; [|contradiction]. destruct (Nat.ltb_spec 0 i); [|lia]. cbn [andb].
  rewrite Hb; cbn [bind]. destruct (Hall 1) as (z & Hz & Hz1 & Hz2). unfold doubled in Hz.
  replace (d * 2 ^ 1)%R with (d * 2)%R in Hz by ring.
  apply bind_ok in Hz; destruct Hz as (r & -> & Hz). apply bind_ok in Hz; destruct Hz as (w & Hw & Hz). cbn [bind].
  rewrite Hw; cbn [bind]. rewrite Hz; cbn [bind]. apply IH; [exact Hi|exact Hz1|exact Hz2|].
  intros j. specialize (Hall (S j)). unfold doubled in *. replace (d * 2 * 2 ^ j)%R with (d * 2 ^ S j)%R by (cbn; ring). exact Hall.
Qed.
Lemma pl_forever fuel lfuel sol k curve s fup delta maxiters b y xk : best sol = Ok b ->
  nth_error (ec_x b) k = Some xk -> pheno (a_gp par) (ec_x b) = Ok y -> length y = a_dim par -> func y = ec_f b ->
  (0 < fup)%R -> (0 <= delta < 1)%R -> in_bounds par y k = Ok true ->
  (forall j, exists z, doubled (s_eigv sol) k (xk / 10) (ec_x b) j = Ok z /\
     (Rabs (func z - ec_f b) < fup - delta * fup)%R /\ in_bounds par z k = Ok true) ->
  profile_likelihood func par cm fuel lfuel sol k curve s fup delta maxiters = Fault Diverges.
Proof.
  intros Hb Hx Hy Ly Hf Hfup Hdel Hbd Hall. unfold profile_likelihood. rewrite Hb; cbn [bind]. rewrite Hy; cbn [bind].
  unfold pli_new. rewrite Ly, Nat.eqb_refl. cbv zeta. rewrite !put_in by (rewrite repeat_length; lia). cbn [bind].
  unfold profile_likelihood_search. rewrite Hb; cbn [bind]. rewrite get_nat, Hx; cbn [bind].
  destruct fuel as [|fuel]; [reflexivity|]. cbn [pl_loop].
  assert (E : take_linear_step func par lfuel k (ec_f b) fup delta 10 true (s_eigv sol) (1 * xk * 0.1) (ec_x b) = Fault Diverges).
  { unfold take_linear_step. cbv zeta. rewrite Hy; cbn [bind].
    assert (E0 : Rabs (func y - ec_f b) = 0%R) by (rewrite Hf; rewrite Rminus_diag_eq by reflexivity; apply Rabs_R0).
    unfold rlt at 1. destruct (Rlt_dec _ _) as [C|C]; [exfalso; rewrite E0 in C; nra|].
    rewrite step_forever; [reflexivity|lia|rewrite E0; nra|exact Hbd|].
    intros j. replace (1 * xk * 0.1)%R with (xk / 10)%R by lra. apply Hall. }
  rewrite E. reflexivity.
Qed.
End Term.
