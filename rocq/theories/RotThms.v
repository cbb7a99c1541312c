(** Rotations: decompositions that differ in the choice of the eigenvectors. *)
From Coq Require Import Reals List Lia Lra Permutation Bool.
From Verif Require Import Base Dbl Vec VecProofs Params Config Search SpecSearch SpecInvar SpecMorph SpecSafe SpecUh SortProofs SearchInv RankProofs StopProofs MorphProofs Update SpecUpdate UpdateProofs DemoNumProofs SpecAffine AffineProofs ActiveProofs AlgoProofs SpecRot RotProofs.
Import ListNotations.
Local Open Scope R_scope.
Notation mtr := Vec.mt.

Lemma orth_mm d a b : orthogonal d a -> orthogonal d b -> orthogonal d (mm d a b).
Proof.
  intros HA HB. split; intros i j Hi Hj.
  - rewrite <- (proj1 HA i j Hi Hj). transitivity (dot d (mv d (mtr b) (a i)) (mv d (mtr b) (a j))).
    + apply rsum_ext. intros l _. unfold mm, mv, mtr. f_equal; apply rsum_ext; intros; ring.
    + rewrite (rot_dot d (mtr b)) by (apply orth_mt, HB). reflexivity.
  - rewrite <- (proj2 HB i j Hi Hj). transitivity (dot d (mv d a (fun l => b l i)) (mv d a (fun l => b l j))); [reflexivity|].
    rewrite rot_dot by auto. reflexivity.
Qed.
Lemma diag_orth d m dec : diagonalises d m dec -> orthogonal d (snd dec).
Proof. intros (A & B & _). split; auto. Qed.
Lemma diag_symmetric d m dec : diagonalises d m dec -> symmetric d m.
Proof. intros (_ & _ & C) i j Hi Hj. rewrite (C i j), (C j i) by auto. apply rsum_ext. intros; ring. Qed.
Lemma eig_col d m dec s j : diagonalises d m dec -> (s < d)%nat -> (j < d)%nat -> mv d m (fun t => snd dec t j) s = fst dec j * snd dec s j.
Proof.
  intros (A & _ & C) Hs Hj. unfold mv. rewrite (rsum_ext _ _ (fun t => rsum d (fun l => snd dec s l * fst dec l * (snd dec t l * snd dec t j)))).
  2:{ intros t Ht. rewrite C by auto. rewrite <- rsum_scal_r. apply rsum_ext. intros; ring. }
  rewrite rsum_swap. rewrite (rsum_ext _ _ (fun l => (if Nat.eqb j l then 1 else 0) * (snd dec s l * fst dec l))).
  - rewrite (delta_sum d (fun l => snd dec s l * fst dec l)) by auto. ring.
  - intros l Hl. rewrite rsum_scal, A by auto. rewrite Nat.eqb_sym. ring.
Qed.
Lemma diag_equivalent d q m m' dec dec' : orthogonal d q -> diagonalises d m dec -> diagonalises d m' dec' ->
  (forall i j, (i < d)%nat -> (j < d)%nat -> m' i j = conj d q m i j) -> equivalent_dec d q dec dec'.
Proof.
  intros HQ H1 H2 HM. pose proof (diag_orth _ _ _ H1) as O1. pose proof (diag_orth _ _ _ H2) as O2.
  exists (mm d (mtr (snd dec')) (mm d q (snd dec))). split; [|split].
  - apply orth_mm; [apply orth_mt, O2|apply orth_mm; auto].
  - intros i j Hi Hj. exact (qqt d (snd dec') O2 (fun s => mm d q (snd dec) s j) i Hi).
  - intros i j Hi Hj. unfold mm at 1, mtr. rewrite <- rsum_scal.
    rewrite (rsum_ext _ _ (fun s => rsum d (fun t => m' s t * snd dec' t i * mm d q (snd dec) s j))).
    2:{ intros s Hs. rewrite <- Rmult_assoc, <- (eig_col d m' dec' s i H2 Hs Hi). unfold mv. rewrite <- (rsum_scal_r d (mm d q (snd dec) s j)). reflexivity. }
    rewrite rsum_swap. unfold mm at 2. rewrite <- rsum_scal_r. apply rsum_ext. intros t Ht.
    rewrite (rsum_ext _ _ (fun s => snd dec' t i * (m' t s * mm d q (snd dec) s j))).
    2:{ intros s Hs. rewrite (diag_symmetric d m' dec' H2 s t) by auto. ring. }
    rewrite rsum_scal. rewrite Rmult_assoc. unfold mtr. f_equal.
    transitivity (mv d (conj d q m) (mv d q (fun u => snd dec u j)) t).
    + apply rsum_ext. intros s Hs. rewrite HM by auto. reflexivity.
    + rewrite conj_mv by auto. unfold mm. rewrite <- rsum_scal_r. unfold mv at 1. apply rsum_ext. intros u Hu. rewrite (eig_col d m dec) by auto. ring.
Qed.
Lemma rotated_equivalent d q dec : equivalent_dec d q dec (rot_dec d q dec).
Proof.
  exists (fun i j => if Nat.eqb i j then 1 else 0). split; [|split].
  - split; intros i j Hi Hj.
    + rewrite (delta_sum d (fun l => if Nat.eqb j l then 1 else 0)) by auto. rewrite Nat.eqb_sym. reflexivity.
    + rewrite (rsum_ext _ _ (fun l => (if Nat.eqb i l then 1 else 0) * (if Nat.eqb l j then 1 else 0))) by (intros l _; rewrite (Nat.eqb_sym l i); reflexivity).
      rewrite (delta_sum d (fun l => if Nat.eqb l j then 1 else 0)) by auto. reflexivity.
  - intros i j Hi Hj. rewrite (rsum_ext _ _ (fun l => (if Nat.eqb j l then 1 else 0) * snd (rot_dec d q dec) i l)).
    + rewrite (delta_sum d (snd (rot_dec d q dec) i)) by auto. reflexivity.
    + intros l _. rewrite Nat.eqb_sym. ring.
  - intros i j Hi Hj. cbn. destruct (Nat.eqb_spec i j); [subst; ring|ring].
Qed.
Section Equiv.
Variables (d : nat) (q : mat).
Section One.
Variables dec dec' : vec * mat.
Variable v : mat.
Hypothesis HO : orthogonal d v.
Hypothesis HB : forall i j, (i < d)%nat -> (j < d)%nat -> rsum d (fun l => snd dec' i l * v l j) = rsum d (fun l => q i l * snd dec l j).
Hypothesis HE : forall i j, (i < d)%nat -> (j < d)%nat -> fst dec' i * v i j = v i j * fst dec j.
Lemma swap_fun (f : R -> R) i j : (i < d)%nat -> (j < d)%nat -> f (fst dec' i) * v i j = v i j * f (fst dec j).
Proof using HE.
  intros Hi Hj. destruct (Req_dec (v i j) 0) as [E|N]; [rewrite E; ring|]. specialize (HE i j Hi Hj).
  assert (E : fst dec' i = fst dec j) by (apply (Rmult_eq_reg_r (v i j)); auto; rewrite HE; ring). rewrite E. ring.
Qed.
(** b' = (q b) v^T *)
Lemma b_back j l : (j < d)%nat -> (l < d)%nat -> snd dec' j l = rsum d (fun m => v l m * snd (rot_dec d q dec) j m).
Proof using HO HB.
  intros Hj Hl. rewrite <- (qqt d v HO (snd dec' j) l Hl). unfold mv at 1. apply rsum_ext. intros m Hm. f_equal.
  cbn. unfold mm. rewrite <- HB by auto. unfold mv, mtr. apply rsum_ext. intros; ring.
Qed.
Lemma fun_corr (f : R -> R) i j : (i < d)%nat -> (j < d)%nat ->
  rsum d (fun l => snd dec' i l * f (fst dec' l) * snd dec' j l) = conj d q (fun s t => rsum d (fun l => snd dec s l * f (fst dec l) * snd dec t l)) i j.
Proof using HO HB HE.
  intros Hi Hj. rewrite <- (rot_dec_sum d q dec (fun l => f (fst dec l)) i j).
  rewrite (rsum_ext _ _ (fun l => rsum d (fun m => snd dec' i l * v l m * (f (fst dec m) * snd (rot_dec d q dec) j m)))).
  2:{ intros l Hl. rewrite (b_back j l Hj Hl). rewrite <- rsum_scal. apply rsum_ext. intros m Hm.
      replace (snd dec' i l * f (fst dec' l) * (v l m * snd (rot_dec d q dec) j m)) with (snd dec' i l * (f (fst dec' l) * v l m) * snd (rot_dec d q dec) j m) by ring.
      rewrite swap_fun by auto. ring. }
  rewrite rsum_swap. apply rsum_ext. intros m Hm. rewrite rsum_scal_r. rewrite HB by auto. cbn. unfold mm. ring.
Qed.
Lemma val_from i : (i < d)%nat -> exists j, (j < d)%nat /\ fst dec' i = fst dec j.
Proof using HO HE.
  intros Hi. destruct (classic_tr d (v i)) as [(j & Hj & N)|Z].
  - exists j. split; auto. apply (Rmult_eq_reg_r (v i j)); auto. rewrite HE by auto. ring.
  - exfalso. pose proof (proj1 HO i i Hi Hi) as E. rewrite Nat.eqb_refl in E. rewrite (rsum_ext _ _ (fun _ => 0)) in E by (intros l Hl; rewrite Z by auto; ring). rewrite rsum_0 in E. lra.
Qed.
Lemma val_to j : (j < d)%nat -> exists i, (i < d)%nat /\ fst dec' i = fst dec j.
Proof using HO HE.
  intros Hj. destruct (classic_tr d (fun i => v i j)) as [(i & Hi & N)|Z].
  - exists i. split; auto. apply (Rmult_eq_reg_r (v i j)); auto. rewrite HE by auto. ring.
  - exfalso. pose proof (proj2 HO j j Hj Hj) as E. rewrite Nat.eqb_refl in E. rewrite (rsum_ext _ _ (fun _ => 0)) in E by (intros l Hl; rewrite Z by auto; ring). rewrite rsum_0 in E. lra.
Qed.
End One.
Lemma vmin_le m (u : vec) i : (i < m)%nat -> vmin m u <= u i.
Proof.
  induction m as [|m IH]; intros H; [lia|]. cbn. destruct m; [replace i with 0%nat by lia; lra|].
  destruct (Nat.eq_dec i (S m)) as [->|]; [apply Rmin_r|]. eapply Rle_trans; [apply Rmin_l|]. apply IH. lia.
Qed.
Lemma vmax_in m (u : vec) : (0 < m)%nat -> exists i, (i < m)%nat /\ vmax m u = u i.
Proof.
  induction m as [|m IH]; intros H; [lia|]. destruct m; [exists 0%nat; split; [lia|reflexivity]|].
  destruct IH as (i & Hi & E); [lia|]. change (vmax (S (S m)) u) with (Rmax (vmax (S m) u) (u (S m))). destruct (Rle_dec (vmax (S m) u) (u (S m))).
  - exists (S m). split; [lia|]. now apply Rmax_right.
  - exists i. split; [lia|]. rewrite <- E. apply Rmax_left. lra.
Qed.
Lemma vmin_in m (u : vec) : (0 < m)%nat -> exists i, (i < m)%nat /\ vmin m u = u i.
Proof.
  induction m as [|m IH]; intros H; [lia|]. destruct m; [exists 0%nat; split; [lia|reflexivity]|].
  destruct IH as (i & Hi & E); [lia|]. change (vmin (S (S m)) u) with (Rmin (vmin (S m) u) (u (S m))). destruct (Rle_dec (vmin (S m) u) (u (S m))).
  - exists i. split; [lia|]. rewrite <- E. now apply Rmin_left.
  - exists (S m). split; [lia|]. apply Rmin_right. lra.
Qed.
Lemma equivalent_fun dec dec' (f : R -> R) i j : equivalent_dec d q dec dec' -> (i < d)%nat -> (j < d)%nat ->
  rsum d (fun l => snd dec' i l * f (fst dec' l) * snd dec' j l) = conj d q (fun s t => rsum d (fun l => snd dec s l * f (fst dec l) * snd dec t l)) i j.
Proof. intros (v & HO & HB & HE). exact (fun_corr dec dec' v HO HB HE f i j). Qed.
Lemma equivalent_ext dec dec' : equivalent_dec d q dec dec' -> vmax d (fst dec') = vmax d (fst dec) /\ vmin d (fst dec') = vmin d (fst dec).
Proof.
  intros (v & HO & HB & HE). destruct (Nat.eq_dec d 0) as [Z|Z]; [rewrite Z; auto|].
  destruct (vmax_in d (fst dec)) as (i1 & H1 & E1); [lia|]. destruct (vmax_in d (fst dec')) as (i2 & H2 & E2); [lia|].
  destruct (vmin_in d (fst dec)) as (i3 & H3 & E3); [lia|]. destruct (vmin_in d (fst dec')) as (i4 & H4 & E4); [lia|].
  split; apply Rle_antisym.
  - rewrite E2. destruct (val_from dec dec' v HO HE i2 H2) as (j & Hj & ->). now apply vmax_ge.
  - rewrite E1. destruct (val_to dec dec' v HO HE i1 H1) as (j & Hj & <-). now apply vmax_ge.
  - rewrite E3. destruct (val_to dec dec' v HO HE i3 H3) as (j & Hj & <-). now apply vmin_le.
  - rewrite E4. destruct (val_from dec dec' v HO HE i4 H4) as (j & Hj & ->). now apply vmin_le.
Qed.
End Equiv.

(** Rotated eigenvectors, same draws: whole histories. *)
Section Rot.
Variable q : mat.
Let h := rot q.
Variable p : npar.
Let k := p_k p.
Let d := k_dim k.
Let p' := rot_par q p.
Let E' := rot_eig d q (p_eig p).
Let D := rotated_dec d q.
Hypothesis HQ : orthogonal d q.
Hypothesis HW : good_weights k.
Hypothesis HF : full_matrix p.
Let RR := rotated_num d q.
Lemma rot_fun dec dec' (f : R -> R) i j : D dec dec' -> (i < d)%nat -> (j < d)%nat ->
  rsum d (fun l => snd dec' i l * f (fst dec' l) * snd dec' j l) = conj d q (fun s t => rsum d (fun l => snd dec s l * f (fst dec l) * snd dec t l)) i j.
Proof. intros -> _ _. exact (rot_dec_sum d q dec (fun l => f (fst dec l)) i j). Qed.
Lemma rot_ext dec dec' : D dec dec' -> vmax d (fst dec') = vmax d (fst dec) /\ vmin d (fst dec') = vmin d (fst dec).
Proof. intros ->. auto. Qed.
Lemma rot_max n xs : same_max q p E' n xs.
Proof using HQ. intros b Hb. unfold E', d, k. rewrite (rot_eig_at (k_dim (p_k p)) q (p_eig p) (whitened p n xs)); auto. Qed.
Lemma rr_dec n n' : RR n n' -> x_dec n' = rot_dec d q (x_dec n).
Proof. intros (_ & _ & _ & _ & _ & _ & _ & _ & _ & H & _). exact H. Qed.
Lemma rr_stream n n' : RR n n' -> rot_stream d q n n'.
Proof using Type. intros HR. split; [apply HR|split; [apply HR|split; apply HR]]. Qed.
Variables (e : env R num) (g : cfg R) (pr : sol R num -> Z).
Hypothesis HG : same_problem p g.
Hypothesis HP : plain_space p e g.
Hypothesis HH : g_uh g = false.
Hypothesis HC : no_coordinate_criteria g.
Hypothesis HU : std_sort_ok e.
Hypothesis HPr : forall so so', moved_sol h RR so so' -> pr so' = e_progress e so.
Let e' := rot_env q pr e.
Let okx (x : list R) : Prop := length x = g_dim g.
Lemma same_cfg : set_g_fixed [] g = g.
Proof using HG HF.
  destruct HG as (_ & _ & Q). destruct HF as (_ & _ & _ & Q'). rewrite Q' in Q. clear - Q. destruct g. cbn in *. now subst.
Qed.
Lemma rot_history x0 n n' hs : length x0 = d -> rot_stream d q n n' -> Forall (point_op g) hs -> initial_known g hs ->
  moved_result h RR (do s <- st_new (cma_num p) g x0 n; run_ops (cma_num p) e g hs s)
                    (do s <- st_new (cma_num p') g (h x0) n'; run_ops (cma_num p') e' g (map (move_op h) hs) s).
Proof.
  intros HX HN F HI. pose proof HP as (P1 & P2 & P3 & P4). pose proof HG as (G1 & G2 & G3). pose proof HF as (F1 & F2 & F3 & F4).
  cut (moved_result h RR (do s <- st_new (cma_num p) g x0 n; run_ops (cma_num p) e g hs s)
        (do s <- st_new (cma_num p') (set_g_fixed [] g) (h x0) n'; run_ops (cma_num p') e' (set_g_fixed [] g) (map (move_op h) hs) s)); [rewrite same_cfg; auto|].
  refine (morph_history (cma_num p) (cma_num p') e e' g [] h RR _ _ _ _ _ _ _ _ _ _ _ _ _ _ _ _ _ P3 (dims_of p g G1) _ _ _ P4 HU x0 n n' hs _ _ HI).
  - apply rot_nil.
  - apply rot_cons.
  - intros m m' HR. split; [apply (xmean_rot q p D), HR|]. cbn [cma_num n_xmean]. rewrite !tab_length. reflexivity.
  - intros i m m' HR. apply (eigen_rot q p E' (p_normal p) D); auto. unfold D, rotated_dec, E', d, k. apply rot_eig_at; auto. apply HR.
  - intros j m m' HR. apply (sample_rot q p E' (p_normal p) D); auto. apply rr_dec, HR.
  - intros m m' HR. apply (tpa_points_rot q p E' (p_normal p) D); auto. apply rr_dec, HR.
  - intros m m' HR. apply (coin_rot q p E' (p_normal p) D), HR.
  - intros Q. rewrite HH in Q. discriminate.
  - intros z m m' HR. apply (tpa_rot q p E' (p_normal p) D), HR.
  - intros i xs m m' HR Fx Lx. apply (update_rot q p E' (p_normal p) D rot_fun rot_ext HQ HW HF); [exact HR|rewrite <- G1; exact Fx|congruence|intros _; apply rot_max].
  - intros m m' HR. apply (scale_rot q p E' (p_normal p) D), HR.
  - intros z m m' Hz HR. apply (crit_rot q p E' (p_normal p) D); [exact HR|apply HC, Hz].
  - intros pop. rewrite G3, F4. reflexivity.
  - intros j x Hxx. cbn. f_equal. apply (unrot_rot q p); auto. rewrite Hxx. exact G1.
  - intros x _. cbn. now rewrite !P1.
  - reflexivity.
  - exact HPr.
  - intros l m _. cbn. rewrite map_length, seq_length. split; auto. apply Forall_forall. intros x Hxx. apply in_map_iff in Hxx as (j & <- & _). rewrite G1. apply tab_length.
  - intros x y Hxx E. rewrite P1 in E. injection E as <-. exact Hxx.
  - intros _ x m m' HR Hxx. apply (new_rot q p E' (p_normal p) D); auto; [exact (eq_trans Hxx G1)|apply rr_stream, HR].
  - apply (new_rot q p E' (p_normal p) D); auto.
  - apply (Forall_impl _ (P := point_op g)); auto.
Qed.
Lemma rot_rounds x0 n n' rd : length x0 = d -> rot_stream d q n n' -> needs_initial g = false ->
  moved_result h RR (do s <- st_new (cma_num p) g x0 n; rounds (cma_num p) g e rd s)
                    (do s <- st_new (cma_num p') g (h x0) n'; rounds (cma_num p') g e' rd s).
Proof.
  intros HX HN HI. pose proof HP as (P1 & P2 & P3 & P4). pose proof HG as (G1 & G2 & G3). pose proof HF as (F1 & F2 & F3 & F4).
  cut (moved_result h RR (do s <- st_new (cma_num p) g x0 n; rounds (cma_num p) g e rd s)
        (do s <- st_new (cma_num p') (set_g_fixed [] g) (h x0) n'; rounds (cma_num p') (set_g_fixed [] g) e' rd s)); [rewrite same_cfg; auto|].
  refine (morph_rounds (cma_num p) (cma_num p') e e' g [] h RR _ _ _ _ _ _ _ _ _ _ _ _ _ _ _ _ _ P3 (dims_of p g G1) _ _ _ P4 HU x0 n n' rd _ HI).
  - apply rot_nil.
  - apply rot_cons.
  - intros m m' HR. split; [apply (xmean_rot q p D), HR|]. cbn [cma_num n_xmean]. rewrite !tab_length. reflexivity.
  - intros i m m' HR. apply (eigen_rot q p E' (p_normal p) D); auto. unfold D, rotated_dec, E', d, k. apply rot_eig_at; auto. apply HR.
  - intros j m m' HR. apply (sample_rot q p E' (p_normal p) D); auto. apply rr_dec, HR.
  - intros m m' HR. apply (tpa_points_rot q p E' (p_normal p) D); auto. apply rr_dec, HR.
  - intros m m' HR. apply (coin_rot q p E' (p_normal p) D), HR.
  - intros Q. rewrite HH in Q. discriminate.
  - intros z m m' HR. apply (tpa_rot q p E' (p_normal p) D), HR.
  - intros i xs m m' HR Fx Lx. apply (update_rot q p E' (p_normal p) D rot_fun rot_ext HQ HW HF); [exact HR|rewrite <- G1; exact Fx|congruence|intros _; apply rot_max].
  - intros m m' HR. apply (scale_rot q p E' (p_normal p) D), HR.
  - intros z m m' Hz HR. apply (crit_rot q p E' (p_normal p) D); [exact HR|apply HC, Hz].
  - intros pop. rewrite G3, F4. reflexivity.
  - intros j x Hxx. cbn. f_equal. apply (unrot_rot q p); auto. rewrite Hxx. exact G1.
  - intros x _. cbn. now rewrite !P1.
  - reflexivity.
  - exact HPr.
  - intros l m _. cbn. rewrite map_length, seq_length. split; auto. apply Forall_forall. intros x Hxx. apply in_map_iff in Hxx as (j & <- & _). rewrite G1. apply tab_length.
  - intros x y Hxx E. rewrite P1 in E. injection E as <-. exact Hxx.
  - intros _ x m m' HR Hxx. apply (new_rot q p E' (p_normal p) D); auto; [exact (eq_trans Hxx G1)|apply rr_stream, HR].
  - apply (new_rot q p E' (p_normal p) D); auto.
Qed.
End Rot.

(** Any correct eigensolver, any draws: histories of told points. *)
Section Told.
Variable q : mat.
Let h := rot q.
Variable p : npar.
Variable E' : list (list R) -> vec * mat.
Variable dr : nat -> R.
Let k := p_k p.
Let d := k_dim k.
Let p' := with_source E' dr p.
Let D := equivalent_dec d q.
Hypothesis HQ : orthogonal d q.
Hypothesis HW : good_weights k.
Hypothesis HF : full_matrix p.
Hypothesis HE : eigensolver_ok p.
Hypothesis HE' : eigensolver_ok p'.
Let RR := equivalent_num d q.
Definition sym_num (n : num) : Prop := symmetric d (x_cov n) /\ symmetric d (x_csqinv n).
Definition R2 (n n' : num) : Prop := RR n n' /\ sym_num n.
Lemma dec_of a a' : symmetric d a -> (forall i j, (i < d)%nat -> (j < d)%nat -> a' i j = conj d q a i j) -> D (p_eig p (mtab d a)) (E' (mtab d a')).
Proof using HQ HE HE'.
  intros HS H. assert (HS' : symmetric d a').
  { intros i j Hi Hj. rewrite !H by auto. apply conj_sym; auto. }
  exact (diag_equivalent d q a a' _ _ HQ (HE a HS) (HE' a' HS') H).
Qed.
Lemma new_csq_sym n : sym_num n -> symmetric d (new_csqinv p n).
Proof using Type. intros [_ H]. unfold new_csqinv. destruct (_ && _); auto. apply inv_sqrt_sym. Qed.
Lemma spread_symm qq n : symmetric d (spread p qq n).
Proof using Type. intros i j _ _. unfold spread. f_equal. apply rsum_ext. intros; ring. Qed.
Lemma told_max n xs : sym_num n -> same_max q p E' n xs.
Proof using HQ HE HE'.
  intros HS b Hb. apply (equivalent_ext d q (p_eig p (mtab d (whitened p n xs)))). apply dec_of; auto.
  apply mm_sym; [apply new_csq_sym, HS|apply spread_symm].
Qed.
Lemma sym_update it xs n : sym_num n -> sym_num (update_num p it xs n).
Proof using HF.
  intros HS. destruct HF as (F1 & F2 & F3 & F4). split; cbn [update_num x_cov x_csqinv]; rewrite ?F2.
  - intros i j Hi Hj. destruct HS as [HS _]. pose proof (spread_symm (best_of xs) n i j Hi Hj) as S1. pose proof (spread_symm (worst_of p xs) n i j Hi Hj) as S2.
    destruct (p_upd p); [unfold rank_mu_cov; rewrite (HS i j), S1 by auto; ring|unfold active_cov; rewrite (HS i j), S1, S2 by auto; ring|auto].
  - destruct (p_upd p); [apply new_csq_sym, HS|apply new_csq_sym, HS|apply HS].
Qed.
Lemma sym_eigen it n : sym_num n -> sym_num (eigen_num p it n).
Proof using Type. unfold eigen_num. destruct (_ || _); auto. destruct (_ || _); auto. Qed.
Lemma eigen_told it n n' : R2 n n' -> R2 (eigen_num p it n) (eigen_num p' it n').
Proof using HQ HE HE' HF.
  intros [HR HS]. split; [|apply sym_eigen, HS]. apply (eigen_rot q p E' dr D); auto. apply dec_of; [apply HS|apply HR].
Qed.
Lemma pos_told n n' a b : R2 n n' -> R2 (with_pos n a b) (with_pos n' a b).
Proof using Type. intros [HR HS]. split; [exact (pos_rot q p D n n' HR a b)|exact HS]. Qed.
Lemma update_told it xs n n' : R2 n n' -> Forall (fun x => length x = d) xs -> length xs = k_lambda k ->
  R2 (update_num p it xs n) (update_num p' it (map h xs) n').
Proof using HQ HE HE' HF HW.
  intros [HR HS] Fx Lx. split; [|apply sym_update, HS].
  apply (update_rot q p E' dr D (equivalent_fun d q) (equivalent_ext d q) HQ HW HF); auto. intros _. apply told_max, HS.
Qed.
Variables (e : env R num) (g : cfg R) (pr : sol R num -> Z).
Hypothesis HG : same_problem p g.
Hypothesis HP : plain_space p e g.
Hypothesis HH : g_uh g = false.
Hypothesis HC : no_coordinate_criteria g.
Hypothesis HU : std_sort_ok e.
Hypothesis HPr : forall so so', moved_sol h RR so so' -> pr so' = e_progress e so.
Let e' := rot_env q pr e.
Let g' := set_g_fixed [] g.
Lemma r2_pos n n' : R2 n n' -> x_pos n' = x_pos n /\ x_upos n' = x_upos n.
Proof using Type. intros [HR _]. split; apply HR. Qed.
Lemma sample_told m n n' : R2 n n' -> length (fst (sample_num p' m n')) = length (fst (sample_num p m n)) /\ R2 (snd (sample_num p m n)) (snd (sample_num p' m n')).
Proof using Type.
  intros HR. unfold sample_num. cbn [fst snd]. rewrite !map_length. split; [reflexivity|]. destruct (r2_pos _ _ HR) as [-> ->]. apply pos_told, HR.
Qed.
Lemma set_col_same i x x' (pop pop' : list (list R)) : length pop' = length pop ->
  match set_col i x pop with Ok a => exists a', set_col i x' pop' = Ok a' /\ length a' = length a | Fault f => set_col i x' pop' = Fault f end.
Proof using Type.
  clear. intros L. unfold set_col, upd_at. rewrite L. destruct ((i <? 0) || (Z.of_nat (length pop) <=? i))%bool eqn:E; [reflexivity|].
  eexists. split; [reflexivity|]. rewrite !app_length. cbn [length]. rewrite !firstn_length, !skipn_length, L. reflexivity.
Qed.
Lemma points_told n n' : R2 n n' -> R2 (snd (tpa_points p n)) (snd (tpa_points p' n')).
Proof using Type. intros HR. unfold tpa_points. cbn [snd]. destruct (r2_pos _ _ HR) as [-> ->]. apply pos_told, HR. Qed.
Lemma ask_told n' s : R2 (s_num (t_sol s)) n' ->
  match ask (cma_num p) e g s with
  | Ok (pop, s1) => exists pop' n1, R2 (s_num (t_sol s1)) n1 /\ ask (cma_num p') e' g' (mt h n' s) = Ok (pop', mt h n1 s1)
  | Fault f => ask (cma_num p') e' g' (mt h n' s) = Fault f
  end.
Proof using HQ HE HE' HF HP HG.
  intros HR. unfold ask. cbn [g' set_g_fixed g_gradient g_tpa g_fixed g_lambda]. pose proof HP as (_ & _ & P3 & _). pose proof HF as (_ & _ & _ & F4). pose proof HG as (_ & _ & G3). rewrite P3, G3, F4.
  cbn [mt t_niter t_sol ms s_num set_t_sol set_s_num cma_num n_eigen n_sample].
  pose proof (sample_told (g_lambda g) _ _ (eigen_told (t_niter s) _ _ HR)) as [S1 S2].
  destruct (sample_num p (g_lambda g) _) as [pop n2]. destruct (sample_num p' (g_lambda g) _) as [pop' n2']. cbn [fst snd] in S1, S2.
  cbn [bind t_niter set_t_sol fix_rows]. change (t_niter (mt h n' s)) with (t_niter s).
  destruct ((g_tpa g =? 2) && (0 <? t_niter s))%Z%bool.
  - cbn [t_sol set_t_sol set_s_num s_num s_tpa1 s_tpa2 n_tpa_points].
    pose proof (points_told n2 n2' S2) as P2. change (n_tpa_points (cma_num p) n2) with (tpa_points p n2). change (n_tpa_points (cma_num p') n2') with (tpa_points p' n2'). destruct (tpa_points p n2) as [[x1 x2] n3]. destruct (tpa_points p' n2') as [[y1 y2] n3'].
    cbn [snd] in P2. cbv zeta. cbn [s_tpa1 s_tpa2 t_sol set_t_sol set_s_num ms].
    repeat match goal with |- context[s_tpa1 ?a] => progress change (s_tpa1 a) with (s_tpa1 (t_sol s)) | |- context[s_tpa2 ?a] => progress change (s_tpa2 a) with (s_tpa2 (t_sol s)) end.
    pose proof (set_col_same (s_tpa1 (t_sol s)) x1 y1 pop pop' S1) as Q. destruct (set_col _ x1 pop) as [pa|]; cbn [bind] in *; [destruct Q as (pa' & -> & L)|rewrite Q; reflexivity].
    cbn [bind]. pose proof (set_col_same (s_tpa2 (t_sol s)) x2 y2 pa pa' L) as Q. destruct (set_col _ x2 pa) as [pb|]; cbn [bind] in *; [destruct Q as (pb' & -> & _)|rewrite Q; reflexivity].
    exists pb', n3'. split; [exact P2|reflexivity].
  - cbn [bind fix_rows]. exists pop', n2'. split; [exact S2|reflexivity].
Qed.
Lemma moved_weaken so so' : moved_sol h R2 so so' -> moved_sol h RR so so'.
Proof using Type. unfold moved_sol. intros Q. repeat (split; [apply Q|]). destruct Q as (_ & _ & _ & _ & _ & _ & _ & _ & _ & _ & _ & _ & _ & _ & _ & _ & _ & _ & _ & [Q _]). apply Q. Qed.
Lemma moved_result_weaken r r' : moved_result h R2 r r' -> moved_result h RR r r'.
Proof using Type.
  destruct r as [s|]; cbn; auto. destruct r' as [s'|]; auto. intros [Q1 Q2]. split; auto. apply moved_weaken, Q1.
Qed.
Lemma crit_told z m m' : In (z, true) (g_flags g) -> R2 m m' -> n_crit (cma_num p') z m' = n_crit (cma_num p) z m.
Proof using HC HF HQ. intros Hz [HR _]. apply (crit_rot q p E' dr D); [exact HR|apply HC, Hz]. Qed.
Lemma gen_told n' cols phen s : W g s -> R2 (s_num (t_sol s)) n' -> okc g cols phen ->
  rel h R2 (do_op (cma_num p) e g (OGen cols phen) s) (do_op (cma_num p') e' g' (OGen (map h cols) (map h phen)) (mt h n' s)).
Proof using HQ HE HE' HF HW HG HP HH HU.
  intros HWs HR Hc. pose proof HP as (P1 & P2 & P3 & P4). pose proof HG as (G1 & G2 & G3). cbn [do_op].
  refine (gen_mt (cma_num p) (cma_num p') e e' g [] h R2 _ _ _ _ _ _ _ _ _ _ _ HU n' cols phen s HWs HR Hc).
  - apply rot_nil.
  - apply rot_cons.
  - intros m m' [HRm _]. split; [apply (xmean_rot q p D), HRm|]. cbn [cma_num n_xmean]. rewrite !tab_length. reflexivity.
  - intros m m' [HRm HS]. destruct (coin_rot q p E' dr D m m' HRm) as [Q1 Q2]. split; [exact Q1|]. split; [exact Q2|exact HS].
  - intros Q. rewrite HH in Q. discriminate.
  - intros z m m' [HRm HS]. split; [apply (tpa_rot q p E' dr D), HRm|exact HS].
  - intros i xs m m' HRm Fx Lx. apply update_told; [exact HRm|unfold d, k; rewrite <- G1; exact Fx|unfold k; congruence].
  - intros m m' [HRm HS]. split; [apply (scale_rot q p E' dr D), HRm|exact HS].
  - intros j x Hxx. cbn. f_equal. apply (unrot_rot q p); auto. rewrite Hxx. exact G1.
  - reflexivity.
  - intros l m _. cbn. rewrite map_length, seq_length. split; auto. apply Forall_forall. intros x Hxx. apply in_map_iff in Hxx as (j & <- & _). rewrite G1. apply tab_length.
Qed.
Lemma op_told o n' s : told_op g o -> W g s -> R2 (s_num (t_sol s)) n' ->
  rel h R2 (do_op (cma_num p) e g o s) (do_op (cma_num p') e' g' (move_op h o) (mt h n' s)).
Proof.
  intros HO HWs HR. destruct o as [|cols phen| | | |cols phen|rf fuel]; cbn [told_op point_op] in HO; try tauto; cbn [do_op move_op].
  - pose proof (ask_told n' s HR) as A. destruct (ask (cma_num p) e g s) as [[pop s1]|]; [|rewrite A; reflexivity]. destruct A as (pop' & n1 & HR1 & ->). exists n1. split; [exact HR1|reflexivity].
  - unfold g'. rewrite (stop_mt (cma_num p) (cma_num p') e e' g [] h R2 (rot_nil q) (rot_cons q) crit_told (fun so so' Q => HPr so so' (moved_weaken so so' Q)) n' s HR), bind_rmap.
    destruct (stop (cma_num p) e g s) as [[b s1]|] eqn:E; cbn [bind fst snd]; [|reflexivity]. exists n'. split; [|reflexivity].
    apply stop_spec in E as [(_ & -> & _)|(_ & _ & [(_ & _ & ->)|(_ & r & _ & _ & ->)])]; auto.
  - apply (gen_told n' cols phen s HWs HR HO).
Qed.
Lemma told_okop o : told_op g o -> okop g o.
Proof using Type. unfold told_op, point_op, okop. destruct o; auto. Qed.
Lemma ops_told hs : forall n' s, Forall (told_op g) hs -> W g s -> R2 (s_num (t_sol s)) n' ->
  rel h R2 (run_ops (cma_num p) e g hs s) (run_ops (cma_num p') e' g' (map (move_op h) hs) (mt h n' s)).
Proof.
  pose proof HP as (P1 & P2 & P3 & P4). pose proof HG as (G1 & G2 & G3).
  induction hs as [|o hs IH]; intros n' s F HWs HR; cbn [run_ops map]; [exists n'; auto|]. inversion F as [|o1 h1 F1 F2]; subst.
  apply rel_bind; [apply op_told; auto|]. intros s1 n1 E1 HR1. apply IH; auto.
  refine (proj2 (W_op (cma_num p) e g P3 (dims_of p g G1) _ P4 HU o true s s1 (told_okop o F1) (fun _ => eq_refl) (Logic.conj (proj1 HWs) (fun _ => HWs)) E1) eq_refl).
  intros x y Hxx E. rewrite P1 in E. injection E as <-. exact Hxx.
Qed.
Lemma told_rel x0 n n' hs : length x0 = d -> rot_stream d q n n' -> Forall (told_op g) hs -> needs_initial g = false ->
  rel h R2 (do s <- st_new (cma_num p) g x0 n; run_ops (cma_num p) e g hs s)
           (do s <- st_new (cma_num p') g' (h x0) n'; run_ops (cma_num p') e' g' (map (move_op h) hs) s).
Proof.
  intros HX HN F HI. pose proof HP as (P1 & P2 & P3 & P4). pose proof HG as (G1 & G2 & G3). apply rel_bind.
  - apply new_mt; [apply rot_nil|]. destruct HN as (N1 & N2 & N3 & N4). split.
    + apply (new_rot q p E' dr D); auto. split; [auto|split; [auto|split; [auto|]]]. rewrite N4. apply rotated_equivalent.
    + split; intros i j _ _; cbn [cma_num n_new new_num x_cov x_csqinv]; [unfold ident, diag; rewrite Nat.eqb_sym; destruct (Nat.eqb j i); reflexivity|reflexivity].
  - intros s n1 E1 HR1. apply ops_told; auto. apply (proj2 (new_X _ _ _ _ _ E1)). rewrite HI. reflexivity.
Qed.
Lemma told_history x0 n n' hs : length x0 = d -> rot_stream d q n n' -> Forall (told_op g) hs -> needs_initial g = false ->
  moved_result h RR (do s <- st_new (cma_num p) g x0 n; run_ops (cma_num p) e g hs s)
                    (do s <- st_new (cma_num p') g (h x0) n'; run_ops (cma_num p') e' g (map (move_op h) hs) s).
Proof.
  intros HX HN F HI. apply moved_result_weaken.
  cut (moved_result h R2 (do s <- st_new (cma_num p) g x0 n; run_ops (cma_num p) e g hs s)
        (do s <- st_new (cma_num p') g' (h x0) n'; run_ops (cma_num p') e' g' (map (move_op h) hs) s)); [unfold g'; rewrite (same_cfg p HF g HG); auto|].
  apply rel_moved, told_rel; auto.
Qed.

(** The points drawn. *)
Lemma root_corr (v : mat) (a b : R) i j (f : R -> R) : a * v i j = v i j * b -> f a * v i j = v i j * f b.
Proof using Type. clear. intros H. destruct (Req_dec (v i j) 0) as [Z|Z]; [rewrite Z; ring|]. assert (a = b) as -> by (apply (Rmult_eq_reg_r (v i j)); lra). ring. Qed.
Lemma transform_turn v dec dec' z i : (i < d)%nat ->
  (forall i j, (i < d)%nat -> (j < d)%nat -> rsum d (fun l => snd dec' i l * v l j) = rsum d (fun l => q i l * snd dec l j)) ->
  (forall i j, (i < d)%nat -> (j < d)%nat -> fst dec' i * v i j = v i j * fst dec j) ->
  mv d (transform dec') (mv d v z) i = mv d q (mv d (transform dec) z) i.
Proof using Type.
  clear - d. intros Hi H1 H2. rewrite <- !mv_mm. apply mv_ext; auto. intros j Hj. unfold mm, transform.
  transitivity (rsum d (fun l => snd dec' i l * v l j) * sqrt (Rmax (fst dec j) 0)).
  - rewrite <- rsum_scal_r. apply rsum_ext. intros l Hl. rewrite !Rmult_assoc. f_equal.
    exact (root_corr v (fst dec' l) (fst dec j) l j (fun x => sqrt (Rmax x 0)) (H2 l j Hl Hj)).
  - rewrite H1 by auto. rewrite <- (rsum_scal_r d (sqrt (Rmax (fst dec j) 0)) (fun l => q i l * snd dec l j)). apply rsum_ext. intros; apply Rmult_assoc.
Qed.
Lemma shift_quad (b : mat) ev m : dot d (fun i => mv d (mtr b) m i / sqrt (ev i)) (fun i => mv d (mtr b) m i / sqrt (ev i)) =
  quad d (fun s t => rsum d (fun l => b s l * (/ sqrt (ev l) * / sqrt (ev l)) * b t l)) m.
Proof using Type.
  clear - d. unfold quad, dot, mv, mtr.
  rewrite (rsum_ext d (fun i => m i * rsum d (fun j => rsum d (fun l => b i l * (/ sqrt (ev l) * / sqrt (ev l)) * b j l) * m j))
                      (fun i => rsum d (fun l => (b i l * m i) * (rsum d (fun j => b j l * m j) * (/ sqrt (ev l) * / sqrt (ev l)))))).
  - rewrite rsum_swap. apply rsum_ext. intros l _. rewrite (rsum_scal_r d (rsum d (fun j => b j l * m j) * (/ sqrt (ev l) * / sqrt (ev l))) (fun i => b i l * m i)). unfold Rdiv. ring.
  - intros i _. rewrite <- rsum_scal. rewrite (rsum_ext d (fun j => m i * (rsum d (fun l => b i l * (/ sqrt (ev l) * / sqrt (ev l)) * b j l) * m j))
      (fun j => rsum d (fun l => b i l * m i * (b j l * m j * (/ sqrt (ev l) * / sqrt (ev l)))))).
    + rewrite rsum_swap. apply rsum_ext. intros l _. rewrite rsum_scal. f_equal. apply (rsum_scal_r d (/ sqrt (ev l) * / sqrt (ev l)) (fun j => b j l * m j)).
    + intros j _. rewrite <- (rsum_scal_r d (m j) (fun l => b i l * (/ sqrt (ev l) * / sqrt (ev l)) * b j l)), <- rsum_scal. apply rsum_ext. intros; ring.
Qed.
Lemma shift_turn n n' : RR n n' -> shift_norm p' n' = shift_norm p n.
Proof using HQ HF.
  intros HR. pose proof HF as (F1 & F2 & F3 & F4). unfold shift_norm. cbn [p' with_source p_k]. rewrite F2, F3. cbn [orb].
  assert (x_sigma n' = x_sigma n) as -> by apply HR. f_equal. unfold norm. f_equal. change (k_dim (p_k p)) with d. rewrite !shift_quad.
  assert (HD : equivalent_dec d q (x_dec n) (x_dec n')) by apply HR.
  transitivity (quad d (conj d q (fun s t => rsum d (fun l => snd (x_dec n) s l * (/ sqrt (fst (x_dec n) l) * / sqrt (fst (x_dec n) l)) * snd (x_dec n) t l))) (mv d q (fun i => x_mean n i - x_prev n i))).
  - assert (DM : forall i, (i < d)%nat -> x_mean n' i - x_prev n' i = mv d q (fun j => x_mean n j - x_prev n j) i) by (intros i Hi; exact (diff_rot q p D n n' HR i Hi)).
    unfold quad, dot. apply rsum_ext. intros i Hi. f_equal; [auto|]. apply mv_ext; auto. intros j Hj.
    exact (equivalent_fun d q (x_dec n) (x_dec n') (fun x => / sqrt x * / sqrt x) i j HD Hi Hj).
  - unfold quad, dot.
    rewrite (rsum_ext d _ (fun i => mv d q (fun i0 => x_mean n i0 - x_prev n i0) i * mv d q (mv d (fun s t => rsum d (fun l => snd (x_dec n) s l * (/ sqrt (fst (x_dec n) l) * / sqrt (fst (x_dec n) l)) * snd (x_dec n) t l)) (fun i0 => x_mean n i0 - x_prev n i0)) i)).
    + apply (rot_dot d q HQ).
    + intros i Hi. f_equal. apply conj_mv; auto.
Qed.
Lemma sample_turn w v n n' m : RR n n' ->
  (forall i j, (i < d)%nat -> (j < d)%nat -> rsum d (fun l => snd (x_dec n') i l * v l j) = rsum d (fun l => q i l * snd (x_dec n) l j)) ->
  (forall i j, (i < d)%nat -> (j < d)%nat -> fst (x_dec n') i * v i j = v i j * fst (x_dec n) j) ->
  turned_draws d v (x_pos n) (p_normal p) w ->
  fst (sample_num (with_source E' w p) m n') = map h (fst (sample_num p m n)).
Proof using HF.
  intros HR B EV HT. pose proof HF as (F1 & F2 & F3 & F4). unfold sample_num. cbn [fst]. rewrite map_map. apply map_ext. intros c.
  change (p_k (with_source E' w p)) with k. change (k_dim k) with d. change (k_dim (p_k p)) with d. unfold h. rewrite (rot_tab q p). apply tab_ext. intros i Hi.
  change (p_normal (with_source E' w p)) with w. assert (x_pos n' = x_pos n) as -> by apply HR.
  unfold sample_col. change (p_k (with_source E' w p)) with (p_k p). rewrite F2, F3. change (k_dim (p_k p)) with d.
  assert (x_sigma n' = x_sigma n) as -> by apply HR. assert (x_smean n' i = mv d q (x_smean n) i) as -> by (apply HR; exact Hi).
  rewrite (mv_ext d (transform (x_dec n')) (transform (x_dec n')) (fun i0 => w (x_pos n + c * d + i0)%nat) (mv d v (fun l => p_normal p (x_pos n + c * d + l)%nat))) by (intros; auto).
  rewrite (transform_turn v (x_dec n) (x_dec n')) by auto.
  rewrite (mv_plus q p (fun i0 => mv d (transform (x_dec n)) (fun l => p_normal p (x_pos n + c * d + l)%nat) i0 * x_sigma n) (x_smean n)). f_equal.
  rewrite (mv_ext d q q (fun i0 => mv d (transform (x_dec n)) (fun l => p_normal p (x_pos n + c * d + l)%nat) i0 * x_sigma n) (fun i0 => x_sigma n * mv d (transform (x_dec n)) (fun l => p_normal p (x_pos n + c * d + l)%nat) i0)) by (intros; auto; apply Rmult_comm).
  rewrite (mv_scal q p). apply Rmult_comm.
Qed.
Lemma points_turn w v n n' : RR n n' -> orthogonal d v ->
  (forall i, (i < d)%nat -> w (x_pos n + i)%nat = mv d v (fun l => p_normal p (x_pos n + l)%nat) i) ->
  fst (tpa_points (with_source E' w p) n') = (h (fst (fst (tpa_points p n))), h (snd (fst (tpa_points p n)))).
Proof using HF HQ p' dr.
  intros HR HV HT. unfold tpa_points. cbn [fst snd]. change (shift_norm (with_source E' w p) n') with (shift_norm p' n'). rewrite (shift_turn n n' HR).
  change (k_dim (p_k (with_source E' w p))) with d. change (k_dim (p_k p)) with d. change (p_normal (with_source E' w p)) with w.
  assert (x_pos n' = x_pos n) as -> by apply HR.
  rewrite (norm_ext d (fun j => w (x_pos n + j)%nat) (mv d v (fun l => p_normal p (x_pos n + l)%nat))) by exact HT.
  rewrite (rot_norm d v HV). unfold h. rewrite !(rot_tab q p). set (c := norm d (fun j => p_normal p (x_pos n + j)%nat)). set (t := shift_norm p n).
  assert (RM : forall i, (i < d)%nat -> x_mean n' i = mv d q (x_mean n) i) by apply HR.
  f_equal; apply tab_ext; intros i Hi; rewrite (diff_rot q p D n n' HR i Hi), RM by exact Hi; fold d k.
  - rewrite (mv_plus q p (x_mean n) (fun j => c * ((x_mean n j - x_prev n j) / t))). f_equal. rewrite (mv_ext d q q (fun j => c * ((x_mean n j - x_prev n j) / t)) (fun j => c / t * (x_mean n j - x_prev n j))) by (intros; auto; unfold Rdiv; ring). rewrite (mv_scal q p). unfold d, k, Rdiv; ring.
  - rewrite (mv_minus q p (x_mean n) (fun j => c * ((x_mean n j - x_prev n j) / t))). f_equal. rewrite (mv_ext d q q (fun j => c * ((x_mean n j - x_prev n j) / t)) (fun j => c / t * (x_mean n j - x_prev n j))) by (intros; auto; unfold Rdiv; ring). rewrite (mv_scal q p). unfold d, k, Rdiv; ring.
Qed.
Lemma eigen_pos pp it n : x_pos (eigen_num pp it n) = x_pos n.
Proof using Type. unfold eigen_num. destruct (_ || _); auto. destruct (_ || _); auto. Qed.
Lemma ask_turn n' s : R2 (s_num (t_sol s)) n' -> exists v, orthogonal d v /\
  forall w pop s1, turned_draws d v (x_pos (s_num (t_sol s))) (p_normal p) w -> ask (cma_num p) e g s = Ok (pop, s1) ->
  exists s1', ask (cma_num (with_source E' w p)) e' g (mt h n' s) = Ok (map h pop, s1').
Proof using HQ HE HE' HF HP HG.
  intros HR. pose proof (eigen_told (t_niter s) _ _ HR) as HR1. pose proof HR1 as [HRR _].
  assert (HD : equivalent_dec d q (x_dec (eigen_num p (t_niter s) (s_num (t_sol s)))) (x_dec (eigen_num p' (t_niter s) n'))) by apply HRR.
  destruct HD as (v & HV & HB & HEV). exists v. split; [exact HV|]. intros w pop s1 HT HA.
  set (pw := with_source E' w p). unfold ask in *. pose proof HP as (_ & _ & P3 & _). pose proof HF as (_ & _ & _ & F4). pose proof HG as (_ & _ & G3). rewrite P3, G3, F4 in *.
  cbn [mt t_niter t_sol ms s_num set_t_sol set_s_num cma_num n_eigen n_sample] in *. change (eigen_num pw (t_niter s) n') with (eigen_num p' (t_niter s) n').
  set (n1 := eigen_num p (t_niter s) (s_num (t_sol s))) in *. set (n1' := eigen_num p' (t_niter s) n') in *.
  assert (X1 : x_pos n1 = x_pos (s_num (t_sol s))) by apply eigen_pos. rewrite <- X1 in HT.
  pose proof (sample_turn w v n1 n1' (g_lambda g) HRR HB HEV HT) as S1. destruct (sample_told (g_lambda g) _ _ HR1) as [_ S2]. fold pw in S1. change (snd (sample_num p' (g_lambda g) n1')) with (snd (sample_num pw (g_lambda g) n1')) in S2.
  assert (X2 : x_pos (snd (sample_num p (g_lambda g) n1)) = (x_pos n1 + g_lambda g * d)%nat) by reflexivity.
  destruct (sample_num p (g_lambda g) n1) as [pop0 n2]. destruct (sample_num pw (g_lambda g) n1') as [pop' n2']. cbn [fst snd] in S1, S2, X2. subst pop'.
  cbn [bind t_niter set_t_sol fix_rows] in *. change (t_niter (mt h n' s)) with (t_niter s).
  destruct ((g_tpa g =? 2) && (0 <? t_niter s))%Z%bool.
  - cbn [t_sol set_t_sol set_s_num s_num s_tpa1 s_tpa2 n_tpa_points] in *. change (n_tpa_points (cma_num p) n2) with (tpa_points p n2) in HA. change (n_tpa_points (cma_num pw) n2') with (tpa_points pw n2').
    assert (P : fst (tpa_points pw n2') = (h (fst (fst (tpa_points p n2))), h (snd (fst (tpa_points p n2))))).
    { apply (points_turn w v); [apply S2|exact HV|]. intros i Hi. rewrite X2. apply HT, Hi. }
    destruct (tpa_points p n2) as [[x1 x2] n3]. destruct (tpa_points pw n2') as [[y1 y2] n3']. cbn [fst snd] in P. injection P as -> ->. cbv zeta in *. cbn [s_tpa1 s_tpa2 t_sol set_t_sol set_s_num ms] in *.
    unfold set_col in *. repeat match goal with |- context[s_tpa1 ?a] => progress change (s_tpa1 a) with (s_tpa1 (t_sol s)) | |- context[s_tpa2 ?a] => progress change (s_tpa2 a) with (s_tpa2 (t_sol s)) end.
    rewrite (upd_at_map h pop0 _ x1). destruct (upd_at pop0 _ x1) as [pa|]; cbn [bind rmap] in *; [|discriminate].
    rewrite (upd_at_map h pa _ x2). destruct (upd_at pa _ x2) as [pb|]; cbn [bind rmap] in *; [|discriminate].
    apply Ok_inj in HA. injection HA as <- _. eexists. reflexivity.
  - cbn [bind fix_rows] in *. apply Ok_inj in HA. injection HA as <- _. eexists. reflexivity.
Qed.
Lemma told_ask x0 n n' hs s : length x0 = d -> rot_stream d q n n' -> Forall (told_op g) hs -> needs_initial g = false ->
  (do s <- st_new (cma_num p) g x0 n; run_ops (cma_num p) e g hs s) = Ok s ->
  exists s', (do s <- st_new (cma_num p') g (h x0) n'; run_ops (cma_num p') e' g (map (move_op h) hs) s) = Ok s' /\
  exists v, orthogonal d v /\
  forall w pop s1, turned_draws d v (x_pos (s_num (t_sol s))) (p_normal p) w -> ask (cma_num p) e g s = Ok (pop, s1) ->
  exists s1', ask (cma_num (with_source E' w p)) e' g s' = Ok (map h pop, s1').
Proof.
  intros HX HN F HI H. pose proof (told_rel x0 n n' hs HX HN F HI) as Q. rewrite H in Q. unfold g' in Q. rewrite (same_cfg p HF g HG) in Q. destruct Q as (n1 & HR & Q).
  exists (mt h n1 s). split; [exact Q|]. apply ask_turn, HR.
Qed.
End Told.
