(** Proofs about doubles inside bounds: coordinates put together. *)
From Coq Require Import Reals List Lra Lia.
From Flocq Require Import Core BinarySingleNaN.
From Verif Require Import Base Pwq64 Pwq64Proofs SpecPwq64.
Import ListNotations.
Local Open Scope R_scope.

Lemma c500_eq : c500 = bpow radix2 500. Proof. reflexivity. Qed.
Lemma p40 : bpow radix2 40 = 1099511627776. Proof. reflexivity. Qed.

Lemma coord_feasible64 l u f : usual_bounds l u -> number f ->
  (exists g, fto_f (pwqf_coord l u) f = Ok g /\ finite g /\ value l <= value g <= value u) \/ fto_f (pwqf_coord l u) f = Fault IntCast.
Proof. intros (H1 & H2 & H3 & H4 & H5 & H6 & H7 & H8) N. rewrite p40 in *. apply coord_feasible; auto. Qed.
Lemma coord_total64 l u f : usual_bounds l u -> finite f -> value l - 1073741824 * (value u - value l) <= value f <= value u + 1073741824 * (value u - value l) ->
  exists g, fto_f (pwqf_coord l u) f = Ok g /\ finite g /\ value l <= value g <= value u.
Proof. intros (H1 & H2 & H3 & H4 & H5 & H6 & H7 & H8) N. rewrite p40 in *. apply coord_total; auto. Qed.
Lemma unit_usual : usual_bounds f0 f10.
Proof.
  unfold usual_bounds, finite, value. rewrite (proj2 rep_f0), (proj2 rep_f10), (proj1 rep_f0), (proj1 rep_f10), Rabs_R0, (Rabs_pos_eq 10) by lra.
  assert (16 <= bpow radix2 500) by (change 16 with (bpow radix2 4); apply bpow_le; lia).
  assert (bpow radix2 (-400) <= 1) by (change 1 with (bpow radix2 0); apply bpow_le; lia). rewrite p40. repeat split; lra.
Qed.
Lemma coord_scaled64 l u f : usual_bounds l u -> finite f -> 0 <= value f <= 10 ->
  let g := fscale_to_f (flin l u) f in finite g /\ let e := bpow radix2 (-48) * (value u - value l + Rabs (value u)) in value l - e <= value g <= value u + e.
Proof. intros (H1 & H2 & H3 & H4 & H5 & H6 & H7 & H8) N B. rewrite p40 in *. apply (scaled_in l u H1 H2 H3 H4 H5 H6 H7 H8 f (value f)); [split; auto|exact B]. Qed.

Lemma inside_nil : inside64 [] [] [].
Proof. split; [reflexivity|]. split; [reflexivity|]. intros [|i] l u v H; discriminate. Qed.
Lemma inside_cons l u v lb ub y : finite v -> value l <= value v <= value u -> inside64 lb ub y -> inside64 (l :: lb) (u :: ub) (v :: y).
Proof.
  intros F B (H1 & H2 & H3). split; [cbn; congruence|]. split; [cbn; congruence|]. intros [|i] l' u' v'; cbn.
  - intros E1 E2 E3. injection E1 as <-. injection E2 as <-. injection E3 as <-. auto.
  - apply H3.
Qed.
Lemma nearly_cons l u v lb ub y : finite v -> (let e := bpow radix2 (-48) * (value u - value l + Rabs (value u)) in value l - e <= value v <= value u + e) -> nearly_inside64 lb ub y -> nearly_inside64 (l :: lb) (u :: ub) (v :: y).
Proof.
  intros F B (H1 & H2 & H3). split; [cbn; congruence|]. split; [cbn; congruence|]. intros [|i] l' u' v'; cbn.
  - intros E1 E2 E3. injection E1 as <-. injection E2 as <-. injection E3 as <-. auto.
  - apply H3.
Qed.

Lemma vec_feasible lb ub x : Forall2 usual_bounds lb ub -> length x = length lb -> Forall number x ->
  (exists y, pheno_bounds64 lb ub x = Ok y /\ inside64 lb ub y) \/ pheno_bounds64 lb ub x = Fault IntCast.
Proof.
  intros H. revert x. induction H as [|l u lb ub Hb H IH]; intros [|v x] Hl Hn; try discriminate.
  - left. exists []. split; [reflexivity|apply inside_nil].
  - inversion Hn as [|? ? N1 N2]; subst. injection Hl as Hl. specialize (IH x Hl N2). unfold pheno_bounds64 in *. cbn [mapM2 bind] in *.
    destruct (mapM2 (fun l u => Ok (pwqf_coord l u)) lb ub) as [q|e] eqn:Q; cbn [bind mapM2] in *.
    + destruct (coord_feasible64 l u v Hb N1) as [(g & -> & F & B)| -> ]; cbn [bind mapM2]; [|right; reflexivity].
      destruct IH as [(y & -> & I)| -> ]; cbn [bind]; [|right; reflexivity]. left. eexists. split; [reflexivity|]. now apply inside_cons.
    + destruct IH as [(y & D & _)|D]; [discriminate|]. right. exact D.
Qed.
Lemma vec_total lb ub x : Forall2 usual_bounds lb ub -> length x = length lb -> within_widths64 (2 ^ 30) lb ub x ->
  exists y, pheno_bounds64 lb ub x = Ok y /\ inside64 lb ub y.
Proof.
  intros H. revert x. induction H as [|l u lb ub Hb H IH]; intros [|v x] Hl Hn; try discriminate.
  - exists []. split; [reflexivity|apply inside_nil].
  - injection Hl as Hl. destruct (IH x Hl) as (y & E & I). { intros i l' u' v' E1 E2 E3. apply (Hn (S i)); assumption. }
    destruct (Hn 0%nat l u v eq_refl eq_refl eq_refl) as [F B]. replace (2 ^ 30) with 1073741824 in B by (cbn; lra).
    destruct (coord_total64 l u v Hb F B) as (g & Eg & Fg & Bg). unfold pheno_bounds64 in *. cbn [mapM2 bind] in *.
    destruct (mapM2 (fun l u => Ok (pwqf_coord l u)) lb ub) as [q|e]; cbn [bind mapM2] in *; [|discriminate]. rewrite Eg. cbn [bind]. rewrite E. cbn [bind]. eexists. split; [reflexivity|]. now apply inside_cons.
Qed.
Lemma vec_scaled lb ub x : Forall2 usual_bounds lb ub -> length x = length lb -> Forall number x ->
  (exists y, pheno_scaled64 lb ub x = Ok y /\ nearly_inside64 lb ub y) \/ pheno_scaled64 lb ub x = Fault IntCast.
Proof.
  intros H. revert x. induction H as [|l u lb ub Hb H IH]; intros [|v x] Hl Hn; try discriminate.
  - left. exists []. split; [reflexivity|]. split; [reflexivity|]. split; [reflexivity|]. intros [|i] l u v E; discriminate.
  - inversion Hn as [|? ? N1 N2]; subst. injection Hl as Hl. specialize (IH x Hl N2). unfold pheno_scaled64 in *. cbn [mapM2 mapM bind] in *.
    destruct (mapM2 (fun l u => Ok (flin l u)) lb ub) as [s|e] eqn:Q; cbn [bind] in *.
    + destruct (coord_feasible64 f0 f10 v unit_usual N1) as [(g & -> & F & B)| -> ]; cbn [bind]; [|right; reflexivity].
      destruct (mapM (fun v => fto_f (pwqf_coord f0 f10) v) x) as [y|e]; cbn [bind mapM2] in *.
      * unfold value in B. rewrite (proj2 rep_f0), (proj2 rep_f10) in B. destruct (coord_scaled64 l u g Hb F B) as [G1 G2].
        destruct IH as [(z & -> & I)| -> ]; cbn [bind]; [|right; reflexivity]. left. eexists. split; [reflexivity|]. now apply nearly_cons.
      * destruct IH as [(z & D & _)|D]; [discriminate|]. right. exact D.
    + destruct IH as [(y & D & _)|D]; [discriminate|]. right. exact D.
Qed.

(** Witnesses. *)
Definition w_lb : b64 := fnum (-1) 0.
Definition w_ub : b64 := fnum 6305039478318694 (-50).
Definition w_x : b64 := fsub f0 (p_al (pwqf_coord f0 f10)).
Definition w_y : b64 := fnum (-4503599627370497) (-52).
Definition huge_lb : b64 := fnum (-1) 600.
Definition huge_ub : b64 := fnum 1 600.
Lemma flt_value a b : finite a -> finite b -> flt a b = true -> value a < value b.
Proof. intros Fa Fb H. unfold flt in H. rewrite Bltb_correct in H by assumption. destruct (Rlt_bool_spec (B2R a) (B2R b)); [assumption|discriminate]. Qed.
Lemma ok1_eq (r : res (list b64)) y : (match r with Ok [z] => B2SF z = B2SF y | _ => False end) -> is_nan y = false -> r = Ok [y].
Proof. destruct r as [[|z [|? ?]]|]; try easy. intros E N. f_equal. f_equal. apply B2SF_inj. exact E. Qed.
Lemma w_rep : rep w_lb (-1) /\ rep w_ub (6305039478318694 * bpow radix2 (-50)).
Proof.
  split; [apply (rep_int (-1)); reflexivity|]. apply rep_num; [reflexivity|discriminate|]. rewrite Rabs_pos_eq by (apply Rmult_le_pos; [lra|apply bpow_ge_0]).
  assert (bpow radix2 (-50) <= 1) by (change 1 with (bpow radix2 0); apply bpow_le; lia). pose proof (big_int 6305039478318694 eq_refl) as B. rewrite Rabs_pos_eq in B by lra.
  apply Rle_trans with (6305039478318694 * 1); [apply Rmult_le_compat_l; lra|lra].
Qed.
Lemma w_usual : usual_bounds w_lb w_ub.
Proof.
  destruct w_rep as [[F1 E1] [F2 E2]]. unfold usual_bounds, finite, value. rewrite F1, F2, E1, E2.
  assert (A : bpow radix2 (-50) = / 1125899906842624) by reflexivity. rewrite A.
  assert (16 <= bpow radix2 500) by (change 16 with (bpow radix2 4); apply bpow_le; lia).
  assert (bpow radix2 (-400) <= 1) by (change 1 with (bpow radix2 0); apply bpow_le; lia). rewrite p40.
  rewrite (Rabs_pos_eq (6305039478318694 * _)) by lra. rewrite Rabs_left by lra. repeat split; lra.
Qed.
Lemma scaled_outside : exists lb ub x y, usual_bounds lb ub /\ finite x /\ pheno_scaled64 [lb] [ub] [x] = Ok [y] /\ finite y /\ value y < value lb.
Proof.
  exists w_lb, w_ub, w_x, w_y. split; [apply w_usual|]. split; [vm_compute; reflexivity|]. split; [apply ok1_eq; vm_compute; reflexivity|]. split; [vm_compute; reflexivity|].
  apply flt_value; vm_compute; reflexivity.
Qed.
Lemma huge_outside : exists lb ub, finite lb /\ finite ub /\ value lb < value ub /\ pheno_bounds64 [lb] [ub] [lb] = Ok [B754_infinity false].
Proof.
  exists huge_lb, huge_ub. split; [vm_compute; reflexivity|]. split; [vm_compute; reflexivity|]. split; [apply flt_value; vm_compute; reflexivity|].
  apply ok1_eq; vm_compute; reflexivity.
Qed.
Lemma far_fault : exists lb ub x, usual_bounds lb ub /\ finite x /\ pheno_bounds64 [lb] [ub] [x] = Fault IntCast.
Proof. exists f0, f10, (fnum 1 40). split; [apply unit_usual|]. split; [vm_compute; reflexivity|]. vm_compute. reflexivity. Qed.
Lemma box_example : exists y, pheno_bounds64 [w_lb; f0] [w_ub; f10] [fnum 1 3; fnum (-7) 0] = Ok y /\ inside64 [w_lb; f0] [w_ub; f10] y.
Proof.
  apply vec_total; [constructor; [apply w_usual|constructor; [apply unit_usual|constructor]]|reflexivity|].
  assert (A : 2 ^ 30 = 1073741824) by (cbn; lra). destruct w_rep as [[F1 E1] [F2 E2]]. assert (A50 : bpow radix2 (-50) = / 1125899906842624) by reflexivity. rewrite A50 in E2.
  assert (E3 : value (fnum 1 3) = 8) by (unfold value; rewrite (proj2 (rep_num 1 3 eq_refl ltac:(discriminate) ltac:(change (bpow radix2 3) with 8; rewrite Rabs_pos_eq by lra; pose proof (big_int 8 eq_refl) as B; rewrite Rabs_pos_eq in B by lra; lra))); change (bpow radix2 3) with 8; lra).
  assert (E4 : value (fnum (-7) 0) = -7) by (unfold value; apply (rep_int (-7)); reflexivity).
  assert (inj : forall a b : b64, Some a = Some b -> a = b) by congruence.
  intros [|[|[|i]]] l u v; cbn [nth_error]; intros H1 H2 H3; try discriminate; apply inj in H1, H2, H3; rewrite <- H1, <- H2, <- H3, A; (split; [vm_compute; reflexivity|]); unfold value in *.
  - rewrite E1, E2, E3. lra.
  - rewrite (proj2 rep_f0), (proj2 rep_f10), E4. lra.
Qed.
