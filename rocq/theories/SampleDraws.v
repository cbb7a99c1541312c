(** How many draws ask makes. *)
From Coq Require Import Reals List Lia ZArith.
From Verif Require Import Base Dbl Vec Params Config Search SpecSearch Update SpecUpdate SpecSample.
Import ListNotations.
Local Open Scope R_scope.

Lemma calls_sol {T N} (e : env T N) xs : forall (s : st T N) vs s', calls e xs s = (vs, s') -> t_sol s' = t_sol s /\ t_niter s' = t_niter s.
Proof.
  induction xs as [|x xs IH]; intros s vs s' H; cbn [calls] in H; [injection H as _ <-; auto|].
  destruct (call e x s) as [v s1] eqn:E1. destruct (calls e xs s1) as [vs' s2] eqn:E2. injection H as _ <-. destruct (IH _ _ _ E2) as [-> ->]. injection E1 as _ <-. auto.
Qed.
Lemma gradf_pos p (e : env R num) g x s gr s' : gradf (cma_num p) e g x s = (gr, s') -> drawn s' = drawn s /\ t_niter s' = t_niter s.
Proof.
  unfold gradf. destruct (e_gfunc e); [intros H; injection H as _ <-; auto|].
  destruct (calls e _ s) as [vs s1] eqn:E. apply calls_sol in E. destruct E as [E1 E2]. intros H. injection H as _ <-. unfold drawn. cbn. rewrite E1. auto.
Qed.
Lemma ask_draws p (e : env R num) (g : cfg R) s pop s' : same_problem p g -> ask (cma_num p) e g s = Ok (pop, s') ->
  drawn s' = (drawn s + (k_lambda (p_k p) + if (g_tpa g =? 2)%Z && (0 <? t_niter s)%Z then 1 else 0) * k_dim (p_k p))%nat.
Proof.
  intros (_ & GL & _) H. unfold ask in H. cbn [n_eigen n_sample cma_num] in H. unfold sample_num in H. rewrite GL in H.
  set (n1 := eigen_num p (t_niter s) (s_num (t_sol s))) in *.
  assert (P1 : x_pos n1 = drawn s). { unfold n1, eigen_num, drawn. destruct (_ || _); [reflexivity|]. destruct (_ || _ || _); reflexivity. }
  set (n2 := with_pos n1 _ _) in *. set (s1 := set_t_sol _ s) in *. set (pop1 := map _ _) in *.
  match type of H with context [do p2 <- ?X; _] => set (A := X) in H; destruct A as [[pop2 s2]|] eqn:EA; [|discriminate H] end.
  assert (P2 : drawn s2 = (drawn s + k_lambda (p_k p) * k_dim (p_k p))%nat /\ t_niter s2 = t_niter s).
  { assert (Q : drawn s1 = (drawn s + k_lambda (p_k p) * k_dim (p_k p))%nat) by (unfold drawn at 1, s1, n2; cbn; rewrite P1; reflexivity).
    unfold A in EA. destruct (g_gradient g).
    - destruct (e_pheno e _) as [x|]; [|discriminate EA]. cbn [bind] in EA. destruct (gradf (cma_num p) e g x s1) as [gr s3] eqn:EG. apply gradf_pos in EG. destruct EG as [G1 G2].
      destruct (n_gradcol _ _ _) as [nx|]; [destruct (set_col _ _ _); [|discriminate EA]|]; cbn [bind] in EA; injection EA as _ <-; rewrite G1, G2; auto.
    - injection EA as _ <-. auto. }
  destruct P2 as [P2 T2]. cbn [bind] in H. rewrite T2 in H. destruct (_ && _)%bool.
  - destruct (n_tpa_points (cma_num p) (s_num (t_sol s2))) as [[x1 x2] n3] eqn:ET. cbn [cma_num n_tpa_points] in ET. unfold tpa_points in ET. injection ET as _ _ ET.
    set (so := if g_gradient g then _ else _) in H. assert (SO : s_num so = n3) by (unfold so; destruct (g_gradient g); reflexivity).
    destruct (set_col _ x1 _) as [pa|]; [|discriminate H]. cbn [bind] in H. destruct (set_col _ x2 _) as [pb|]; [|discriminate H]. cbn [bind] in H.
    destruct (fix_rows _ _) as [p4|]; [|discriminate H]. cbn [bind] in H. injection H as _ <-. unfold drawn at 1. cbn [set_t_sol t_sol]. rewrite SO, <- ET. cbn [with_pos x_pos]. unfold drawn in P2 at 1. rewrite P2. cbn. lia.
  - cbn [bind] in H. destruct (fix_rows _ _) as [p4|]; [|discriminate H]. cbn [bind] in H. injection H as _ <-. rewrite P2. lia.
Qed.
