(** Property theorems: return codes of the restart strategies and the small runs
    of BIPOP. *)
From Coq Require Import Reals Lra.
From Verif Require Import Base Dbl Config Search SpecSearch SpecStop SpecSafe Restart SpecRestart RestartProofs BipopProofs RestartThms RestartMoreThms Demo DemoProofs RestartDemo.
Local Open Scope Z_scope.

(** C51: the code returned is that of the solution returned, success exactly when
    its run status is not negative. *)
Theorem C51_ipop_return_code : forall T N (ops : nat -> R -> numops T N) e g nr rf fuel p s rc best runs s',
  ipop ops e g nr rf fuel p s = Ok (rc, Some best, runs, s') -> (0 <= s_status best -> rc = 0) /\ (s_status best < 0 -> rc = -1).
Proof. exact ipop_code. Qed.
Print Assumptions C51_ipop_return_code.
Theorem C51_bipop_return_code : forall T N (ops : nat -> R -> numops T N) e g ldef sigma m draw nr rf fuel p s rc b best,
  bipop ops e g ldef sigma m draw nr rf fuel p s = Ok (rc, b) -> b_best b = Some best -> (0 <= s_status best -> rc = 0) /\ (s_status best < 0 -> rc = -1).
Proof. exact bipop_code. Qed.
Print Assumptions C51_bipop_return_code.

(** C53: a small run starts with a step size between 0.02 and 2, and with more
    than half the default population and at most the default one or half that of
    the last large run. *)
Theorem C53_small_runs : forall T N (ops : nat -> R -> numops T N) e g ldef sigma m draw rf fuel nr p s rc b,
  (2 <= ldef)%nat -> (forall i, (0 <= draw i < 1)%R) -> q_lambda p = ldef -> q_sigma p = sigma ->
  bipop ops e g ldef (Some sigma) (Some m) draw nr rf fuel p s = Ok (rc, b) ->
  forall k u, nth_error (b_runs b) k = Some u -> u_small u = true ->
  let larges := filter (fun u => negb (u_small u)) (firstn k (b_runs b)) in
  (0.02 < q_sigma (u_par u) <= 2)%R /\ (ldef < 2 * q_lambda (u_par u))%nat /\ (2 * q_lambda (u_par u) <= Nat.max (2 * ldef) (ldef * 2 ^ (length larges - 1)))%nat.
Proof. exact bipop_small. Qed.
Print Assumptions C53_small_runs.

(** When two large runs are asked for, the second run is a small one. *)
Theorem C53_second_run : forall T N (ops : nat -> R -> numops T N) e g ldef sigma m draw rf fuel nr p x0 n s rc b,
  (forall l x, samples_ok (ops l x)) -> (forall so, e_progress e so = 0) -> e_restart (g_elit g) = false -> (2 <= ldef)%nat -> (forall i, (0 <= draw i < 1)%R) -> q_lambda p = ldef -> q_sigma p = sigma ->
  restart_new ops g p x0 n = Ok s -> bipop ops e g ldef (Some sigma) (Some m) draw nr rf fuel p s = Ok (rc, b) -> 2 <= nr ->
  exists u, nth_error (b_runs b) 1 = Some u /\ u_small u = true.
Proof. exact bipop_some_small. Qed.
Print Assumptions C53_second_run.

Example C51_code_example : exists s0 rc b runs s, restart_new demo_ops ipop_g ipop_p [4; 4] 0%nat = Ok s0 /\
  ipop demo_ops demo_e ipop_g 5 0 20 ipop_p s0 = Ok (rc, Some b, runs, s) /\ 0 <= s_status b.
Proof. eexists _, _, _, _, _. split; [reflexivity|]. split; [vm_compute; reflexivity|]. vm_compute. discriminate. Qed.
Example C53_small_example : exists s k rc b u, restart_new demo_ops bi_g bi_p [4; 4] 0%nat = Ok s /\
  bipop demo_ops demo_e bi_g 4 (Some 1%R) (Some 4) (fun _ => 0%R) 3 0 k bi_p s = Ok (rc, b) /\ nth_error (b_runs b) 1 = Some u /\ u_small u = true.
Proof.
  destruct bipop_over as (s & k & rc & b & H1 & H2 & _). specialize (H2 k (Nat.le_refl _)).
  destruct (bipop_some_small _ _ demo_ops demo_e bi_g 4 1%R 4 (fun _ => 0%R) 0 k 3 bi_p _ _ s rc b (fun l x => toy_samples _ _) (fun _ => eq_refl) eq_refl ltac:(lia) ltac:(intros; lra) eq_refl eq_refl H1 H2 ltac:(lia)) as (u & E & Q).
  exists s, k, rc, b, u. auto.
Qed.
