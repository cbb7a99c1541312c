(** Concrete ranking problems. *)
From Coq Require Import QArith Reals Lra.
From Verif Require Import Base Dbl Rsvm SpecRsvm RsvmProofs RsvmDual Binary64.
Local Open Scope Z_scope.

(** Integers, for the cases that involve no rounding. *)
Definition demo_ar : arith Z := mkArith Z Z.add Z.sub Z.mul Z.div Z.ltb 0 0 1 0 (fun n => Z.of_nat (n * n)).

Lemma multipliers_case : floating binary64 /\ no_overflow binary64 d_1e6 2000 /\ unit_draws (fun i => Fin (Z.of_nat (i mod 2) * 2 ^ 1073)) /\
  exists alpha, train binary64 d_1e6 d_one (fun i => Fin (Z.of_nat (i mod 2) * 2 ^ 1073)) (fun x y : Z => Fin (x * y * 2 ^ 1074)) (fun x => x) [5; 3; 2; 2] 1000 = Ok alpha.
Proof.
  split; [exact floating64|]. split; [apply no_overflow64; lia|]. split; [|apply train_ok; cbn; lia].
  intros i. eexists. split; [reflexivity|]. assert (i mod 2 < 2)%nat by (apply Nat.mod_upper_bound; lia).
  assert (E : 2 ^ 1074 = 2 * 2 ^ 1073) by reflexivity. rewrite E. generalize (2 ^ 1073) (Z.pow_nonneg 2 1073 ltac:(lia)). intros M HM. nia.
Qed.
Local Open Scope R_scope.
Lemma dual_case : (forall x y, x * y = y * x) /\ (forall i, (i < 2)%nat -> 0 < differences Rmult 5 [5; 3; 2] i i) /\
  exists a b, train exact 1000000 1 (fun _ => 0) Rmult (fun x => x) [5; 3; 2] 10 = Ok a /\ train exact 1000000 1 (fun _ => 0) Rmult (fun x => x) [5; 3; 2] 1000 = Ok b.
Proof.
  split; [intros; ring|]. split.
  - intros i Hi. destruct i as [|[|i]]; [| |lia]; unfold differences; cbn [nth]; lra.
  - destruct (train_ok R R exact 1000000 1 (fun _ => 0) Rmult (fun x => x) [5; 3; 2] 10) as [a Ha]; [cbn; lia|].
    destruct (train_ok R R exact 1000000 1 (fun _ => 0) Rmult (fun x => x) [5; 3; 2] 1000) as [b Hb]; [cbn; lia|]. eauto.
Qed.
