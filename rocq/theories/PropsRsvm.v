(** Ranking SVM (C67, C74).  [kernel] is any function of two points, [encode]
    any transformation of the points. *)
From Coq Require Import QArith Reals.
From Verif Require Import Base Dbl Rsvm SpecSurr SpecRsvm RsvmProofs RsvmDual Binary64 RsvmDemo.
Local Open Scope Z_scope.

(** C67: with floating-point numbers, whatever the kernel and the divisions
    return, each multiplier stays between 0 and C (i+1)^2. *)
Theorem C67_multipliers : forall (X : Type) ar c eps draw kernel (encode : X -> X) x niter alpha,
  floating ar -> unit_draws draw -> 0 <= c -> no_overflow ar (Fin c) (length x) ->
  train ar (Fin c) eps draw kernel encode x niter = Ok alpha ->
  length alpha = (length x - 1)%nat /\
  forall i a, nth_error alpha i = Some a -> within (Fin 0) (a_mul ar (Fin c) (a_sq ar (S i))) a.
Proof. exact multipliers. Qed.
Print Assumptions C67_multipliers.
(** Training returns for two points and more; binary64 is such an arithmetic. *)
Theorem C67_training_returns : forall (X D : Type) ar (c eps : D) draw kernel (encode : X -> X) x niter, (2 <= length x)%nat ->
  exists alpha, train ar c eps draw kernel encode x niter = Ok alpha.
Proof. exact train_ok. Qed.
Print Assumptions C67_training_returns.
Example C67_multipliers_case : floating binary64 /\ no_overflow binary64 d_1e6 2000 /\ unit_draws (fun i => Fin (Z.of_nat (i mod 2) * 2 ^ 1073)) /\
  exists alpha, train binary64 d_1e6 d_one (fun i => Fin (Z.of_nat (i mod 2) * 2 ^ 1073)) (fun x y : Z => Fin (x * y * 2 ^ 1074)) (fun x => x) [5; 3; 2; 2] 1000 = Ok alpha.
Proof. exact multipliers_case. Qed.

(** C67: the reported error is a proportion, for two reference values and more. *)
Theorem C67_svm_error_partial : forall (X D : Type) (ar : arith D) kernel (encode : X -> X) alpha test train ref q, (2 <= length ref)%nat ->
  error ar kernel encode alpha test train ref = Ok q -> unit_error q.
Proof. exact svm_error. Qed.
Print Assumptions C67_svm_error_partial.
Example C67_svm_error_case : error demo_ar Z.mul (fun x => x) [1; 1] [4; 1; 2] [5; 3; 2] [2; 3; 1] = Ok (Some (4 # 6)%Q).
Proof. vm_compute. reflexivity. Qed.
(** One value: 0/0.  One training point: remainder by zero.  None: a matrix of
    dimension -1. *)
Theorem C67_svm_error_refuted : exists (ar : arith Z) alpha x y r, error ar Z.mul (fun x => x) alpha [x] [x; y] [r] = Ok None.
Proof. exists demo_ar, [1], 2, 3, 1. vm_compute. reflexivity. Qed.
Print Assumptions C67_svm_error_refuted.
Theorem C67_one_point_refuted : forall (X D : Type) ar (c eps : D) draw kernel (encode : X -> X) x niter, 0 < niter ->
  train ar c eps draw kernel encode [x] niter = Fault DivByZero.
Proof. exact train_one. Qed.
Print Assumptions C67_one_point_refuted.
(** A larger training set than the one the multipliers come from. *)
Theorem C67_other_training_set_refuted : exists (alpha : list Z) train1 train2, Rsvm.train demo_ar 1 1 (fun _ => 0) Z.mul (fun x => x) train1 5 = Ok alpha /\
  predict demo_ar Z.mul (fun x => x) alpha [1] train2 = Fault OutOfRange.
Proof. eexists. exists [3; 2], [3; 2; 1]. split; [vm_compute; reflexivity|]. vm_compute. reflexivity. Qed.
Print Assumptions C67_other_training_set_refuted.

(** C74, in exact arithmetic: more iterations never make the dual objective of
    the ranking problem worse ... *)
Local Open Scope R_scope.
Theorem C74_dual_improves_partial : forall (X : Type) cval eps draw kernel (encode : X -> X) x0 xs k l a b,
  (forall x y, kernel x y = kernel y x) -> 0 <= cval -> (forall i, 0 <= draw i <= 1) ->
  (forall i, (i < length xs)%nat -> 0 < differences kernel (encode x0) (map encode (x0 :: xs)) i i) -> (k <= l)%Z ->
  train exact cval eps draw kernel encode (x0 :: xs) k = Ok a -> train exact cval eps draw kernel encode (x0 :: xs) l = Ok b ->
  dual eps (differences kernel (encode x0) (map encode (x0 :: xs))) a <= dual eps (differences kernel (encode x0) (map encode (x0 :: xs))) b.
Proof. exact dual_improves. Qed.
Print Assumptions C74_dual_improves_partial.
Example C74_case : (forall x y, x * y = y * x) /\ (forall i, (i < 2)%nat -> 0 < differences Rmult 5 [5; 3; 2] i i) /\
  exists a b, train exact 1000000 1 (fun _ => 0) Rmult (fun x => x) [5; 3; 2] 10 = Ok a /\ train exact 1000000 1 (fun _ => 0) Rmult (fun x => x) [5; 3; 2] 1000 = Ok b.
Proof. exact dual_case. Qed.
(** ... but training may never take a step that improves it, however many
    iterations it is given. *)
Theorem C74_stuck_refuted : exists x : list R, length x = 2%nat /\ forall niter, exists a, train exact 1000000 1 (fun _ => 0) Rmult (fun x => x) x niter = Ok [a] /\
  exists b, 0 <= b <= 1000000 /\ dual 1 (differences Rmult 0 x) [a] < dual 1 (differences Rmult 0 x) [b].
Proof. exact stuck. Qed.
Print Assumptions C74_stuck_refuted.
