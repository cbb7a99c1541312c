(** Searches that correspond through a rotation or reflection of the space. *)
From Coq Require Import Reals List.
From Verif Require Import Base Dbl Vec Params Config Search SpecSearch SpecInvar SpecMorph SpecSafe Update SpecUpdate SpecAffine.
Import ListNotations.
Open Scope R_scope.

(** q q^T = q^T q = 1 in dimension [d]. *)
Definition orthogonal (d : nat) (q : mat) : Prop :=
  (forall i j, (i < d)%nat -> (j < d)%nat -> rsum d (fun l => q i l * q j l) = if Nat.eqb i j then 1 else 0) /\
  (forall i j, (i < d)%nat -> (j < d)%nat -> rsum d (fun l => q l i * q l j) = if Nat.eqb i j then 1 else 0).
(** The point q x. *)
Definition rot (q : mat) (x : list R) : list R := tab (length x) (mv (length x) q (at0 x)).
(** q a q^T *)
Definition conj (d : nat) (q a : mat) : mat := fun i j => rsum d (fun s => q i s * rsum d (fun t => a s t * q j t)).
(** The same problem for the rotated objective f(q^T x); the progress function is [pr]. *)
Definition rot_env (q : mat) (pr : sol R num -> Z) (e : env R num) : env R num :=
  mkEnv (fun k y => e_f e k (rot (mt q) y)) (e_gfunc e) (e_pheno e) pr (e_sort e).
(** The decomposition (ev, q v) in place of (ev, v). *)
Definition rot_dec (d : nat) (q : mat) (dec : vec * mat) : vec * mat := (fst dec, mm d q (snd dec)).
(** An eigensolver that returns for a the rotated decomposition of q^T a q: the
    same eigenvalues in the same order, the eigenvectors rotated. *)
Definition rot_eig (d : nat) (q : mat) (eig : list (list R) -> vec * mat) (m : list (list R)) : vec * mat :=
  rot_dec d q (eig (mtab d (conj d (mt q) (fun i j => nth j (nth i m []) 0)))).
(** The same parameters with the eigensolver [eig] and the normal draws [w]. *)
Definition with_source (eig : list (list R) -> vec * mat) (w : nat -> R) (p : npar) : npar :=
  mkNpar (p_k p) (p_upd p) (p_sigma0 p) (p_lazy p) (p_xtol p) (p_tpac p) (p_epsuh p) eig
    w (p_unif p) (p_scale p) (p_pheno p) (p_ub p) (p_ugrad p).
Definition rot_par (q : mat) (p : npar) : npar := with_source (rot_eig (k_dim (p_k p)) q (p_eig p)) (p_normal p) p.

(** Corresponding distributions: means and evolution paths rotated, covariance
    q C q^T, step size and extreme eigenvalues equal, decompositions related by
    [D], same position in the random streams. *)
Definition turned_num (D : vec * mat -> vec * mat -> Prop) (d : nat) (q : mat) (n n' : num) : Prop :=
  (forall i, (i < d)%nat -> x_mean n' i = mv d q (x_mean n) i) /\
  x_sigma n' = x_sigma n /\
  (forall i j, (i < d)%nat -> (j < d)%nat -> x_cov n' i j = conj d q (x_cov n) i j) /\
  (forall i, (i < d)%nat -> x_psigma n' i = mv d q (x_psigma n) i) /\
  (forall i, (i < d)%nat -> x_pc n' i = mv d q (x_pc n) i) /\
  x_tpas n' = x_tpas n /\
  (forall i, (i < d)%nat -> x_prev n' i = mv d q (x_prev n) i) /\
  (forall i, (i < d)%nat -> x_smean n' i = mv d q (x_smean n) i) /\
  (forall i j, (i < d)%nat -> (j < d)%nat -> x_csqinv n' i j = conj d q (x_csqinv n) i j) /\
  D (x_dec n) (x_dec n') /\
  x_maxev n' = x_maxev n /\ x_minev n' = x_minev n /\
  x_fresh n' = x_fresh n /\ x_eigiter n' = x_eigiter n /\ x_pos n' = x_pos n /\ x_upos n' = x_upos n.
(** The same eigenvalues in the same order, eigenvectors rotated. *)
Definition rotated_dec (d : nat) (q : mat) (dec dec' : vec * mat) : Prop := dec' = rot_dec d q dec.
Definition rotated_num (d : nat) (q : mat) : num -> num -> Prop := turned_num (rotated_dec d q) d q.
(** Two decompositions (ev, b) of a and (ev', b') of q a q^T, up to the choice of
    the eigenvectors: for some orthogonal v, b' v = q b and ev' v = v ev. *)
Definition equivalent_dec (d : nat) (q : mat) (dec dec' : vec * mat) : Prop := exists v, orthogonal d v /\
  (forall i j, (i < d)%nat -> (j < d)%nat -> rsum d (fun l => snd dec' i l * v l j) = rsum d (fun l => q i l * snd dec l j)) /\
  (forall i j, (i < d)%nat -> (j < d)%nat -> fst dec' i * v i j = v i j * fst dec j).
Definition equivalent_num (d : nat) (q : mat) : num -> num -> Prop := turned_num (equivalent_dec d q) d q.
(** Random streams at the same position before construction (the constructor
    keeps nothing else but the mean and decomposition of the sampler, which the
    first ask replaces). *)
Definition rot_stream (d : nat) (q : mat) (n n' : num) : Prop :=
  x_pos n' = x_pos n /\ x_upos n' = x_upos n /\ (forall i, (i < d)%nat -> x_smean n' i = mv d q (x_smean n) i) /\
  x_dec n' = rot_dec d q (x_dec n).
(** From position [pos] on, each block of [d] draws of [w] is [v] applied to the
    same block of [z]; when [v] is orthogonal and [z] are independent standard
    normal draws, so are those of [w]. *)
Definition turned_draws (d : nat) (v : mat) (pos : nat) (z w : nat -> R) : Prop :=
  forall c i, (i < d)%nat -> w (pos + c * d + i)%nat = mv d v (fun l => z (pos + c * d + l)%nat) i.
(** CMA-ES with a full covariance matrix, active or not, no fixed parameter. *)
Definition full_matrix (p : npar) : Prop :=
  p_upd p <> Vd /\ k_sep (p_k p) = false /\ k_vd (p_k p) = false /\ k_fixed (p_k p) = [].
(** The criteria that look at single coordinates (TolX, NoEffectAxis,
    NoEffectCoor) are switched off. *)
Definition no_coordinate_criteria (g : cfg R) : Prop :=
  forall c, In (c, true) (g_flags g) -> (c <> 2 /\ c <> 3 /\ c <> 4)%Z.
(** Calls whose effect on the optimiser does not depend on which points were
    drawn: ask, evaluation and update with a given population, stop. *)
Definition told_op (g : cfg R) (o : op R) : Prop :=
  match o with OOptimize _ _ => False | o => point_op g o end.
