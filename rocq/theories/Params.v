(** Model of the strategy parameters: include/libcmaes/parameters.h,
    include/libcmaes/cmaparameters.h, src/cmaparameters.cc.
    Exact real arithmetic; [int] overflow of lambda is not modelled. *)
From Coq Require Import Reals.
From Verif Require Import Base.
Open Scope R_scope.

Definition sumR (l : list R) : R := fold_right Rplus 0 l.

(** CMAParameters / Parameters fields used by the numerical updates
    (cmaparameters.h:289-327, parameters.h:556-599). *)
Record cpar := mkPar {
  k_dim : nat;            (* _dim *)
  k_lambda : nat;         (* _lambda *)
  k_mu : nat;             (* _mu *)
  k_w : list R;           (* _weights *)
  k_muw : R;              (* _muw *)
  k_csigma : R; k_cc : R; k_c1 : R; k_cmu : R; k_dsigma : R;
  k_fact_ps : R; k_fact_pc : R; k_chi : R;
  k_lazy : R;             (* _lazy_value *)
  k_rlambda : R;          (* _rlambda *)
  k_alphathuh : R;        (* _alphathuh *)
  k_sep : bool; k_vd : bool;
  k_algo : Z;             (* _algo *)
  k_tpa : Z;              (* _tpa *)
  k_fixed : list (Z * R)  (* _fixed_p, keys without duplicates *)
}.

(** Parameters constructor, parameters.h:74-83: default population size. *)
Definition default_lambda (dim : nat) : Z := 4 + Int_part (3 * ln (INR dim)).
Definition ctor_lambda (dim : nat) (lambda : Z) : Z :=
  if (lambda =? -1)%Z || (lambda <? 2)%Z then default_lambda dim else lambda.

(** _chi for [n] free dimensions, cmaparameters.cc:108,183,192. *)
Definition chi_of (n : R) : R := sqrt n * (1 - 1 / (4 * n) + 1 / (21 * n * n)).

(** Unnormalised weights, cmaparameters.cc:79-84. *)
Definition raw_weights (mu : nat) : list R :=
  map (fun i => ln (INR mu + 1) - ln (INR i + 1)) (seq 0 mu).

(** Default damping, cmaparameters.cc:102,138,139,174. *)
Definition dsigma_of (csigma muw n : R) : R :=
  1 + csigma + 2 * Rmax 0 (sqrt ((muw - 1) / (n + 1)) - 1).

(** initialize_parameters, cmaparameters.cc:74-118: every field below is
    assigned; dimension, population size, flags, _tpa, _algo and the fixed
    parameters are left alone. *)
Definition initialize (p : cpar) : cpar :=
  let n := INR (k_dim p) in
  let lambda := k_lambda p in
  let mu := Nat.div2 lambda in
  let raw := raw_weights mu in
  let sum_w := sumR raw in
  let sq_w := sumR (map (fun w => w * w) raw) in
  let muw := sum_w * sum_w / sq_w in
  let csigma := if (k_dim p <? 1000)%nat then (muw + 2) / (n + muw + 5)
                else (sqrt muw + 2) / (sqrt n + sqrt muw + 3) in
  let cc := (4 + muw / n) / (n + 4 + 2 * muw / n) in
  let c1 := 2 / ((n + 1.3) * (n + 1.3) + muw) in
  let cmu := Rmin (1 - c1) (2 * (muw - 2 + 1 / muw) / ((n + 2) * (n + 2) + muw)) in
  {| k_dim := k_dim p; k_lambda := lambda; k_mu := mu;
     k_w := map (fun w => w / sum_w) raw; k_muw := muw;
     k_csigma := csigma; k_cc := cc; k_c1 := c1; k_cmu := cmu;
     k_dsigma := dsigma_of csigma muw n;
     k_fact_ps := sqrt (csigma * (2 - csigma) * muw);
     k_fact_pc := sqrt (cc * (2 - cc) * muw);
     k_chi := chi_of n;
     k_lazy := 1 / (c1 + cmu) / n / 10;
     k_rlambda := Rmax 0.1 (2 / INR lambda);
     k_alphathuh := 1 + 2 / (n + 10);
     k_sep := k_sep p; k_vd := k_vd p; k_algo := k_algo p; k_tpa := k_tpa p; k_fixed := k_fixed p |}.

(** Fields before initialisation (in-class initialisers). *)
Definition blank (dim lambda : nat) : cpar :=
  mkPar dim lambda 0 [] 0 0 0 0 0 0 0 0 0 0 0 1 false false 0 1 [].

(** CMAParameters constructors, cmaparameters.cc:29-49, for an already
    resolved population size. *)
Definition cma_params (dim lambda : nat) : cpar := initialize (blank dim lambda).
(** The same from the constructor argument. *)
Definition cma_ctor (dim : nat) (lambda : Z) : cpar :=
  cma_params dim (Z.to_nat (ctor_lambda dim lambda)).

(** set_sep, cmaparameters.cc:152-159. *)
Definition set_sep (p : cpar) : cpar :=
  let n := INR (k_dim p) in
  let muw := k_muw p in
  let c1 := k_c1 p * ((n + 2) / 3) in
  let cmu := Rmin (1 - c1) ((0.3 + muw - 2 + 1 / muw) / (n + 4 * sqrt n + muw / 2)) in
  {| k_dim := k_dim p; k_lambda := k_lambda p; k_mu := k_mu p; k_w := k_w p; k_muw := muw;
     k_csigma := k_csigma p;
     k_cc := (1 + 1 / n + muw / n) / (sqrt n + 1 / n + 2 * muw / n);
     k_c1 := c1; k_cmu := cmu; k_dsigma := k_dsigma p;
     k_fact_ps := k_fact_ps p; k_fact_pc := k_fact_pc p; k_chi := k_chi p;
     k_lazy := 1 / (c1 + cmu) / n / 10;
     k_rlambda := k_rlambda p; k_alphathuh := k_alphathuh p;
     k_sep := true; k_vd := k_vd p; k_algo := k_algo p; k_tpa := k_tpa p; k_fixed := k_fixed p |}.

(** set_noisy, cmaparameters.cc:121-129. *)
Definition set_noisy (p : cpar) : cpar :=
  let q := initialize
    {| k_dim := k_dim p; k_lambda := 5 * k_lambda p; k_mu := k_mu p; k_w := k_w p; k_muw := k_muw p;
       k_csigma := k_csigma p; k_cc := k_cc p; k_c1 := k_c1 p; k_cmu := k_cmu p; k_dsigma := k_dsigma p;
       k_fact_ps := k_fact_ps p; k_fact_pc := k_fact_pc p; k_chi := k_chi p; k_lazy := k_lazy p;
       k_rlambda := k_rlambda p; k_alphathuh := k_alphathuh p;
       k_sep := k_sep p; k_vd := k_vd p; k_algo := k_algo p; k_tpa := k_tpa p; k_fixed := k_fixed p |} in
  let n := INR (k_dim p) in
  let c1 := k_c1 q * 0.2 in
  let cmu := Rmin (1 - c1) (2 * 0.2 * (k_muw q - 2 + 1 / k_muw q) / ((n + 2) * (n + 2) + k_muw q)) in
  {| k_dim := k_dim q; k_lambda := k_lambda q; k_mu := k_mu q; k_w := k_w q; k_muw := k_muw q;
     k_csigma := k_csigma q; k_cc := k_cc q; k_c1 := c1; k_cmu := cmu; k_dsigma := k_dsigma q;
     k_fact_ps := k_fact_ps q; k_fact_pc := k_fact_pc q; k_chi := k_chi q; k_lazy := k_lazy q;
     k_rlambda := k_rlambda q; k_alphathuh := k_alphathuh q;
     k_sep := k_sep q; k_vd := k_vd q; k_algo := k_algo q; k_tpa := k_tpa q; k_fixed := k_fixed q |}.

(** Record updates used by the setters below. *)
Definition with_dsigma (p : cpar) (d : R) : cpar :=
  {| k_dim := k_dim p; k_lambda := k_lambda p; k_mu := k_mu p; k_w := k_w p; k_muw := k_muw p;
     k_csigma := k_csigma p; k_cc := k_cc p; k_c1 := k_c1 p; k_cmu := k_cmu p; k_dsigma := d;
     k_fact_ps := k_fact_ps p; k_fact_pc := k_fact_pc p; k_chi := k_chi p; k_lazy := k_lazy p;
     k_rlambda := k_rlambda p; k_alphathuh := k_alphathuh p;
     k_sep := k_sep p; k_vd := k_vd p; k_algo := k_algo p; k_tpa := k_tpa p; k_fixed := k_fixed p |}.
Definition with_tpa (p : cpar) (b : Z) : cpar :=
  {| k_dim := k_dim p; k_lambda := k_lambda p; k_mu := k_mu p; k_w := k_w p; k_muw := k_muw p;
     k_csigma := k_csigma p; k_cc := k_cc p; k_c1 := k_c1 p; k_cmu := k_cmu p; k_dsigma := k_dsigma p;
     k_fact_ps := k_fact_ps p; k_fact_pc := k_fact_pc p; k_chi := k_chi p; k_lazy := k_lazy p;
     k_rlambda := k_rlambda p; k_alphathuh := k_alphathuh p;
     k_sep := k_sep p; k_vd := k_vd p; k_algo := k_algo p; k_tpa := b; k_fixed := k_fixed p |}.
Definition with_algo (p : cpar) (a : Z) : cpar :=
  {| k_dim := k_dim p; k_lambda := k_lambda p; k_mu := k_mu p; k_w := k_w p; k_muw := k_muw p;
     k_csigma := k_csigma p; k_cc := k_cc p; k_c1 := k_c1 p; k_cmu := k_cmu p; k_dsigma := k_dsigma p;
     k_fact_ps := k_fact_ps p; k_fact_pc := k_fact_pc p; k_chi := k_chi p; k_lazy := k_lazy p;
     k_rlambda := k_rlambda p; k_alphathuh := k_alphathuh p;
     k_sep := k_sep p; k_vd := k_vd p; k_algo := a; k_tpa := k_tpa p; k_fixed := k_fixed p |}.
Definition with_lambda (p : cpar) (l : nat) : cpar :=
  {| k_dim := k_dim p; k_lambda := l; k_mu := k_mu p; k_w := k_w p; k_muw := k_muw p;
     k_csigma := k_csigma p; k_cc := k_cc p; k_c1 := k_c1 p; k_cmu := k_cmu p; k_dsigma := k_dsigma p;
     k_fact_ps := k_fact_ps p; k_fact_pc := k_fact_pc p; k_chi := k_chi p; k_lazy := k_lazy p;
     k_rlambda := k_rlambda p; k_alphathuh := k_alphathuh p;
     k_sep := k_sep p; k_vd := k_vd p; k_algo := k_algo p; k_tpa := k_tpa p; k_fixed := k_fixed p |}.

(** set_tpa, cmaparameters.cc:132-140 (both else branches are the same formula). *)
Definition set_tpa (b : Z) (p : cpar) : cpar :=
  let p := with_tpa p b in
  let n := INR (k_dim p) in
  if (b =? 2)%Z then with_dsigma p (4 - 3.6 / sqrt n)
  else with_dsigma p (dsigma_of (k_csigma p) (k_muw p) n).

(** set_algo, cmaparameters.h:121-134. *)
Definition set_algo (a : Z) (p : cpar) : cpar := with_algo p a.

(** set_vd, cmaparameters.cc:162-176. *)
Definition set_vd (p : cpar) : cpar :=
  if (k_algo p =? 12)%Z || (k_algo p =? 13)%Z || (k_algo p =? 14)%Z then
    let n := INR (k_dim p) in
    let muw := k_muw p in
    let csigma := sqrt muw / (2 * (sqrt n + sqrt muw)) in
    let c1 := k_c1 p * ((n - 5) / 6) in
    let cmu := Rmin (1 - c1) ((n - 5) / 6 * (2 * (muw - 2 + 1 / muw) / ((n + 2) * (n + 2) + muw))) in
    {| k_dim := k_dim p; k_lambda := k_lambda p; k_mu := k_mu p; k_w := k_w p; k_muw := muw;
       k_csigma := csigma; k_cc := k_cc p; k_c1 := c1; k_cmu := cmu;
       k_dsigma := if (k_tpa p =? 0)%Z then dsigma_of csigma muw n else k_dsigma p;
       k_fact_ps := sqrt (csigma * (2 - csigma) * muw); k_fact_pc := k_fact_pc p;
       k_chi := k_chi p; k_lazy := k_lazy p;
       k_rlambda := k_rlambda p; k_alphathuh := k_alphathuh p;
       k_sep := k_sep p; k_vd := true; k_algo := k_algo p; k_tpa := k_tpa p; k_fixed := k_fixed p |}
  else p.

(** std::unordered_map<int,double>: [insert] does nothing when the key is
    present; [erase] of the found element (parameters.h:195-209). *)
Definition map_insert {A} (m : list (Z * A)) (k : Z) (v : A) : list (Z * A) :=
  if existsb (fun e => (fst e =? k)%Z) m then m else (k, v) :: m.
Definition map_erase {A} (m : list (Z * A)) (k : Z) : list (Z * A) :=
  filter (fun e => negb (fst e =? k)%Z) m.
Fixpoint map_find {A} (m : list (Z * A)) (k : Z) : option A :=
  match m with
  | [] => None
  | (k', v) :: m' => if (k' =? k)%Z then Some v else map_find m' k
  end.

Definition with_fixed (p : cpar) (m : list (Z * R)) : cpar :=
  let ndim := INR (k_dim p) - INR (length m) in
  {| k_dim := k_dim p; k_lambda := k_lambda p; k_mu := k_mu p; k_w := k_w p; k_muw := k_muw p;
     k_csigma := k_csigma p; k_cc := k_cc p; k_c1 := k_c1 p; k_cmu := k_cmu p; k_dsigma := k_dsigma p;
     k_fact_ps := k_fact_ps p; k_fact_pc := k_fact_pc p;
     k_chi := chi_of ndim; k_lazy := 1 / (k_c1 p + k_cmu p) / ndim / 10;
     k_rlambda := k_rlambda p; k_alphathuh := k_alphathuh p;
     k_sep := k_sep p; k_vd := k_vd p; k_algo := k_algo p; k_tpa := k_tpa p; k_fixed := m |}.

(** set_fixed_p / unset_fixed_p, cmaparameters.cc:179-194 (with parameters.h:195-209). *)
Definition set_fixed_p (i : Z) (v : R) (p : cpar) : cpar := with_fixed p (map_insert (k_fixed p) i v).
Definition unset_fixed_p (i : Z) (p : cpar) : cpar := with_fixed p (map_erase (k_fixed p) i).

(** IPOPCMAStrategy::lambda_inc, ipopcmastrategy.cc:88-93. *)
Definition lambda_inc (p : cpar) : cpar := initialize (with_lambda p (2 * k_lambda p)).
