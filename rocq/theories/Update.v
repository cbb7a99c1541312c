(** Model of the numeric part of the strategy: initial distribution, sampling,
    updates of mean, evolution paths, covariance and step size, two-point
    adaptation, gradient point, numeric stopping criteria.
    src/cmasolutions.cc, src/cmastrategy.cc, src/covarianceupdate.cc,
    src/acovarianceupdate.cc, src/vdcmaupdate.cc, src/esostrategy.cc,
    src/cmastopcriteria.cc, include/libcmaes/eigenmvn.h.

    Exact real arithmetic: no rounding, no overflow.  Division by zero and the
    square root of a negative number, NaN or infinite in the code, are the total
    functions of the standard library here unless a definition says otherwise.
    The eigensolver and the two random streams are parameters. *)
From Coq Require Import Reals List.
From Verif Require Import Base Dbl Vec Params Search.
Import ListNotations.
Open Scope R_scope.

(** Template argument TCovarianceUpdate. *)
Inductive flavour := Full | Active | Vd.

Record npar := mkNpar {
  p_k : cpar;                      (* the strategy parameters of Params.v *)
  p_upd : flavour;
  p_sigma0 : R;                    (* _sigma_init *)
  p_lazy : bool;                   (* _lazy_update *)
  p_xtol : R;                      (* _xtol *)
  p_tpac : R;                      (* _tpa_csigma *)
  p_epsuh : R;                     (* _epsuh *)
  p_eig : list (list R) -> vec * mat;  (* SelfAdjointEigenSolver: eigenvalues, eigenvectors in columns *)
  p_normal : nat -> R;             (* stream of standard normal draws *)
  p_unif : nat -> R;               (* stream of _uhunif(_uhgen) *)
  p_scale : list R -> list R;      (* scaling of the initial mean *)
  p_pheno : list R -> list R;      (* _gp.pheno *)
  p_ub : nat -> option R;          (* getUBound, None: DBL_MAX *)
  p_ugrad : list R -> list R       (* user gradient _gfunc *)
}.

(** Numeric members of CMASolutions (cmasolutions.h:487-545) and the sampler. *)
Record num := mkNu {
  x_mean : vec;        (* _xmean *)
  x_prev : vec;        (* _xmean_prev *)
  x_sigma : R;         (* _sigma *)
  x_cov : mat;         (* _cov *)
  x_sep : vec;         (* _sepcov *)
  x_v : vec;           (* _v *)
  x_csqinv : mat;      (* _csqinv *)
  x_psigma : vec;      (* _psigma *)
  x_pc : vec;          (* _pc *)
  x_tpas : R;          (* _tpa_s *)
  x_fresh : bool;      (* _updated_eigen *)
  x_eigiter : Z;       (* _eigeniter *)
  x_smean : vec;       (* _esolver._mean *)
  x_dec : vec * mat;   (* _esolver._eigenSolver *)
  x_leig : vec;        (* _leigenvalues *)
  x_lvec : mat;        (* _leigenvectors *)
  x_maxev : R;         (* _max_eigenv *)
  x_minev : R;         (* _min_eigenv *)
  x_edm : R;           (* _edm *)
  x_pos : nat;         (* normal draws made *)
  x_upos : nat;        (* uniform draws made *)
  x_csz : nat;         (* rows of _csqinv *)
  x_psz : nat          (* rows of _psigma, _pc and (not sep, not vd) _cov *)
}.

Section Update.
Variable p : npar.
Let k := p_k p.
Let d := k_dim k.

(** * CMASolutions constructor, cmasolutions.cc:31-84 *)
(** Initial mean (lines 47-67) from a given x0 (x0min = x0max): fixed values are
    written first, then the scaling is applied; the bound transform is not. *)
Fixpoint put_fixed (fx : list (Z * R)) (x : vec) : vec :=
  match fx with
  | [] => x
  | (i, v) :: fx' => put_fixed fx' (fun j => if (Z.of_nat j =? i)%Z then v else x j)
  end.
Definition init_mean (x0 : list R) : vec := at0 (p_scale p (tab d (put_fixed (k_fixed k) (at0 x0)))).
(** Lines 68-70. *)
Definition init_sigma : R := if Rlt_dec 0 (p_sigma0 p) then p_sigma0 p else 1 / INR d.
(** [_v] (lines 78-83): one sample divided by sqrt(dim), only for vd.  The new
    solver reseeds the generator it shares with the strategy's, which is not
    modelled here.  _xmean_prev is empty until the first update sets it, before
    ask first reads it: any value will do. *)
Definition init_v (pos : nat) : vec := fun i => p_normal p (pos + i)%nat / sqrt (INR d).
Definition new_num (x0 : list R) (n : num) : num :=
  {| x_mean := init_mean x0; x_prev := init_mean x0; x_sigma := init_sigma;
     x_cov := ident; x_sep := fun _ => 1;
     x_v := if k_vd k then init_v (x_pos n) else fun _ => 0;
     x_csqinv := fun _ _ => 0; x_psigma := fun _ => 0; x_pc := fun _ => 0; x_tpas := 0;
     x_fresh := true; x_eigiter := 0; x_smean := x_smean n; x_dec := x_dec n;
     x_leig := fun _ => 0; x_lvec := fun _ _ => 0; x_maxev := 0; x_minev := 0; x_edm := 0;
     x_pos := if k_vd k then (x_pos n + d)%nat else x_pos n; x_upos := x_upos n; x_csz := 0; x_psz := d |}.
(** CMASolutions::reset, cmasolutions.cc:205-227.  The new _cov, _psigma and _pc
    have as many rows as _csqinv, which is empty before the first update and
    for sep and vd: [x_psz].  The members are functions here, so that a size
    other than the dimension shows in [x_psz] only; the code's later operations
    on vectors of different sizes are undefined. *)
Definition reset_num (n : num) : num :=
  {| x_mean := x_mean n; x_prev := x_prev n; x_sigma := x_sigma n;
     x_cov := ident; x_sep := x_sep n; x_v := x_v n;
     x_csqinv := x_csqinv n; x_psigma := fun _ => 0; x_pc := fun _ => 0; x_tpas := x_tpas n;
     x_fresh := x_fresh n; x_eigiter := x_eigiter n; x_smean := x_smean n; x_dec := x_dec n;
     x_leig := x_leig n; x_lvec := x_lvec n; x_maxev := x_maxev n; x_minev := x_minev n; x_edm := x_edm n;
     x_pos := x_pos n; x_upos := x_upos n; x_csz := x_csz n; x_psz := x_csz n |}.

(** * ask, cmastrategy.cc:147-206: decomposition and sampling *)
Definition with_solver (n : num) (fresh : bool) (it : Z) (m : vec) (dec : vec * mat) : num :=
  {| x_mean := x_mean n; x_prev := x_prev n; x_sigma := x_sigma n; x_cov := x_cov n; x_sep := x_sep n; x_v := x_v n;
     x_csqinv := x_csqinv n; x_psigma := x_psigma n; x_pc := x_pc n; x_tpas := x_tpas n;
     x_fresh := fresh; x_eigiter := it; x_smean := m; x_dec := dec;
     x_leig := x_leig n; x_lvec := x_lvec n; x_maxev := x_maxev n; x_minev := x_minev n; x_edm := x_edm n;
     x_pos := x_pos n; x_upos := x_upos n; x_csz := x_csz n; x_psz := x_psz n |}.
(** Lines 153-177. *)
Definition eigen_num (niter : Z) (n : num) : num :=
  if k_sep k || k_vd k then with_solver n (x_fresh n) (x_eigiter n) (x_mean n) (x_dec n)
  else if (niter =? 0)%Z || negb (p_lazy p) ||
          (if Rlt_dec (k_lazy k) (IZR (niter - x_eigiter n)) then true else false)
  then with_solver n true niter (x_mean n) (p_eig p (mtab d (x_cov n)))
  else with_solver n false (x_eigiter n) (x_smean n) (x_dec n).
Definition with_pos (n : num) (a b : nat) : num :=
  {| x_mean := x_mean n; x_prev := x_prev n; x_sigma := x_sigma n; x_cov := x_cov n; x_sep := x_sep n; x_v := x_v n;
     x_csqinv := x_csqinv n; x_psigma := x_psigma n; x_pc := x_pc n; x_tpas := x_tpas n;
     x_fresh := x_fresh n; x_eigiter := x_eigiter n; x_smean := x_smean n; x_dec := x_dec n;
     x_leig := x_leig n; x_lvec := x_lvec n; x_maxev := x_maxev n; x_minev := x_minev n; x_edm := x_edm n;
     x_pos := a; x_upos := b; x_csz := x_csz n; x_psz := x_psz n |}.
(** _transform, eigenmvn.h:138. *)
Definition transform (dec : vec * mat) : mat := fun i j => snd dec i j * sqrt (Rmax (fst dec j) 0).
(** Column made of the [d] draws [z]: samples (eigenmvn.h:144-147), samples_ind
    (149-157) and the vd case (cmastrategy.cc:193-205). *)
Definition sample_col (n : num) (z : vec) : vec :=
  if k_sep k then fun i => z i * x_sigma n * sqrt (x_sep n i) + x_smean n i
  else if k_vd k then
    let normv := dot d (x_v n) (x_v n) in
    let fact := sqrt (1 + normv) - 1 in
    let vbar := fun i => x_v n i / sqrt normv in
    let y := fun i => z i + fact * vbar i * dot d vbar z in
    fun i => x_mean n i + x_sigma n * (x_sep n i * y i)
  else fun i => mv d (transform (x_dec n)) z i * x_sigma n + x_smean n i.
Definition sample_num (count : nat) (n : num) : list (list R) * num :=
  (map (fun c => tab d (sample_col n (fun i => p_normal p (x_pos n + c * d + i)%nat))) (seq 0 count),
   with_pos n (x_pos n + count * d)%nat (x_upos n)).

(** Two-point adaptation points, cmastrategy.cc:228-249. *)
Definition shift_norm (n : num) : R :=
  let ms := fun i => x_mean n i - x_prev n i in
  if k_sep k || k_vd k then norm d (fun i => ms i / sqrt (x_sep n i)) / x_sigma n
  else norm d (fun i => mv d (mt (snd (x_dec n))) ms i / sqrt (fst (x_dec n) i)) / x_sigma n.
Definition tpa_points (n : num) : list R * list R * num :=
  let z := fun i => norm d (fun j => p_normal p (x_pos n + j)%nat) * ((x_mean n i - x_prev n i) / shift_norm n) in
  (tab d (fun i => x_mean n i + z i), tab d (fun i => x_mean n i - z i), with_pos n (x_pos n + d)%nat (x_upos n)).

(** * Uncertainty handling draws, esostrategy.cc:336-358 *)
Definition coin_num (n : num) : bool * num :=
  let rl := k_rlambda k * INR (k_lambda k) in
  (if Rlt_dec (p_unif p (x_upos n)) (rl - IZR (Int_part rl)) then true else false, with_pos n (x_pos n) (S (x_upos n))).
Definition mutate_num (cols : list (list R)) (n : num) : list (list R) * num :=
  (map (fun c => tab d (fun i => at0 (nth c cols []) i + p_epsuh p * x_sigma n * p_normal p (x_pos n + c * d + i)%nat))
       (seq 0 (length cols)),
   with_pos n (x_pos n + length cols * d)%nat (x_upos n)).

(** * Gradients, esostrategy.cc:166-209, cmastrategy.cc:208-226 *)
Definition dblR (v : dbl) : R := match v with Fin z => IZR z / 2 ^ 1074 | _ => 0 end.
Definition eps_at (x : vec) (i : nat) : R := / 100000000 * (1 + Rabs (x i)).
(** Lines 175-178. *)
Definition grad_point (i : nat) (x : list R) : list R :=
  tab d (fun j => if Nat.eqb j i then
                    let y := at0 x j + eps_at (at0 x) j in
                    match p_ub p j with Some u => Rmin y u | None => y end
                  else at0 x j).
(** gradf at the phenotype [x] of the mean: the user's, or from the values of
    the objective at [x] and at the points above (lines 179-180). *)
Definition grad_vec (x : list R) (vals : option (list dbl)) : vec :=
  match vals with
  | None => at0 (p_ugrad p x)
  | Some vs => fun i => (dblR (nth (S i) vs NaN) - dblR (nth 0 vs NaN)) / eps_at (at0 x) i
  end.
(** gradgp, lines 187-191. *)
Definition grad_gp (x : vec) : vec := fun i =>
  (at0 (p_pheno p (tab d (fun j => x j + eps_at x j))) i - at0 (p_pheno p (tab d (fun j => x j - eps_at x j))) i) / (2 * eps_at x i).
Definition grad_mean (vals : option (list dbl)) (n : num) : vec :=
  fun i => grad_vec (p_pheno p (tab d (x_mean n))) vals i * grad_gp (x_mean n) i.
(** operatorSqrt, and the injected point (cmastrategy.cc:215-223). *)
Definition op_sqrt (dec : vec * mat) : mat := fun i j => rsum d (fun l => snd dec i l * sqrt (fst dec l) * snd dec j l).
Definition grad_col (vals : option (list dbl)) (n : num) : option (list R) :=
  let gm := grad_mean vals n in
  if forallb (fun i => if Req_EM_T (gm i) 0 then true else false) (seq 0 d) then None
  else Some (tab d (
    if k_sep k || k_vd k then
      let q := norm d (fun i => sqrt (x_sep n i) * gm i) in
      fun i => x_mean n i - x_sigma n * (sqrt (INR d) / q) * (x_sep n i * gm i)
    else
      let q := mv d (op_sqrt (x_dec n)) gm in
      fun i => x_mean n i - x_sigma n * sqrt (INR d / dot d q q) * mv d (x_cov n) gm i)).
(** edm, lines 194-209.  For vd the code takes the first branch with a
    _leigenvectors of one column, which Eigen rejects. *)
Definition with_edm (n : num) (v : R) : num :=
  {| x_mean := x_mean n; x_prev := x_prev n; x_sigma := x_sigma n; x_cov := x_cov n; x_sep := x_sep n; x_v := x_v n;
     x_csqinv := x_csqinv n; x_psigma := x_psigma n; x_pc := x_pc n; x_tpas := x_tpas n;
     x_fresh := x_fresh n; x_eigiter := x_eigiter n; x_smean := x_smean n; x_dec := x_dec n;
     x_leig := x_leig n; x_lvec := x_lvec n; x_maxev := x_maxev n; x_minev := x_minev n; x_edm := v;
     x_pos := x_pos n; x_upos := x_upos n; x_csz := x_csz n; x_psz := x_psz n |}.
Definition edm_num (vals : option (list dbl)) (n : num) : num :=
  let gm := grad_mean vals n in
  let gmn := if k_sep k then fun i => sqrt (x_sep n i) * gm i
             else mv d (fun i j => x_lvec n i j * sqrt (x_leig n j)) gm in
  with_edm n (INR d / (10 * (sqrt (INR (k_lambda k) / 4 + 0.5) - 1)) * (x_sigma n * norm d gmn)).

(** * tpa_update, esostrategy.cc:403-404 *)
Definition with_tpas (n : num) (v : R) : num :=
  {| x_mean := x_mean n; x_prev := x_prev n; x_sigma := x_sigma n; x_cov := x_cov n; x_sep := x_sep n; x_v := x_v n;
     x_csqinv := x_csqinv n; x_psigma := x_psigma n; x_pc := x_pc n; x_tpas := v;
     x_fresh := x_fresh n; x_eigiter := x_eigiter n; x_smean := x_smean n; x_dec := x_dec n;
     x_leig := x_leig n; x_lvec := x_lvec n; x_maxev := x_maxev n; x_minev := x_minev n; x_edm := x_edm n;
     x_pos := x_pos n; x_upos := x_upos n; x_csz := x_csz n; x_psz := x_psz n |}.
Definition tpa_num (rank_diff : Z) (n : num) : num :=
  with_tpas n ((1 - p_tpac p) * x_tpas n + p_tpac p * IZR rank_diff / (INR (k_lambda k) - 1)).

(** * The updates *)
(** Point [i] of the ranking, weight [i]. *)
Definition pt (xs : list (list R)) (i : nat) : vec := at0 (nth i xs []).
Definition wgt (i : nat) : R := nth i (k_w k) 0.
(** New mean, covarianceupdate.cc:34-36, acovarianceupdate.cc:34-38 (_cm = 1,
    cmaparameters.cc:35), vdcmaupdate.cc:43-45. *)
Definition cm : R := 1.
Definition new_mean (xs : list (list R)) (n : num) : vec :=
  match p_upd p with
  | Active => fun c => rsum (k_mu k) (fun i => wgt i * (pt xs i c - x_mean n c)) * cm + x_mean n c
  | _ => fun c => rsum (k_mu k) (fun i => wgt i * pt xs i c)
  end.
(** diffxmean, covarianceupdate.cc:39, acovarianceupdate.cc:41, vdcmaupdate.cc:48. *)
Definition mean_step (xs : list (list R)) (n : num) : vec := fun c =>
  match p_upd p with
  | Active => 1 / (x_sigma n * cm) * (new_mean xs n c - x_mean n c)
  | _ => 1 / x_sigma n * (new_mean xs n c - x_mean n c)
  end.
(** operatorInverseSqrt; covarianceupdate.cc:40-43. *)
Definition op_inv_sqrt (dec : vec * mat) : mat := fun i j => rsum d (fun l => snd dec i l * sqrt (1 / fst dec l) * snd dec j l).
Definition new_csqinv (n : num) : mat :=
  if x_fresh n && negb (k_sep k) then op_inv_sqrt (x_dec n) else x_csqinv n.
(** psigma, covarianceupdate.cc:46-51, vdcmaupdate.cc:52-53. *)
Definition new_psigma (xs : list (list R)) (n : num) : vec := fun c =>
  (1 - k_csigma k) * x_psigma n c + k_fact_ps k *
  match p_upd p with
  | Vd => 1 / sqrt (1 + x_v n c * x_v n c) * (1 / x_sep n c) * mean_step xs n c
  | _ => if k_sep k then sqrt (1 / x_sep n c) * mean_step xs n c
         else mv d (new_csqinv n) (mean_step xs n) c
  end.
(** hsig, covarianceupdate.cc:54-57. *)
Definition hsig (niter : Z) (xs : list (list R)) (n : num) : R :=
  let bound := sqrt (1 - (1 - k_csigma k) ^ (2 * Z.to_nat (niter + 1))) *
               (1.4 + 2 / (INR d + 1 - INR (length (k_fixed k)))) * k_chi k in
  if Rlt_dec (norm d (new_psigma xs n)) bound then 1 else 0.
(** pc, covarianceupdate.cc:58. *)
Definition new_pc (niter : Z) (xs : list (list R)) (n : num) : vec := fun c =>
  (1 - k_cc k) * x_pc n c + hsig niter xs n * k_fact_pc k * mean_step xs n c.
(** Weighted sum of (x-m)(x-m)^T / sigma^2 over the [mu] points [q i]. *)
Definition spread (q : nat -> vec) (n : num) : mat := fun i j =>
  1 / (x_sigma n * x_sigma n) * rsum (k_mu k) (fun l => wgt l * ((q l i - x_mean n i) * (q l j - x_mean n j))).
(** The mu best, and the mu worst (acovarianceupdate.cc:82-91). *)
Definition best_of (xs : list (list R)) : nat -> vec := pt xs.
Definition worst_of (xs : list (list R)) (i : nat) : vec := pt xs (k_lambda k - i - 1).

(** Factor of the old covariance, covarianceupdate.cc:77-81. *)
Definition keep_rate (niter : Z) (xs : list (list R)) (n : num) : R :=
  1 - k_c1 k - k_cmu k + (1 - hsig niter xs n) * k_c1 k * k_cc k * (2 - k_cc k).
Definition rank_mu_cov (niter : Z) (xs : list (list R)) (n : num) : mat := fun i j =>
  keep_rate niter xs n * x_cov n i j + k_c1 k * (new_pc niter xs n i * new_pc niter xs n j) + k_cmu k * spread (best_of xs) n i j.
Definition rank_mu_sep (niter : Z) (xs : list (list R)) (n : num) : vec := fun i =>
  keep_rate niter xs n * x_sep n i + k_c1 k * (new_pc niter xs n i * new_pc niter xs n i) + k_cmu k * spread (best_of xs) n i i.

(** Active update, acovarianceupdate.cc:94-111; _alphacov = 2, _alphaminusold =
    0.5, _lambdamintarget = 0.66, _alphaminusmin = 1 (cmaparameters.cc:35).  A
    zero divisor gives an infinite first argument of std::min. *)
Definition cminus_denom (xs : list (list R)) (n : num) : R :=
  if k_sep k then vmax d (fun i => sqrt (1 / x_sep n i) * (spread (worst_of xs) n i i * sqrt (1 / x_sep n i)))
  else vmax d (fst (p_eig p (mtab d (mm d (mm d (new_csqinv n) (spread (worst_of xs) n)) (new_csqinv n))))).
Definition cminus (xs : list (list R)) (n : num) : R :=
  let b := (1 - k_cmu k) * 2 / 8 * (k_muw k / (Rpower (INR d + 2) 1.5 + 2 * k_muw k)) in
  let t := cminus_denom xs n in
  if Req_EM_T t 0 then b else Rmin (1 * (1 - k_cmu k) * (1 - 0.66) / t) b.
Definition active_cov (niter : Z) (xs : list (list R)) (n : num) : mat := fun i j =>
  (1 - k_c1 k - k_cmu k + cminus xs n * 0.5) * x_cov n i j + k_c1 k * (new_pc niter xs n i * new_pc niter xs n j)
  + (k_cmu k + cminus xs n * (1 - 0.5)) * spread (best_of xs) n i j - cminus xs n * spread (worst_of xs) n i j.
Definition active_sep (niter : Z) (xs : list (list R)) (n : num) : vec := fun i =>
  (1 - k_c1 k - k_cmu k + cminus xs n * 0.5) * x_sep n i + k_c1 k * (new_pc niter xs n i * new_pc niter xs n i)
  + (k_cmu k + cminus xs n * (1 - 0.5)) * spread (best_of xs) n i i - cminus xs n * spread (worst_of xs) n i i.

(** sigma, covarianceupdate.cc:84-88; the active update limits the factor by
    _deltamaxsigma = DBL_MAX (cmaparameters.cc:113). *)
Definition dbl_max_R : R := IZR (2 ^ 53 - 1) * 2 ^ 971.
Definition new_sigma (niter : Z) (xs : list (list R)) (n : num) : R :=
  if (k_tpa k <? 2)%Z then
    let f := exp (k_csigma k / k_dsigma k * (norm d (new_psigma xs n) / k_chi k - 1)) in
    x_sigma n * match p_upd p with Active => Rmin dbl_max_R f | _ => f end
  else if (0 <? niter)%Z then x_sigma n * exp (x_tpas n / k_dsigma k)
  else x_sigma n.

(** vdcmaupdate.cc:66-114: natural gradient of v and D. *)
Section VdUpdate.
Variables (niter : Z) (xs : list (list R)) (n : num).
Let v := x_v n.
Let dd := x_sep n.
Let normv := dot d v v.
Let vbar : vec := fun i => v i / sqrt normv.
Let vbb : vec := fun i => vbar i * vbar i.
Let gammav := 1 + normv.
Definition vd_alpha : R :=
  Rmin 1 (sqrt (normv * normv + (2 - 1 / sqrt gammav) * gammav / vmax d vbb) / (2 + normv)).
Let al := vd_alpha.
Definition vd_b : R := - (1 - al * al) * normv * normv / gammav + 2 * al * al.
Let b := vd_b.
Definition vd_ainv : vec := fun i => 1 / (2 - (b + 2 * al * al) * vbb i).
Let ainv := vd_ainv.
Let abb : vec := fun i => ainv i * vbb i.
(** p and q of one column [y] (lines 84-92). *)
Definition vd_p (y : vec) : vec := fun i => y i * y i - normv / gammav * (vbar i * dot d vbar y * y i) - 1.
Definition vd_q (y : vec) : vec := fun i => y i * dot d vbar y - 1 / 2 * vbar i * (dot d vbar y * dot d vbar y + gammav).
Definition vd_y (l : nat) : vec := fun i => 1 / dd i * (pt xs l i - x_mean n i) / x_sigma n.
Definition vd_ym : vec := fun i => 1 / dd i * new_pc niter xs n i.
Definition vd_mix (f : vec -> vec) : vec := fun i =>
  k_cmu k * rsum (k_mu k) (fun l => wgt l * f (vd_y l) i) + hsig niter xs n * (k_c1 k * f vd_ym i).
Definition vd_pvec : vec := vd_mix vd_p.
Definition vd_qvec : vec := vd_mix vd_q.
Definition vd_r : vec := fun i =>
  vd_pvec i - al / gammav * ((2 + normv) * (vbar i * vd_qvec i) - normv * dot d vbar vd_qvec * vbb i).
Definition vd_s : vec := fun i =>
  vd_r i * ainv i - b * dot d abb vd_r / (1 + b * dot d abb vbb) * abb i.
Definition vd_ngv : vec := fun i =>
  (vd_qvec i - al * ((2 + normv) * (vbar i * vd_s i) - dot d vd_s vbb * vbar i)) / sqrt normv.
Definition vd_test : bool := if Rlt_dec 0 (k_cmu k + k_c1 k * hsig niter xs n) then true else false.
Definition new_v : vec := if vd_test then fun i => v i + vd_ngv i else v.
Definition new_vd_sep : vec := if vd_test then fun i => dd i + dd i * vd_s i else dd.
End VdUpdate.

(** The three update functions and update_eigenv (cmastrategy.cc:297-302,
    cmasolutions.cc:196-203). *)
Definition update_num (niter : Z) (xs : list (list R)) (n : num) : num :=
  let sep := match p_upd p with
             | Full => if k_sep k then rank_mu_sep niter xs n else x_sep n
             | Active => if k_sep k then active_sep niter xs n else x_sep n
             | Vd => new_vd_sep niter xs n
             end in
  let ev := if k_sep k || k_vd k then sep else fst (x_dec n) in
  {| x_mean := new_mean xs n;
     x_prev := match p_upd p with
               | Active => x_mean n
               | _ => if (k_tpa k =? 0)%Z then x_prev n else x_mean n
               end;
     x_sigma := new_sigma niter xs n;
     x_cov := match p_upd p with
              | Full => if k_sep k then x_cov n else rank_mu_cov niter xs n
              | Active => if k_sep k then x_cov n else active_cov niter xs n
              | Vd => x_cov n
              end;
     x_sep := sep;
     x_v := match p_upd p with Vd => new_v niter xs n | _ => x_v n end;
     x_csqinv := match p_upd p with Vd => x_csqinv n | _ => new_csqinv n end;
     x_psigma := new_psigma xs n;
     x_pc := new_pc niter xs n;
     x_tpas := x_tpas n; x_fresh := x_fresh n; x_eigiter := x_eigiter n; x_smean := x_smean n; x_dec := x_dec n;
     x_leig := ev; x_lvec := if k_sep k || k_vd k then fun _ _ => 1 else snd (x_dec n);
     x_maxev := vmax d ev; x_minev := vmin d ev; x_edm := x_edm n; x_pos := x_pos n; x_upos := x_upos n; x_csz := match p_upd p with Vd => x_csz n | _ => if x_fresh n && negb (k_sep k) then d else x_csz n end; x_psz := x_psz n |}.
(** cmastrategy.cc:292-294. *)
Definition uh_scale_num (n : num) : num :=
  {| x_mean := x_mean n; x_prev := x_prev n; x_sigma := x_sigma n * k_alphathuh k; x_cov := x_cov n; x_sep := x_sep n; x_v := x_v n;
     x_csqinv := x_csqinv n; x_psigma := x_psigma n; x_pc := x_pc n; x_tpas := x_tpas n;
     x_fresh := x_fresh n; x_eigiter := x_eigiter n; x_smean := x_smean n; x_dec := x_dec n;
     x_leig := x_leig n; x_lvec := x_lvec n; x_maxev := x_maxev n; x_minev := x_minev n; x_edm := x_edm n;
     x_pos := x_pos n; x_upos := x_upos n; x_csz := x_csz n; x_psz := x_psz n |}.

(** * Numeric criteria, cmastopcriteria.cc *)
Definition variance (n : num) (i : nat) : R := if k_sep k || k_vd k then x_sep n i else x_cov n i i.
Definition all_below (f : nat -> bool) : bool := forallb f (seq 0 d).
(** tolX, 165-183. *)
Definition tol_x (n : num) : bool :=
  let tf := Rmax (p_xtol p) (/ 1000000000000) * (x_sigma n / init_sigma) in
  all_below (fun i => if Rle_dec tf (x_pc n i) then false else true) &&
  all_below (fun i => if Rle_dec tf (sqrt (variance n i)) then false else true).
(** tolUpSigma, 184-196. *)
Definition tol_up_sigma (n : num) : bool :=
  if Rlt_dec (10 ^ 20 * sqrt (x_maxev n)) (x_sigma n / init_sigma) then true else false.
(** conditionCov, 214-226; a zero divisor gives +inf for a positive dividend. *)
Definition condition_cov (n : num) : bool :=
  if Req_EM_T (x_minev n) 0 then (if Rlt_dec 0 (x_maxev n) then true else false)
  else if Rlt_dec (10 ^ 14) (x_maxev n / x_minev n) then true else false.
(** noEffectAxis, 227-241. *)
Definition no_effect_axis (n : num) : bool :=
  all_below (fun i => let ei := 0.1 * x_sigma n * sqrt (x_leig n i) in
    all_below (fun j =>
      if Req_EM_T (x_mean n i) (x_mean n i + (if k_sep k || k_vd k then ei else ei * x_lvec n i j)) then true else false)).
(** noEffectCoor, 242-253. *)
Definition no_effect_coor (n : num) : bool :=
  all_below (fun i => if Req_EM_T (x_mean n i) (x_mean n i + 0.2 * x_sigma n * sqrt (variance n i)) then true else false).
Definition crit_num (c : Z) (n : num) : bool :=
  (if c =? 2 then tol_x n else if c =? -13 then tol_up_sigma n else if c =? -15 then condition_cov n
   else if c =? 3 then no_effect_axis n else if c =? 4 then no_effect_coor n else false)%Z.

(** The numeric operations of the search model. *)
Definition cma_num : numops R num :=
  mkNum (fun n => tab d (x_mean n)) new_num reset_num eigen_num sample_num grad_point grad_col tpa_points coin_num mutate_num
        tpa_num update_num uh_scale_num edm_num crit_num.
End Update.
