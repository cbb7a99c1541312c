(** Model of the search state and of the ask / eval / tell / stop / optimize
    operations: include/libcmaes/candidate.h, cmasolutions.h, esostrategy.h,
    src/cmasolutions.cc, src/esostrategy.cc, src/cmastrategy.cc.

    The model is generic in the scalar type [T] of points and in the type [N] of
    the numeric part of the state (mean, covariance, step size, paths, random
    generator), whose operations are the record [numops]; Update.v gives the
    modelled numeric updates over the reals.  Objective values are [dbl].
    Counters are unbounded integers (int overflow is not modelled); logging,
    timing and plotting are left out. *)
From Verif Require Import Base Dbl Config.
Local Open Scope Z_scope.

Section Search.
Context {T N : Type}.

(** Candidate, candidate.h:33-140. *)
Record cand := mkCand {
  c_f : dbl;  (* _fvalue *)
  c_x : list T;  (* _x *)
  c_id : Z;  (* _id *)
  c_r : Z  (* _r *)
}.
Definition set_c_f (v : dbl) (r : cand) : cand :=
  mkCand v (c_x r) (c_id r) (c_r r).
Definition set_c_x (v : list T) (r : cand) : cand :=
  mkCand (c_f r) v (c_id r) (c_r r).
Definition set_c_id (v : Z) (r : cand) : cand :=
  mkCand (c_f r) (c_x r) v (c_r r).
Definition set_c_r (v : Z) (r : cand) : cand :=
  mkCand (c_f r) (c_x r) (c_id r) v.
(** Candidate(), candidate.h:41-42 (in-class initialisers 137-139). *)
Definition cand0 : cand := mkCand NaN [] (-1) (-1).
(** Candidate(fvalue,x), candidate.h:49-52. *)
Definition cand_of (f : dbl) (x : list T) : cand := mkCand f x (-1) (-1).

(** RankedCandidate, candidate.h:142-158; [_delta] is integer valued. *)
Record rcand := mkR {
  r_f : dbl;  (* _fvalue of the base class *)
  r_idx : nat;  (* _idx *)
  r_mut : dbl;  (* _fvalue_mut *)
  r_r1 : Z;  (* _r1 *)
  r_r2 : Z;  (* _r2 *)
  r_delta : Z  (* _delta *)
}.
Definition set_r_f (v : dbl) (r : rcand) : rcand :=
  mkR v (r_idx r) (r_mut r) (r_r1 r) (r_r2 r) (r_delta r).
Definition set_r_idx (v : nat) (r : rcand) : rcand :=
  mkR (r_f r) v (r_mut r) (r_r1 r) (r_r2 r) (r_delta r).
Definition set_r_mut (v : dbl) (r : rcand) : rcand :=
  mkR (r_f r) (r_idx r) v (r_r1 r) (r_r2 r) (r_delta r).
Definition set_r_r1 (v : Z) (r : rcand) : rcand :=
  mkR (r_f r) (r_idx r) (r_mut r) v (r_r2 r) (r_delta r).
Definition set_r_r2 (v : Z) (r : rcand) : rcand :=
  mkR (r_f r) (r_idx r) (r_mut r) (r_r1 r) v (r_delta r).
Definition set_r_delta (v : Z) (r : rcand) : rcand :=
  mkR (r_f r) (r_idx r) (r_mut r) (r_r1 r) (r_r2 r) v.

(** Parameters read by the search loop (parameters.h:556-599, cmaparameters.h:289-328). *)
Record cfg := mkCfg {
  g_dim : nat;  (* _dim *)
  g_lambda : nat;  (* _lambda *)
  g_max_iter : Z;  (* _max_iter *)
  g_max_fevals : Z;  (* _max_fevals *)
  g_ftarget : dbl;  (* _ftarget *)
  g_ftol : dbl;  (* _ftolerance *)
  g_max_hist : Z;  (* _max_hist *)
  g_elit : elit;  (* _elitist, _initial_elitist, _initial_elitist_on_restart *)
  g_init_fvalue : bool;  (* _initial_fvalue *)
  g_uh : bool;  (* _uh *)
  g_reev : nat;  (* floor(_rlambda * _lambda) *)
  g_gradient : bool;  (* _with_gradient *)
  g_edm : bool;  (* _with_edm *)
  g_vd : bool;  (* _vd *)
  g_tpa : Z;  (* _tpa *)
  g_fixed : list (Z * T);  (* _fixed_p *)
  g_flags : list (Z * bool)  (* _active flags of the stopping criteria *)
}.
Definition set_g_dim (v : nat) (r : cfg) : cfg :=
  mkCfg v (g_lambda r) (g_max_iter r) (g_max_fevals r) (g_ftarget r) (g_ftol r) (g_max_hist r) (g_elit r) (g_init_fvalue r) (g_uh r) (g_reev r) (g_gradient r) (g_edm r) (g_vd r) (g_tpa r) (g_fixed r) (g_flags r).
Definition set_g_lambda (v : nat) (r : cfg) : cfg :=
  mkCfg (g_dim r) v (g_max_iter r) (g_max_fevals r) (g_ftarget r) (g_ftol r) (g_max_hist r) (g_elit r) (g_init_fvalue r) (g_uh r) (g_reev r) (g_gradient r) (g_edm r) (g_vd r) (g_tpa r) (g_fixed r) (g_flags r).
Definition set_g_max_iter (v : Z) (r : cfg) : cfg :=
  mkCfg (g_dim r) (g_lambda r) v (g_max_fevals r) (g_ftarget r) (g_ftol r) (g_max_hist r) (g_elit r) (g_init_fvalue r) (g_uh r) (g_reev r) (g_gradient r) (g_edm r) (g_vd r) (g_tpa r) (g_fixed r) (g_flags r).
Definition set_g_max_fevals (v : Z) (r : cfg) : cfg :=
  mkCfg (g_dim r) (g_lambda r) (g_max_iter r) v (g_ftarget r) (g_ftol r) (g_max_hist r) (g_elit r) (g_init_fvalue r) (g_uh r) (g_reev r) (g_gradient r) (g_edm r) (g_vd r) (g_tpa r) (g_fixed r) (g_flags r).
Definition set_g_ftarget (v : dbl) (r : cfg) : cfg :=
  mkCfg (g_dim r) (g_lambda r) (g_max_iter r) (g_max_fevals r) v (g_ftol r) (g_max_hist r) (g_elit r) (g_init_fvalue r) (g_uh r) (g_reev r) (g_gradient r) (g_edm r) (g_vd r) (g_tpa r) (g_fixed r) (g_flags r).
Definition set_g_ftol (v : dbl) (r : cfg) : cfg :=
  mkCfg (g_dim r) (g_lambda r) (g_max_iter r) (g_max_fevals r) (g_ftarget r) v (g_max_hist r) (g_elit r) (g_init_fvalue r) (g_uh r) (g_reev r) (g_gradient r) (g_edm r) (g_vd r) (g_tpa r) (g_fixed r) (g_flags r).
Definition set_g_max_hist (v : Z) (r : cfg) : cfg :=
  mkCfg (g_dim r) (g_lambda r) (g_max_iter r) (g_max_fevals r) (g_ftarget r) (g_ftol r) v (g_elit r) (g_init_fvalue r) (g_uh r) (g_reev r) (g_gradient r) (g_edm r) (g_vd r) (g_tpa r) (g_fixed r) (g_flags r).
Definition set_g_elit (v : elit) (r : cfg) : cfg :=
  mkCfg (g_dim r) (g_lambda r) (g_max_iter r) (g_max_fevals r) (g_ftarget r) (g_ftol r) (g_max_hist r) v (g_init_fvalue r) (g_uh r) (g_reev r) (g_gradient r) (g_edm r) (g_vd r) (g_tpa r) (g_fixed r) (g_flags r).
Definition set_g_init_fvalue (v : bool) (r : cfg) : cfg :=
  mkCfg (g_dim r) (g_lambda r) (g_max_iter r) (g_max_fevals r) (g_ftarget r) (g_ftol r) (g_max_hist r) (g_elit r) v (g_uh r) (g_reev r) (g_gradient r) (g_edm r) (g_vd r) (g_tpa r) (g_fixed r) (g_flags r).
Definition set_g_uh (v : bool) (r : cfg) : cfg :=
  mkCfg (g_dim r) (g_lambda r) (g_max_iter r) (g_max_fevals r) (g_ftarget r) (g_ftol r) (g_max_hist r) (g_elit r) (g_init_fvalue r) v (g_reev r) (g_gradient r) (g_edm r) (g_vd r) (g_tpa r) (g_fixed r) (g_flags r).
Definition set_g_reev (v : nat) (r : cfg) : cfg :=
  mkCfg (g_dim r) (g_lambda r) (g_max_iter r) (g_max_fevals r) (g_ftarget r) (g_ftol r) (g_max_hist r) (g_elit r) (g_init_fvalue r) (g_uh r) v (g_gradient r) (g_edm r) (g_vd r) (g_tpa r) (g_fixed r) (g_flags r).
Definition set_g_gradient (v : bool) (r : cfg) : cfg :=
  mkCfg (g_dim r) (g_lambda r) (g_max_iter r) (g_max_fevals r) (g_ftarget r) (g_ftol r) (g_max_hist r) (g_elit r) (g_init_fvalue r) (g_uh r) (g_reev r) v (g_edm r) (g_vd r) (g_tpa r) (g_fixed r) (g_flags r).
Definition set_g_edm (v : bool) (r : cfg) : cfg :=
  mkCfg (g_dim r) (g_lambda r) (g_max_iter r) (g_max_fevals r) (g_ftarget r) (g_ftol r) (g_max_hist r) (g_elit r) (g_init_fvalue r) (g_uh r) (g_reev r) (g_gradient r) v (g_vd r) (g_tpa r) (g_fixed r) (g_flags r).
Definition set_g_vd (v : bool) (r : cfg) : cfg :=
  mkCfg (g_dim r) (g_lambda r) (g_max_iter r) (g_max_fevals r) (g_ftarget r) (g_ftol r) (g_max_hist r) (g_elit r) (g_init_fvalue r) (g_uh r) (g_reev r) (g_gradient r) (g_edm r) v (g_tpa r) (g_fixed r) (g_flags r).
Definition set_g_tpa (v : Z) (r : cfg) : cfg :=
  mkCfg (g_dim r) (g_lambda r) (g_max_iter r) (g_max_fevals r) (g_ftarget r) (g_ftol r) (g_max_hist r) (g_elit r) (g_init_fvalue r) (g_uh r) (g_reev r) (g_gradient r) (g_edm r) (g_vd r) v (g_fixed r) (g_flags r).
Definition set_g_fixed (v : list (Z * T)) (r : cfg) : cfg :=
  mkCfg (g_dim r) (g_lambda r) (g_max_iter r) (g_max_fevals r) (g_ftarget r) (g_ftol r) (g_max_hist r) (g_elit r) (g_init_fvalue r) (g_uh r) (g_reev r) (g_gradient r) (g_edm r) (g_vd r) (g_tpa r) v (g_flags r).
Definition set_g_flags (v : list (Z * bool)) (r : cfg) : cfg :=
  mkCfg (g_dim r) (g_lambda r) (g_max_iter r) (g_max_fevals r) (g_ftarget r) (g_ftol r) (g_max_hist r) (g_elit r) (g_init_fvalue r) (g_uh r) (g_reev r) (g_gradient r) (g_edm r) (g_vd r) (g_tpa r) (g_fixed r) v.

(** CMASolutions, cmasolutions.h:487-545 without the numeric members. *)
Record sol := mkSol {
  s_cands : list cand;  (* _candidates *)
  s_hist : list cand;  (* _best_candidates_hist *)
  s_khist : list cand;  (* _k_best_candidates_hist *)
  s_bf : list dbl;  (* _bfvalues *)
  s_med : list dbl;  (* _median_fvalues *)
  s_best : cand;  (* _best_seen_candidate *)
  s_best_iter : option Z;  (* _best_seen_iter, None: uninitialised *)
  s_worst : cand;  (* _worst_seen_candidate *)
  s_init : cand;  (* _initial_candidate *)
  s_niter : Z;  (* _niter *)
  s_nevals : Z;  (* _nevals *)
  s_kcand : Z;  (* _kcand *)
  s_maxhist : Z;  (* _max_hist *)
  s_status : Z;  (* _run_status *)
  s_cuh : list rcand;  (* _candidates_uh *)
  s_reev : nat;  (* _lambda_reev *)
  s_suh : Z;  (* _suh * _lambda_reev *)
  s_tpa1 : Z;  (* _tpa_p1 *)
  s_tpa2 : Z;  (* _tpa_p2 *)
  s_num : N  (* numeric members *)
}.
Definition set_s_cands (v : list cand) (r : sol) : sol :=
  mkSol v (s_hist r) (s_khist r) (s_bf r) (s_med r) (s_best r) (s_best_iter r) (s_worst r) (s_init r) (s_niter r) (s_nevals r) (s_kcand r) (s_maxhist r) (s_status r) (s_cuh r) (s_reev r) (s_suh r) (s_tpa1 r) (s_tpa2 r) (s_num r).
Definition set_s_hist (v : list cand) (r : sol) : sol :=
  mkSol (s_cands r) v (s_khist r) (s_bf r) (s_med r) (s_best r) (s_best_iter r) (s_worst r) (s_init r) (s_niter r) (s_nevals r) (s_kcand r) (s_maxhist r) (s_status r) (s_cuh r) (s_reev r) (s_suh r) (s_tpa1 r) (s_tpa2 r) (s_num r).
Definition set_s_khist (v : list cand) (r : sol) : sol :=
  mkSol (s_cands r) (s_hist r) v (s_bf r) (s_med r) (s_best r) (s_best_iter r) (s_worst r) (s_init r) (s_niter r) (s_nevals r) (s_kcand r) (s_maxhist r) (s_status r) (s_cuh r) (s_reev r) (s_suh r) (s_tpa1 r) (s_tpa2 r) (s_num r).
Definition set_s_bf (v : list dbl) (r : sol) : sol :=
  mkSol (s_cands r) (s_hist r) (s_khist r) v (s_med r) (s_best r) (s_best_iter r) (s_worst r) (s_init r) (s_niter r) (s_nevals r) (s_kcand r) (s_maxhist r) (s_status r) (s_cuh r) (s_reev r) (s_suh r) (s_tpa1 r) (s_tpa2 r) (s_num r).
Definition set_s_med (v : list dbl) (r : sol) : sol :=
  mkSol (s_cands r) (s_hist r) (s_khist r) (s_bf r) v (s_best r) (s_best_iter r) (s_worst r) (s_init r) (s_niter r) (s_nevals r) (s_kcand r) (s_maxhist r) (s_status r) (s_cuh r) (s_reev r) (s_suh r) (s_tpa1 r) (s_tpa2 r) (s_num r).
Definition set_s_best (v : cand) (r : sol) : sol :=
  mkSol (s_cands r) (s_hist r) (s_khist r) (s_bf r) (s_med r) v (s_best_iter r) (s_worst r) (s_init r) (s_niter r) (s_nevals r) (s_kcand r) (s_maxhist r) (s_status r) (s_cuh r) (s_reev r) (s_suh r) (s_tpa1 r) (s_tpa2 r) (s_num r).
Definition set_s_best_iter (v : option Z) (r : sol) : sol :=
  mkSol (s_cands r) (s_hist r) (s_khist r) (s_bf r) (s_med r) (s_best r) v (s_worst r) (s_init r) (s_niter r) (s_nevals r) (s_kcand r) (s_maxhist r) (s_status r) (s_cuh r) (s_reev r) (s_suh r) (s_tpa1 r) (s_tpa2 r) (s_num r).
Definition set_s_worst (v : cand) (r : sol) : sol :=
  mkSol (s_cands r) (s_hist r) (s_khist r) (s_bf r) (s_med r) (s_best r) (s_best_iter r) v (s_init r) (s_niter r) (s_nevals r) (s_kcand r) (s_maxhist r) (s_status r) (s_cuh r) (s_reev r) (s_suh r) (s_tpa1 r) (s_tpa2 r) (s_num r).
Definition set_s_init (v : cand) (r : sol) : sol :=
  mkSol (s_cands r) (s_hist r) (s_khist r) (s_bf r) (s_med r) (s_best r) (s_best_iter r) (s_worst r) v (s_niter r) (s_nevals r) (s_kcand r) (s_maxhist r) (s_status r) (s_cuh r) (s_reev r) (s_suh r) (s_tpa1 r) (s_tpa2 r) (s_num r).
Definition set_s_niter (v : Z) (r : sol) : sol :=
  mkSol (s_cands r) (s_hist r) (s_khist r) (s_bf r) (s_med r) (s_best r) (s_best_iter r) (s_worst r) (s_init r) v (s_nevals r) (s_kcand r) (s_maxhist r) (s_status r) (s_cuh r) (s_reev r) (s_suh r) (s_tpa1 r) (s_tpa2 r) (s_num r).
Definition set_s_nevals (v : Z) (r : sol) : sol :=
  mkSol (s_cands r) (s_hist r) (s_khist r) (s_bf r) (s_med r) (s_best r) (s_best_iter r) (s_worst r) (s_init r) (s_niter r) v (s_kcand r) (s_maxhist r) (s_status r) (s_cuh r) (s_reev r) (s_suh r) (s_tpa1 r) (s_tpa2 r) (s_num r).
Definition set_s_kcand (v : Z) (r : sol) : sol :=
  mkSol (s_cands r) (s_hist r) (s_khist r) (s_bf r) (s_med r) (s_best r) (s_best_iter r) (s_worst r) (s_init r) (s_niter r) (s_nevals r) v (s_maxhist r) (s_status r) (s_cuh r) (s_reev r) (s_suh r) (s_tpa1 r) (s_tpa2 r) (s_num r).
Definition set_s_maxhist (v : Z) (r : sol) : sol :=
  mkSol (s_cands r) (s_hist r) (s_khist r) (s_bf r) (s_med r) (s_best r) (s_best_iter r) (s_worst r) (s_init r) (s_niter r) (s_nevals r) (s_kcand r) v (s_status r) (s_cuh r) (s_reev r) (s_suh r) (s_tpa1 r) (s_tpa2 r) (s_num r).
Definition set_s_status (v : Z) (r : sol) : sol :=
  mkSol (s_cands r) (s_hist r) (s_khist r) (s_bf r) (s_med r) (s_best r) (s_best_iter r) (s_worst r) (s_init r) (s_niter r) (s_nevals r) (s_kcand r) (s_maxhist r) v (s_cuh r) (s_reev r) (s_suh r) (s_tpa1 r) (s_tpa2 r) (s_num r).
Definition set_s_cuh (v : list rcand) (r : sol) : sol :=
  mkSol (s_cands r) (s_hist r) (s_khist r) (s_bf r) (s_med r) (s_best r) (s_best_iter r) (s_worst r) (s_init r) (s_niter r) (s_nevals r) (s_kcand r) (s_maxhist r) (s_status r) v (s_reev r) (s_suh r) (s_tpa1 r) (s_tpa2 r) (s_num r).
Definition set_s_reev (v : nat) (r : sol) : sol :=
  mkSol (s_cands r) (s_hist r) (s_khist r) (s_bf r) (s_med r) (s_best r) (s_best_iter r) (s_worst r) (s_init r) (s_niter r) (s_nevals r) (s_kcand r) (s_maxhist r) (s_status r) (s_cuh r) v (s_suh r) (s_tpa1 r) (s_tpa2 r) (s_num r).
Definition set_s_suh (v : Z) (r : sol) : sol :=
  mkSol (s_cands r) (s_hist r) (s_khist r) (s_bf r) (s_med r) (s_best r) (s_best_iter r) (s_worst r) (s_init r) (s_niter r) (s_nevals r) (s_kcand r) (s_maxhist r) (s_status r) (s_cuh r) (s_reev r) v (s_tpa1 r) (s_tpa2 r) (s_num r).
Definition set_s_tpa1 (v : Z) (r : sol) : sol :=
  mkSol (s_cands r) (s_hist r) (s_khist r) (s_bf r) (s_med r) (s_best r) (s_best_iter r) (s_worst r) (s_init r) (s_niter r) (s_nevals r) (s_kcand r) (s_maxhist r) (s_status r) (s_cuh r) (s_reev r) (s_suh r) v (s_tpa2 r) (s_num r).
Definition set_s_tpa2 (v : Z) (r : sol) : sol :=
  mkSol (s_cands r) (s_hist r) (s_khist r) (s_bf r) (s_med r) (s_best r) (s_best_iter r) (s_worst r) (s_init r) (s_niter r) (s_nevals r) (s_kcand r) (s_maxhist r) (s_status r) (s_cuh r) (s_reev r) (s_suh r) (s_tpa1 r) v (s_num r).
Definition set_s_num (v : N) (r : sol) : sol :=
  mkSol (s_cands r) (s_hist r) (s_khist r) (s_bf r) (s_med r) (s_best r) (s_best_iter r) (s_worst r) (s_init r) (s_niter r) (s_nevals r) (s_kcand r) (s_maxhist r) (s_status r) (s_cuh r) (s_reev r) (s_suh r) (s_tpa1 r) (s_tpa2 r) v.

(** Strategy object, esostrategy.h:241-251, with two ghost fields: the log of
    objective function calls (point, returned value, in call order) and the
    generations evaluated so far (candidates right after evaluation). *)
Record st := mkSt {
  t_sol : sol;  (* _solutions *)
  t_nevals : Z;  (* _nevals *)
  t_niter : Z;  (* _niter *)
  t_initel : bool;  (* _initial_elitist *)
  t_x0 : list T;  (* _parameters._x0min = _x0max *)
  t_log : list (list T * dbl);  (* ghost *)
  t_gens : list (list cand)  (* ghost *)
}.
Definition set_t_sol (v : sol) (r : st) : st :=
  mkSt v (t_nevals r) (t_niter r) (t_initel r) (t_x0 r) (t_log r) (t_gens r).
Definition set_t_nevals (v : Z) (r : st) : st :=
  mkSt (t_sol r) v (t_niter r) (t_initel r) (t_x0 r) (t_log r) (t_gens r).
Definition set_t_niter (v : Z) (r : st) : st :=
  mkSt (t_sol r) (t_nevals r) v (t_initel r) (t_x0 r) (t_log r) (t_gens r).
Definition set_t_initel (v : bool) (r : st) : st :=
  mkSt (t_sol r) (t_nevals r) (t_niter r) v (t_x0 r) (t_log r) (t_gens r).
Definition set_t_x0 (v : list T) (r : st) : st :=
  mkSt (t_sol r) (t_nevals r) (t_niter r) (t_initel r) v (t_log r) (t_gens r).
Definition set_t_log (v : list (list T * dbl)) (r : st) : st :=
  mkSt (t_sol r) (t_nevals r) (t_niter r) (t_initel r) (t_x0 r) v (t_gens r).
Definition set_t_gens (v : list (list cand)) (r : st) : st :=
  mkSt (t_sol r) (t_nevals r) (t_niter r) (t_initel r) (t_x0 r) (t_log r) v.

(** Numeric operations of the strategy. *)
Record numops := mkNum {
  n_xmean : N -> list T;                          (* _xmean *)
  n_new : list T -> N -> N;                       (* CMASolutions(p) for x0, keeping the generator *)
  n_reset : N -> N;                               (* CMASolutions::reset *)
  n_eigen : Z -> N -> N;                          (* ask: decomposition of the covariance *)
  n_sample : nat -> N -> list (list T) * N;       (* samples: one column per candidate *)
  n_gradpt : nat -> list T -> list T;             (* forward difference point of coordinate i *)
  n_gradcol : option (list dbl) -> N -> option (list T);  (* injected point from a gradient; None: null gradient.
                                                     Argument: objective values, or None for a user gradient *)
  n_tpa_points : N -> list T * list T * N;        (* _tpa_x1, _tpa_x2 *)
  n_coin : N -> bool * N;                         (* p < pr_l in select_candidates_uh *)
  n_mutate : list (list T) -> N -> list (list T) * N;  (* columns + noise *)
  n_tpa : Z -> N -> N;                            (* _tpa_s from the rank difference *)
  n_update : Z -> list (list T) -> N -> N;        (* TCovarianceUpdate::update on the ranked points *)
  n_uh_scale : N -> N;                            (* _sigma *= _alphathuh *)
  n_edm : option (list dbl) -> N -> N;            (* _edm *)
  n_crit : Z -> N -> bool                         (* criteria that read numeric members only *)
}.

(** What the user supplies: objective (the n-th call may depend on n), gradient
    availability, transform, progress function; and the behaviour of std::sort
    (not stable) on ranked candidates. *)
Record env := mkEnv {
  e_f : nat -> list T -> dbl;
  e_gfunc : bool;
  e_pheno : list T -> res (list T);
  e_progress : sol -> Z;
  e_sort : (rcand -> rcand -> bool) -> list rcand -> list rcand
}.

Variable no : numops.
Variable e : env.
Variable g : cfg.

(** vector::at *)
Definition at_ {A} (l : list A) (i : Z) : res A :=
  if i <? 0 then Fault OutOfRange
  else match nth_error l (Z.to_nat i) with Some a => Ok a | None => Fault OutOfRange end.
Definition upd_at {A} (l : list A) (i : Z) (a : A) : res (list A) :=
  if (i <? 0) || (Z.of_nat (length l) <=? i) then Fault OutOfRange
  else Ok (firstn (Z.to_nat i) l ++ a :: skipn (S (Z.to_nat i)) l).
(** ceiling of an integer quotient *)
Definition cdiv (a b : Z) : Z := - ((- a) / b).

(** One call of the objective function. *)
Definition call (x : list T) (s : st) : dbl * st :=
  let v := e_f e (length (t_log s)) x in (v, set_t_log (t_log s ++ [(x, v)]) s).
Fixpoint calls (xs : list (list T)) (s : st) : list dbl * st :=
  match xs with
  | [] => ([], s)
  | x :: xs' => let (v, s1) := call x s in let (vs, s2) := calls xs' s1 in (v :: vs, s2)
  end.

(** update_fevals, esostrategy.cc:159-163. *)
Definition update_fevals (n : Z) (s : st) : st :=
  set_t_sol (set_s_nevals (s_nevals (t_sol s) + n) (t_sol s)) (set_t_nevals (t_nevals s + n) s).
(** inc_iter, esostrategy.cc:152-156. *)
Definition inc_iter (s : st) : st :=
  set_t_sol (set_s_niter (s_niter (t_sol s) + 1) (t_sol s)) (set_t_niter (t_niter s + 1) s).

(** CMASolutions(p), cmasolutions.cc:31-84: non-numeric members. *)
Definition sol_new (x0 : list T) (n : N) : res sol :=
  let lambda := Z.of_nat (g_lambda g) in
  if lambda =? 0 then Fault DivByZero else
  Ok (mkSol (repeat cand0 (g_lambda g)) [] [] [] [] cand0 None cand0 cand0 0 0
    (Z.min (lambda - 1) (1 + cdiv (2 + 5 * lambda) 20))
    (if 0 <? g_max_hist g then g_max_hist g else 10 + 30 * Z.of_nat (g_dim g) / lambda)
    0 [] 0 0 0 1 (n_new no x0 n)).

(** Strategy constructor, esostrategy.cc:42-59 (the wrapping of the objective
    by _maximize is [ctor_func] below). *)
Definition st_new (x0 : list T) (n : N) : res st :=
  do s <- sol_new x0 n; Ok (mkSt s 0 0 false x0 [] []).

(** best_candidate, cmasolutions.h:103-112. *)
Definition best_candidate (s : sol) : cand :=
  match rev (s_hist s) with
  | [] => match c_x (s_init s) with
          | [] => cand_of NaN (n_xmean no (s_num s))
          | _ => s_init s
          end
  | c :: _ => c
  end.

(** CMASolutions::reset, cmasolutions.cc:205-227. *)
Definition sol_reset (s : sol) : sol :=
  set_s_hist [] (set_s_khist [] (set_s_bf [] (set_s_med [] (set_s_niter 0 (set_s_nevals 0 (set_s_status 0
    (set_s_num (n_reset no (s_num s)) s))))))).
(** Constructor from an existing solution, esostrategy.cc:62-75 and
    start_from_solution, esostrategy.h:153-158. *)
Definition st_from_solution (s : sol) : st :=
  mkSt (sol_reset s) 0 0 false (c_x (best_candidate s)) [] [].

(** * eval, esostrategy.cc:83-149 *)
(** Evaluation loop, lines 91-101 (sequential order; EvalPar.v treats the
    parallel loop). *)
Fixpoint eval_cols (r : Z) (cols phen : list (list T)) (s : st) : res st :=
  match cols with
  | [] => Ok s
  | x :: cols' =>
      do c <- at_ (s_cands (t_sol s)) r;
      do y <- (match phen with [] => Ok x | _ => at_ phen r end);
      let (v, s1) := call y s in
      do cs <- upd_at (s_cands (t_sol s1)) r (mkCand v x r (c_r c));
      eval_cols (r + 1) cols' phen (set_t_sol (set_s_cands cs (t_sol s1)) s1)
  end.

(** eval_candidates_uh, lines 361-374. *)
Fixpoint eval_uh (r : nat) (n : nat) (muts : list (list T)) (s : st) : res (list rcand * st) :=
  match n with
  | O => Ok ([], s)
  | S n' =>
      do c <- at_ (s_cands (t_sol s)) (Z.of_nat r);
      if (r <? s_reev (t_sol s))%nat then
        do y <- at_ muts (Z.of_nat r);
        let (v, s1) := call y s in
        do p <- eval_uh (S r) n' muts s1;
        Ok (mkR (c_f c) r v 0 0 0 :: fst p, snd p)
      else
        do p <- eval_uh (S r) n' muts s;
        Ok (mkR (c_f c) r (c_f c) 0 0 0 :: fst p, snd p)
  end.

(** perform_uh and select_candidates_uh, lines 325-358.  Returns the number of
    extra objective calls. *)
Definition perform_uh (cols phen : list (list T)) (s : st) : res st :=
  let (coin, n1) := n_coin no (s_num (t_sol s)) in
  let r0 := if coin then S (g_reev g) else g_reev g in
  let reev := match r0 with O => 1%nat | r => r end in
  let src := match phen with [] => cols | _ => phen end in
  if (length src <? reev)%nat then Fault OutOfRange else
  let (muts, n2) := n_mutate no (firstn reev src) n1 in
  let s1 := set_t_sol (set_s_reev reev (set_s_num n2 (t_sol s))) s in
  do p <- eval_uh 0 (length cols) muts s1;
  Ok (set_t_sol (set_s_cuh (fst p) (t_sol (snd p))) (snd p)).

(** Elitist reinjection, lines 111-142. *)
Definition elitist (cols : nat) (s : st) : res st :=
  let el := g_elit g in
  if (0 <? t_niter s) && (e_best el || e_init el || (t_initel s && e_restart el)) then
    let ref :=
      if e_restart el || e_init el then s_init (t_sol s)
      else if e_best el then s_best (t_sol s)
      else cand0 in
    let reff := if e_restart el || e_init el || e_best el then c_f ref else dbl_max in
    if (length (s_cands (t_sol s)) <? cols)%nat then Fault OutOfRange else
    let count := length (filter (fun c => dlt (c_f c) reff) (firstn cols (s_cands (t_sol s)))) in
    if (count <? cols / 2)%nat then
      do cs <- upd_at (s_cands (t_sol s)) 1 ref;
      Ok (set_t_sol (set_s_cands cs (t_sol s)) s)
    else Ok s
  else Ok s.

Definition eval (cols phen : list (list T)) (s : st) : res st :=
  do s1 <- eval_cols 0 cols phen s;
  let s1 := set_t_gens (t_gens s1 ++ [firstn (length cols) (s_cands (t_sol s1))]) s1 in
  do s2 <- (if g_uh g then perform_uh cols phen s1 else Ok s1);
  let nfcalls := Z.of_nat (length cols) + (if g_uh g then Z.of_nat (Nat.min (s_reev (t_sol s2)) (length cols)) else 0) in
  do s3 <- elitist (length cols) s2;
  Ok (update_fevals nfcalls s3).

(** * Ranking *)
(** std::stable_sort with operator< on the values, cmasolutions.h:76-80.  The
    comparison is a strict weak order unless a NaN occurs together with two
    values that compare; then the call is undefined.  The result of a stable
    sort is unique; it is computed here by insertion. *)
Fixpoint insert_cand (c : cand) (l : list cand) : list cand :=
  match l with
  | [] => [c]
  | d :: l' => if dlt (c_f d) (c_f c) then d :: insert_cand c l' else c :: l
  end.
Fixpoint sort_cands (l : list cand) : list cand :=
  match l with [] => [] | c :: l' => insert_cand c (sort_cands l') end.
Definition compares_ok (l : list cand) : bool :=
  negb (existsb (fun c => is_nan (c_f c)) l &&
        existsb (fun a => existsb (fun b => dlt (c_f a) (c_f b)) l) l).
Definition sort_candidates (s : sol) : res sol :=
  if compares_ok (s_cands s) then Ok (set_s_cands (sort_cands (s_cands s)) s) else Fault BadCompare.

(** * uncertainty_handling, esostrategy.cc:212-323 *)
Definition cmp_f (a b : rcand) : bool := dlt (r_f a) (r_f b).
Definition cmp_mut (a b : rcand) : bool := dlt (r_mut a) (r_mut b).
(** Third comparison, lines 296-316.  [tot] is the sum of |delta|, so that
    meandelta = tot / reev; both sides are multiplied by reev. *)
Definition cmp_ranks (reev : nat) (tot : Z) (c1 c2 : rcand) : bool :=
  let s1 := r_r1 c1 + r_r2 c1 in
  let s2 := r_r2 c2 + r_r2 c2 in
  if s1 =? s2 then
    if r_delta c1 =? r_delta c2 then dlt (dadd (r_f c1) (r_mut c1)) (dadd (r_f c2) (r_mut c2))
    else
      let d c := if (r_idx c <? reev)%nat then Z.abs (r_delta c) * Z.of_nat reev else tot in
      d c1 <? d c2
  else r_r1 c1 + r_r2 c1 <? r_r1 c2 + r_r2 c2.
(** Strict weak order on the elements of a list. *)
Definition swo_on {A} (cmp : A -> A -> bool) (l : list A) : bool :=
  forallb (fun a => negb (cmp a a)) l &&
  forallb (fun a => forallb (fun b => forallb (fun c =>
    implb (cmp a b && cmp b c) (cmp a c) &&
    implb (negb (cmp a b) && negb (cmp b a) && negb (cmp b c) && negb (cmp c b))
          (negb (cmp a c) && negb (cmp c a))) l) l) l.
(** std::sort: undefined unless the comparison is a strict weak order. *)
Definition std_sort (cmp : rcand -> rcand -> bool) (l : list rcand) : res (list rcand) :=
  if swo_on cmp l then Ok (e_sort e cmp l) else Fault BadCompare.
Fixpoint number (set : Z -> rcand -> rcand) (pos : Z) (l : list rcand) : list rcand :=
  match l with [] => [] | c :: l' => set pos c :: number set (pos + 1) l' end.
Definition sgn (d : Z) : Z := Z.sgn d.
Definition with_delta (reev : nat) (c : rcand) : rcand :=
  if (r_idx c <? reev)%nat
  then set_r_delta (r_r2 c - r_r1 c - sgn (r_r2 c - r_r1 c)) c else c.
(** nth_element of |j - d| for j in 1 .. 2*lambda-1 at position floor(0.1 * size). *)
Fixpoint insert_Z (x : Z) (l : list Z) : list Z :=
  match l with [] => [x] | y :: l' => if x <=? y then x :: l else y :: insert_Z x l' end.
Definition limit_at (d : Z) : Z :=
  let n := (2 * g_lambda g - 1)%nat in
  let dv := map (fun j => Z.abs (Z.of_nat j - d)) (seq 1 n) in
  nth (n / 10) (fold_right insert_Z [] dv) 0.
Definition uh_level (reev : nat) (l : list rcand) : Z :=
  fold_right Z.add 0 (map (fun c =>
    if (r_idx c <? reev)%nat then
      2 * Z.abs (r_delta c)
      - limit_at (r_r2 c - (if r_r1 c <? r_r2 c then 1 else 0))
      - limit_at (r_r1 c - (if r_r2 c <? r_r1 c then 1 else 0))
    else 0) l).
Definition uncertainty_handling (s : sol) : res sol :=
  do l1 <- std_sort cmp_f (s_cuh s);
  do l2 <- std_sort cmp_mut (number set_r_r1 0 l1);
  let l3 := map (with_delta (s_reev s)) (number set_r_r2 0 l2) in
  let tot := fold_right Z.add 0 (map (fun c => Z.abs (r_delta c)) l3) in
  do l4 <- std_sort (cmp_ranks (s_reev s) tot) l3;
  do cs <- mapM (fun c => at_ (s_cands s) (Z.of_nat (r_idx c))) l4;
  Ok (set_s_cands cs (set_s_cuh l4 (set_s_suh (uh_level (s_reev s) l3) s))).

(** * tpa_update, esostrategy.cc:383-405: positions of the two points. *)
Fixpoint find_id (id : Z) (i : Z) (l : list cand) : Z :=
  match l with
  | [] => -1
  | c :: l' => if c_id c =? id then i else find_id id (i + 1) l'
  end.
Definition tpa_rank_diff (s : sol) : Z :=
  find_id (s_tpa2 s) 0 (s_cands s) - find_id (s_tpa1 s) 0 (s_cands s).
Definition tpa_update (s : sol) : sol := set_s_num (n_tpa no (tpa_rank_diff s) (s_num s)) s.

(** * update_best_candidates, cmasolutions.cc:90-126 *)
Definition drop_if {A} (b : bool) (l : list A) : list A := if b then tl l else l.
Definition update_hist (s : sol) : res sol :=
  do c0 <- at_ (s_cands s) 0;
  do ck <- at_ (s_cands s) (s_kcand s);
  let h := s_hist s ++ [c0] in
  let k := s_khist s ++ [ck] in
  let over := s_maxhist s <? Z.of_nat (length h) in
  let bf := s_bf s ++ [c_f c0] in
  Ok (set_s_hist (drop_if over h) (set_s_khist (drop_if over k)
      (set_s_bf (drop_if (20 <? Z.of_nat (length bf)) bf) s))).
Definition update_medians (s : sol) : res sol :=
  let n := Z.of_nat (length (s_cands s)) in
  if n =? 0 then Fault OutOfRange else
  do m <- (if n mod 2 =? 0 then
             do a <- at_ (s_cands s) (n / 2 - 1);
             do b <- at_ (s_cands s) (n / 2);
             Ok (dhalf (dadd (c_f a) (c_f b)))
           else do a <- at_ (s_cands s) (n / 2); Ok (c_f a));
  let md := s_med s ++ [m] in
  let lim := cdiv (n * s_niter s + 600 * n + 150 * Z.of_nat (length (n_xmean no (s_num s)))) (5 * n) in
  Ok (set_s_med (drop_if (lim <? Z.of_nat (length md)) md) s).
Definition update_seen (s : sol) : res sol :=
  do c0 <- at_ (s_cands s) 0;
  match rev (s_cands s) with
  | [] => Fault EmptyFront
  | cl :: _ =>
      let s1 := if ((s_niter s =? 0) && match c_x (s_best s) with [] => true | _ => false end)
                   || dlt (c_f c0) (c_f (s_best s))
                then set_s_best c0 (set_s_best_iter (Some (s_niter s)) s) else s in
      Ok (if ((s_niter s =? 0) && match c_x (s_worst s) with [] => true | _ => false end)
             || dlt (c_f (s_worst s)) (c_f cl)
          then set_s_worst cl s1 else s1)
  end.
Definition update_best_candidates (s : sol) : res sol :=
  do s1 <- update_hist s; do s2 <- update_medians s1; update_seen s2.

(** * tell, cmastrategy.cc:273-312 *)
Definition tell (s : st) : res st :=
  do s1 <- (if g_uh g then uncertainty_handling (t_sol s) else sort_candidates (t_sol s));
  let s2 := if (g_tpa g =? 2) && (0 <? t_niter s) then tpa_update s1 else s1 in
  do s3 <- update_best_candidates s2;
  let s4 := set_s_num (n_update no (s_niter s3) (map c_x (s_cands s3)) (s_num s3)) s3 in
  let s5 := if g_uh g && (0 <? s_suh s4) then set_s_num (n_uh_scale no (s_num s4)) s4 else s4 in
  Ok (set_t_sol s5 s).

(** * ask, cmastrategy.cc:147-270 *)
(** gradf, esostrategy.cc:166-184: objective calls of the numerical gradient. *)
Definition gradf (x : list T) (s : st) : option (list dbl) * st :=
  if e_gfunc e then (None, s)
  else
    let (vs, s1) := calls (x :: map (fun i => n_gradpt no i x) (seq 0 (g_dim g))) s in
    (Some vs, update_fevals (Z.of_nat (g_dim g) + 1) s1).
(** pop.col(i) = x : an Eigen column index out of range is a failed assertion. *)
Definition set_col (i : Z) (x : list T) (pop : list (list T)) : res (list (list T)) := upd_at pop i x.
Definition set_row (i : Z) (v : T) (pop : list (list T)) : res (list (list T)) :=
  mapM (fun col => upd_at col i v) pop.
Fixpoint fix_rows (fx : list (Z * T)) (pop : list (list T)) : res (list (list T)) :=
  match fx with
  | [] => Ok pop
  | (i, v) :: fx' => do pop' <- set_row i v pop; fix_rows fx' pop'
  end.
Definition ask (s : st) : res (list (list T) * st) :=
  let n1 := n_eigen no (t_niter s) (s_num (t_sol s)) in
  let (pop, n2) := n_sample no (g_lambda g) n1 in
  let s1 := set_t_sol (set_s_num n2 (t_sol s)) s in
  do p2 <- (if g_gradient g then
              do x <- e_pheno e (n_xmean no (s_num (t_sol s1)));
              let (gr, s2) := gradf x s1 in
              match n_gradcol no gr (s_num (t_sol s2)) with
              | None => Ok (pop, s2)
              | Some nx => do pop' <- set_col 0 nx pop; Ok (pop', s2)
              end
            else Ok (pop, s1));
  let (pop2, s2) := p2 in
  do p3 <- (if (g_tpa g =? 2) && (0 <? t_niter s2) then
              let '(x1, x2, n3) := n_tpa_points no (s_num (t_sol s2)) in
              let so := set_s_num n3 (t_sol s2) in
              let so := if g_gradient g then set_s_tpa1 1 (set_s_tpa2 2 so) else so in
              do pa <- set_col (s_tpa1 so) x1 pop2;
              do pb <- set_col (s_tpa2 so) x2 pa;
              Ok (pb, set_t_sol so s2)
            else Ok (pop2, s2));
  let (pop3, s3) := p3 in
  do pop4 <- fix_rows (g_fixed g) pop3;
  Ok (pop4, s3).

(** * Stopping criteria, cmastopcriteria.cc:69-250 *)
Definition max_fevals_crit (s : sol) : bool :=
  negb (g_max_fevals g =? -1) && (g_max_fevals g <=? s_nevals s).
Definition max_iter_crit (s : sol) : bool :=
  negb (g_max_iter g =? -1) && (g_max_iter g <=? s_niter s).
(** niter >= thresh, thresh = 100 + 50 (dim+3)^2 / sqrt(lambda), times 1000 for
    small vd problems; compared after squaring. *)
Definition auto_max_iter_crit (s : sol) : bool :=
  let d := Z.of_nat (g_dim g) in
  let k := if g_vd g && (d <? 10) then 1000 else 1 in
  let excess := s_niter s - 100 * k in
  (0 <=? excess) &&
  ((50 * k * (d + 3) * (d + 3)) * (50 * k * (d + 3) * (d + 3)) <=? excess * excess * Z.of_nat (g_lambda g)).
Definition ftarget_crit (s : sol) : bool :=
  negb (deq (g_ftarget g) PosInf) && dle (c_f (best_candidate s)) (g_ftarget g).
(** The last [k] elements of a history, oldest first; at() as in the code. *)
Fixpoint recent {A} (k : nat) (l : list A) : res (list A) :=
  match k with
  | O => Ok []
  | S k' => do a <- at_ l (Z.of_nat (length l) - 1 - Z.of_nat k'); do r <- recent k' l; Ok (a :: r)
  end.
Definition tol_hist_fun_crit (s : sol) : res bool :=
  if Z.of_nat (g_lambda g) =? 0 then Fault DivByZero else
  let threshold := dmax (g_ftol g) dbl_1em12 in
  let histsize := Z.of_nat (length (s_hist s)) in
  let histthresh := Z.min (s_maxhist s) (10 + 30 * Z.of_nat (g_dim g) / Z.of_nat (g_lambda g)) in
  let histlength := Z.min histthresh histsize in
  if histlength <? histthresh then Ok false else
  do vals <- recent (Z.to_nat histlength) (s_hist s);
  let vals := rev vals in  (* the loop goes back from the newest *)
  let lo := fold_left (fun m c => dmin (c_f c) m) vals dbl_max in
  let hi := fold_left (fun m c => dmax (c_f c) m) vals (dneg dbl_max) in
  Ok (dlt (dabs (dsub hi lo)) threshold).
Definition equal_fun_vals_crit (s : sol) : res bool :=
  let histsize := Z.of_nat (length (s_hist s)) in
  let histlength := Z.min (Z.of_nat (g_dim g)) histsize in
  if histlength <? s_maxhist s then Ok false else
  do a <- recent (Z.to_nat histlength) (s_hist s);
  do b <- recent (Z.to_nat histlength) (s_khist s);
  let c := length (filter (fun p => deq (c_f (fst p)) (c_f (snd p))) (combine a b)) in
  Ok (histlength <? 3 * Z.of_nat c).
(** median, cmastopcriteria.cc:54-63: std::sort on doubles. *)
Fixpoint insert_dbl (x : dbl) (l : list dbl) : list dbl :=
  match l with [] => [x] | y :: l' => if dlt y x then y :: insert_dbl x l' else x :: l end.
Definition sort_dbl (l : list dbl) : list dbl := fold_right insert_dbl [] l.
Definition median (l : list dbl) : res dbl :=
  if existsb is_nan l && existsb (fun a => existsb (dlt a) l) l then Fault BadCompare else
  let n := Z.of_nat (length l) in
  let l := sort_dbl l in
  if n mod 2 =? 0 then do a <- at_ l (n / 2 - 1); do b <- at_ l (n / 2); Ok (dhalf (dadd a b))
  else at_ l (n / 2).
Definition stagnation_crit (s : sol) : res bool :=
  if (Z.of_nat (length (s_bf s)) <? 20) || (Z.of_nat (length (s_med s)) <? 20) then Ok false else
  do a <- median (s_bf s);
  do b <- median (firstn 20 (s_med s));
  Ok (dle b a).
(** Criterion of a code (the lambdas inserted in _scriteria). *)
Definition criterion (c : Z) (s : sol) : res bool :=
  if c =? 8 then Ok (max_fevals_crit s)
  else if c =? 9 then Ok (max_iter_crit s)
  else if c =? 7 then Ok (auto_max_iter_crit s)
  else if c =? 10 then Ok (ftarget_crit s)
  else if c =? 1 then tol_hist_fun_crit s
  else if c =? 5 then equal_fun_vals_crit s
  else if c =? 6 then stagnation_crit s
  else Ok (n_crit no c (s_num s)).
(** CMAStopCriteria::stop, cmastopcriteria.cc:259-279. *)
Fixpoint stop_scan (fl : list (Z * bool)) (s : sol) : res Z :=
  match fl with
  | [] => Ok 0
  | (c, active) :: fl' =>
      if active then do b <- criterion c s; if b : bool then Ok c else stop_scan fl' s
      else stop_scan fl' s
  end.

(** CMAStrategy::stop, cmastrategy.cc:315-332 (plotting left out). *)
Definition stop (s : st) : res (bool * st) :=
  if s_status (t_sol s) <? 0 then Ok (true, s)
  else if negb (e_progress e (t_sol s) =? 0) then Ok (true, s)
  else if t_niter s =? 0 then Ok (false, s)
  else
    do r <- stop_scan (g_flags g) (t_sol s);
    Ok (negb (r =? 0), set_t_sol (set_s_status r (t_sol s)) s).

(** * optimize, cmastrategy.cc:335-389 *)
(** One round of the loop body with the default ask, eval and tell. *)
Definition round (s : st) : res st :=
  do p <- ask s;
  do ph <- mapM (e_pheno e) (fst p);
  do s2 <- eval (fst p) ph (snd p);
  do s3 <- tell s2;
  Ok (inc_iter s3).
(** while (!stop()) body; [fuel] bounds the number of tests. *)
Fixpoint loop (body : st -> res st) (fuel : nat) (s : st) : res st :=
  match fuel with
  | O => Fault Diverges
  | S fuel' =>
      do p <- stop s;
      if fst p then Ok (snd p) else do s2 <- body (snd p); loop body fuel' s2
  end.
(** Evaluation of the initial point, lines 341-350. *)
Definition eval_initial (s : st) : res st :=
  let el := g_elit g in
  if t_initel s || e_init el || e_best el || g_init_fvalue g then
    let xm := n_xmean no (s_num (t_sol s)) in
    do y <- e_pheno e xm;
    let (v, s1) := call y s in
    let c := cand_of v xm in
    Ok (update_fevals 1 (set_t_sol (set_s_best c (set_s_init c (t_sol s1))) s1))
  else Ok s.
(** edm, esostrategy.cc:194-209: objective calls of its gradient. *)
Definition edm (s : st) : res st :=
  do x <- e_pheno e (n_xmean no (s_num (t_sol s)));
  let (gr, s1) := gradf x s in
  Ok (set_t_sol (set_s_num (n_edm no gr (s_num (t_sol s1))) (t_sol s1)) s1).
(** Test for the elitist restart, lines 366-371. *)
Definition restart_wanted (s : st) : res bool :=
  if e_restart (g_elit g) && dlt (c_f (s_best (t_sol s))) (c_f (best_candidate (t_sol s))) then
    match s_best_iter (t_sol s) with
    | None => Fault Uninit
    | Some i => Ok (3 <=? t_niter s - i)
    end
  else Ok false.
(** Reinitialisation, lines 373-380. *)
Definition reinit (s : st) : res st :=
  let x := c_x (s_best (t_sol s)) in
  do so <- sol_new x (s_num (t_sol s));
  Ok (mkSt (set_s_nevals (t_nevals s) so) (t_nevals s) 0 true x (t_log s) (t_gens s)).
(** The whole function; the recursive call of line 381 uses the default ask,
    eval and tell whatever the caller passed.  [rfuel] bounds the number of
    nested restarts. *)
Fixpoint optimize (body : st -> res st) (rfuel fuel : nat) (s : st) : res (Z * st) :=
  do s1 <- eval_initial s;
  do s2 <- loop body fuel s1;
  do s3 <- (if g_edm g then edm s2 else Ok s2);
  do w <- restart_wanted s3;
  do s4 <- (if w : bool then
              match rfuel with
              | O => Fault Diverges
              | S rf => do s' <- reinit s3; do p <- optimize round rf fuel s'; Ok (snd p)
              end
            else Ok s3);
  Ok ((if 0 <=? s_status (t_sol s4) then 0 else -1), s4).

End Search.

Arguments cand T : clear implicits.
Arguments cfg T : clear implicits.
Arguments sol T N : clear implicits.
Arguments st T N : clear implicits.
Arguments numops T N : clear implicits.
Arguments env T N : clear implicits.

(** Objective function seen by the strategy: the constructors of
    esostrategy.cc:42-59 and 62-75. *)
Definition ctor_func {T} (maximize : bool) (f : nat -> list T -> dbl) : nat -> list T -> dbl :=
  if maximize then fun k x => dneg (f k x) else f.
Definition ctor_func_from_solution {T} (maximize : bool) (f : nat -> list T -> dbl) : nat -> list T -> dbl := f.
