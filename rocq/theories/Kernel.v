(** The ranking model of the surrogate, in exact arithmetic: the RBF kernel, encoding,
    training and prediction of surrogates/rankingsvm.hpp,
    and the functions surrogates/rsvm_surr_strategy.hpp hands to the surrogate
    strategy.  Points are vectors of dimension [n]. *)
From Coq Require Import Reals List ZArith.
From Verif Require Import Base Dbl Vec Rsvm SpecRsvm.
Import ListNotations.
Local Open Scope R_scope.

(** (x1-x2).squaredNorm() *)
Definition sqdist (n : nat) (x y : vec) : R := dot n (fun i => x i - y i) (fun i => x i - y i).
(** RBFKernel::K, rankingsvm.hpp:95. *)
Definition rbf_K (n : nat) (gamma : R) (x y : vec) : R := exp (- gamma * sqdist n x y).
(** avgdist before its division, rankingsvm.hpp:99-102: the sum over i < j. *)
Definition sumdist (n : nat) (x : list vec) : R :=
  rsum (length x) (fun i => rsum (length x - S i) (fun k =>
    norm n (fun c => nth i x (fun _ => 0) c - nth (S i + k) x (fun _ => 0) c))).
(** RBFKernel::init, rankingsvm.hpp:97-111, with _sigma_a = _sigma_pow = 1.0,
    which nothing changes.  Divisions by zero, which give a NaN or an infinity in
    the code, are faults. *)
Definition rbf_init (n : nat) (x : list vec) : res R :=
  let m := INR (length x) in
  let den := / 2 * (m * (m - 1)) in
  if Req_EM_T den 0 then Fault DivByZero else
  let avgdist := sumdist n x / den in
  let sigma := 1 * avgdist in
  if Req_EM_T (2 * sigma * sigma) 0 then Fault DivByZero else Ok (1 / (2 * sigma * sigma)).

(** The inverse square root of the covariance: a matrix, or one column
    (separable variants; also a matrix of dimension 1). *)
Inductive covinv := Full (a : mat) | Column (v : vec).
(** encode, rankingsvm.hpp:217-230, one point. *)
Definition encode (n : nat) (ci : covinv) (xmean x : vec) : vec :=
  match ci with
  | Full a => mv n a (fun i => x i - xmean i)
  | Column v => fun i => v i * (x i - xmean i)
  end.

(** Members of RankingSVM kept after train: _kernel._gamma and _alpha.  A new
    object has _gamma 1.0 (line 112) and an empty _alpha. *)
Definition model : Type := R * list R.
Definition new_model : model := (1, []).
Section Model.
Variable n : nat.
Variables cval eps : R.             (* _Cval = 1e6, _epsilon = 1.0 *)
Variable draw : nat -> R.           (* _udist(_rng): [_rng] is a new std::mt19937 for each training *)

(** The diagonal of _dKij, rankingsvm.hpp:268: the divisors of lines 280-282. *)
Definition rbf_dii (gamma : R) (xs : list vec) (i : nat) : R :=
  dK exact (fun i j => rbf_K n gamma (nth i xs (fun _ => 0)) (nth j xs (fun _ => 0))) i i.
(** train with _encode, rankingsvm.hpp:142-167.  A zero divisor, with which the
    code goes on to NaNs or infinities, is a fault. *)
Definition rbf_train (ci : covinv) (xmean : vec) (x : list vec) (niter : Z) : res model :=
  match x with
  | [] => Fault OutOfRange
  | _ =>
      let xs := map (encode n ci xmean) x in
      do gamma <- rbf_init n xs;
      do _ <- (if forallb (fun i => if Req_EM_T (rbf_dii gamma xs i) 0 then false else true) (seq 0 (length xs - 1)) then Ok tt else Fault DivByZero);
      do alpha <- train exact cval eps draw (rbf_K n gamma) (encode n ci xmean) x niter;
      Ok (gamma, alpha)
  end.
(** predict with _encode, rankingsvm.hpp:180-209. *)
Definition rbf_predict (ci : covinv) (xmean : vec) (m : model) (test x : list vec) : res (list R) :=
  predict exact (rbf_K n (fst m)) (encode n ci xmean) (snd m) test x.

(** Candidates of the training set: point and value. *)
Definition tcand : Type := vec * dbl.
(** std::sort; any behaviour. *)
Variable srt : forall A : Type, (A -> A -> bool) -> list A -> list A.
(** to_mat_vec with train = true, rsvm_surr_strategy.hpp:34-49: the points in
    the order of decreasing value. *)
Definition to_mat (c : list tcand) : res (list vec) :=
  match srt tcand (fun c1 c2 => dlt (snd c2) (snd c1)) c with
  | [] => Fault OutOfRange           (* cp.at(0) *)
  | cp => Ok (map fst cp)
  end.
(** _train, rsvm_surr_strategy.hpp:60-73. *)
Definition surr_train (niter : Z) (ci : covinv) (xmean : vec) (m : model) (c : list tcand) : res model :=
  match c with
  | [] => Ok m
  | _ => do x <- to_mat c; rbf_train ci xmean x niter
  end.
(** _predict, rsvm_surr_strategy.hpp:74-93: the new values of the candidates at
    [test], or nothing when they keep the old ones: the model was not trained. *)
Definition surr_predict (ci : covinv) (xmean : vec) (m : model) (test : list vec) (tset : list tcand) : res (option (list R)) :=
  match test with
  | [] => Fault OutOfRange           (* c.at(0) *)
  | _ =>
      do x <- to_mat tset;
      do fit <- rbf_predict ci xmean m test x;
      match fit with [] => Ok None | _ => Ok (Some fit) end
  end.
End Model.
