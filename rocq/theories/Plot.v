(** Model of the plot file: stop and optimize with an output stream,
    cmastrategy.cc:315-398, and the default rows, cmastrategy.cc:46-90. *)
From Coq Require Import Reals List.
From Verif Require Import Base Dbl Vec EoMatrix GenoPheno Params Config Search Update Report.
Import ListNotations.

Section Plot.
Context {T N L : Type}.
Variable no : numops T N.
Variable e : env T N.
Variable g : cfg T.
(** _pffunc: the lines appended for a solution. *)
Variable w : sol T N -> res (list L).
Local Open Scope Z_scope.

(** The part of stop, cmastrategy.cc:317-324, that writes: after the error test
    and the progress function, before the criteria. *)
Definition plot_stop (s : st T N) : res (list L) :=
  if s_status (t_sol s) <? 0 then Ok []
  else if negb (e_progress e (t_sol s) =? 0) then Ok []
  else w (t_sol s).
(** while (!stop()) body, cmastrategy.cc:353-363, with the lines written. *)
Fixpoint loop_p (body : st T N -> res (st T N)) (fuel : nat) (s : st T N) : res (st T N * list L) :=
  match fuel with
  | O => Fault Diverges
  | S fuel' =>
      do ls <- plot_stop s;
      do p <- stop no e g s;
      if fst p then Ok (snd p, ls)
      else do s2 <- body (snd p); do r <- loop_p body fuel' s2; Ok (fst r, ls ++ snd r)
  end.
(** optimize, cmastrategy.cc:335-389; the nested call after an elitist restart
    writes to the same stream. *)
Fixpoint optimize_p (body : st T N -> res (st T N)) (rfuel fuel : nat) (s : st T N) : res (Z * st T N * list L) :=
  do s1 <- eval_initial no e g s;
  do p2 <- loop_p body fuel s1;
  do s3 <- (if g_edm g then edm no e g (fst p2) else Ok (fst p2));
  do b <- restart_wanted no g s3;
  do p4 <- (if b : bool then
              match rfuel with
              | O => Fault Diverges
              | S rf => do s' <- reinit no g s3; do q <- optimize_p (round no e g) rf fuel s'; Ok (snd (fst q), snd p2 ++ snd q)
              end
            else Ok (s3, snd p2));
  Ok ((if 0 <=? s_status (t_sol (fst p4)) then 0 else -1), fst p4, snd p4).
End Plot.

(** A cell of a line: an objective value, an integer, a real number, or the
    elapsed time (and, in the header, the date), whose value is not modelled. *)
Inductive cell := CF (v : dbl) | CI (z : Z) | CR (r : R) | CTime.

Section Rows.
Variable no : numops R num.
Variable p : npar.
Variable gp : genopheno.
Variable seed : Z.
Let d := k_dim (p_k p).
Local Open Scope R_scope.

(** min_eigenv() == 0 ? 1.0 : sqrt(max_eigenv()/min_eigenv()), cmastrategy.cc:56 and 77.
    The square root of a negative quotient, NaN in the code, is 0 here. *)
Definition axis_ratio (n : num) : R :=
  if Req_EM_T (x_minev n) 0 then 1 else sqrt (x_maxev n / x_minev n).
(** The first four cells, cmastrategy.cc:56 and 77. *)
Definition row_head (so : sol R num) : list cell :=
  [CF (dabs (c_f (best_candidate no so))); CI (s_nevals so); CR (x_sigma (s_num so)); CR (axis_ratio (s_num so))].
(** Eigenvalues (zeros before the first tell, which is the initial value of
    [x_leig]), standard deviations, mean in the user's coordinates and time:
    cmastrategy.cc:61-66 and 78-83. *)
Definition row_tail (so : sol R num) : res (list cell) :=
  do sd <- stds p gp (s_num so);
  do m <- pheno gp (tab d (x_mean (s_num so)));
  Ok (map CR (tab d (x_leig (s_num so))) ++ map CR sd ++ map CR m ++ [CTime]).
(** fpfuncdef_impl, cmastrategy.cc:73-90. *)
Definition plot_row (so : sol R num) : res (list (list cell)) :=
  do tl <- row_tail so; Ok [row_head so ++ tl].
(** fpfuncdef_full_impl, cmastrategy.cc:46-72. *)
Definition full_row (so : sol R num) : res (list (list cell)) :=
  do med <- at_ (s_cands so) (Z.of_nat (length (s_cands so) / 2));
  do tl <- row_tail so;
  let header := if (s_niter so =? 0)%Z then [[CI (Z.of_nat d); CI seed; CTime]] else [] in
  let xbest := match c_x (s_best so) with [] => tab d (fun _ => 0) | x => x end in
  Ok (header ++ [row_head so ++
    [CF (c_f (s_best so)); CF (c_f med); CF (c_f (s_worst so)); CR (x_minev (s_num so)); CR (x_maxev (s_num so))] ++
    map CR xbest ++ tl]).
End Rows.
