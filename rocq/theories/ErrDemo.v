(** A small problem for the error estimation: the function |x-10| + |y-10|, its
    optimum, and a search that returns the best point. *)
From Coq Require Import Reals Lra.
From Verif Require Import Base EoMatrix Pwq Scaling GenoPheno SpecBounds SpecGeno Errstats SpecErr.
Open Scope R_scope.

Definition valley (x : list R) : R := fold_right (fun a s => Rabs (a - 10) + s) 0 x.
Definition valley_par : epar := mkEP 2 gp_default_nb 4 1 0 [10; 10] 0.1.
(** A search that evaluates one point, with coordinates [c], and returns it. *)
Definition point_search (c : R) (rf : list R -> R) (ip : ipar) : res iout :=
  let x := repeat c (length (i_x0 ip)) in
  do y <- pheno (i_gp ip) x; Ok (mkIO x (rf y) 1 0).
Definition optimum : ecand := mkEC [10; 10] 0.
Definition valley_sol : esol := mkES [optimum] [optimum] [[1; 0]; [0; 1]] 20 0 [].
