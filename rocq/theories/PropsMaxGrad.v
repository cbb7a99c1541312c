(** Property C31: maximisation with a gradient given by the user. *)
From Coq Require Import Reals List ZArith.
From Verif Require Import Base Dbl Vec Params Config Search Update SpecUpdate DemoNum NumThms SpecEdm SpecGradPt MaxGradThms.
Open Scope R_scope.

(** The objective is negated but the user's gradient is not: [F] is to be
    maximised, the gradient given is that of [F], and the point proposed along
    it is the worst of all points within the typical distance. *)
Theorem C31_gradient_refuted : exists p e g F x0 s pop s' x,
  constructed (p_k p) /\ (forall y, p_pheno p y = y) /\ same_transform p e /\ g_gradient g = true /\ e_gfunc e = true /\
  e_f e = ctor_func true (rounded F) /\ (forall a b, F b - F a = dot (k_dim (p_k p)) (at0 (p_ugrad p a)) (fun i => at0 b i - at0 a i)) /\
  st_new (cma_num p) g x0 num0 = Ok s /\ ask (cma_num p) e g s = Ok (pop, s') /\ nth_error pop 0 = Some x /\
  F x < F x0 /\ forall y, ellipsoid (k_dim (p_k p)) (cov_of s) (sigma_of s * sigma_of s * INR (k_dim (p_k p))) (fun i => at0 y i - at0 x0 i) -> F x <= F y.
Proof. exact max_wrong. Qed.
Print Assumptions C31_gradient_refuted.
