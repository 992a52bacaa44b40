(** Specification of continuous distributions. *)
From Coq Require Import Reals.
From Coquelicot Require Import Coquelicot.
Local Open Scope R_scope.

(** A continuous distribution function: it does not decrease, it is continuous, its limits are 0 and 1. *)
Definition distribution_function (F : R -> R) : Prop :=
  (forall x y, x <= y -> F x <= F y) /\ (forall x, continuous F x) /\ is_lim F m_infty 0 /\ is_lim F p_infty 1.
(** The complementary error function. *)
Definition error_function (E : R -> R) : Prop :=
  (forall x, is_derive E x (- (2 / sqrt PI) * exp (- x ^ 2))) /\ is_lim E m_infty 2 /\ is_lim E p_infty 0.
