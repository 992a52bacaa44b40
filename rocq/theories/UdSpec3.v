(** Specification of medians and modes. *)
From Coq Require Import Reals.
From Verif Require Import UdSpec.
Local Open Scope R_scope.

(** A median of a discrete distribution with probabilities f at lo, lo + 1, ...: values up to m have probability at least 1/2, and up to any smaller number at most 1/2. *)
Definition discrete_median (lo : R) (f : R -> R) (m : R) : Prop :=
  (forall c, probability_up_to lo f m c -> 1 / 2 <= c) /\ (forall x c, x < m -> probability_up_to lo f x c -> c <= 1 / 2).
