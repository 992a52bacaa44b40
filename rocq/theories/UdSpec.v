(** Specification of univariate distributions. *)
From Coq Require Import Reals.
From Coquelicot Require Import Coquelicot.
Local Open Scope R_scope.

(** ** Discrete distributions: probabilities [f] at lo, lo + 1, lo + 2, ... *)
(** the expectation of g *)
Definition expectation (lo : R) (f g : R -> R) (m : R) : Prop := is_series (fun k => f (lo + INR k) * g (lo + INR k)) m.
(** Probabilities are not negative and their sum is one; mu is the mean, v the variance. *)
Definition has_mean_variance (lo : R) (f : R -> R) (mu v : R) : Prop :=
  (forall k, 0 <= f (lo + INR k)) /\ expectation lo f (fun _ => 1) 1 /\ expectation lo f (fun x => x) mu /\ expectation lo f (fun x => (x - mu) ^ 2) v.
(** The skewness is the third central moment divided by the third power of the standard deviation, the (excess) kurtosis the fourth one divided by the square of the variance, minus 3. *)
Definition has_moments (lo : R) (f : R -> R) (mu v sk ku : R) : Prop :=
  has_mean_variance lo f mu v /\ 0 < v /\
  expectation lo f (fun x => (x - mu) ^ 3) (sk * sqrt v ^ 3) /\ expectation lo f (fun x => (x - mu) ^ 4) ((ku + 3) * v ^ 2).
(** The gamma function at positive numbers, and its logarithm. *)
Definition gamma_function (G : R -> R) : Prop := G 1 = 1 /\ (forall x, 0 < x -> G (x + 1) = x * G x) /\ (forall x, 0 < x -> 0 < G x).
Definition log_gamma (lg G : R -> R) : Prop := forall x, 0 < x -> lg x = ln (G x).
Definition integer (x : R) : Prop := exists z : Z, x = IZR z.
(** The probability of values up to x. *)
Definition probability_up_to (lo : R) (f : R -> R) (x c : R) : Prop :=
  (x < lo -> c = 0) /\ (forall n, lo + INR n <= x < lo + INR (S n) -> c = sum_f_R0 (fun k => f (lo + INR k)) n).
(** The regularized incomplete gamma function P(a, x) for one a: its derivative is x^(a-1) e^(-x) / c, where c is the value of the gamma function; from 0 to 1. *)
Definition incomplete_gamma (P : R -> R) (a c : R) : Prop :=
  P 0 = 0 /\ filterlim P (at_right 0) (locally 0) /\ (forall x, 0 < x -> is_derive P x (Rpower x (a - 1) * exp (- x) / c)) /\ is_lim P p_infty 1.
(** The regularized incomplete beta function I_x(a, b) for one pair (a, b); c is the value of the beta function. *)
Definition incomplete_beta (I : R -> R) (a b c : R) : Prop :=
  I 0 = 0 /\ I 1 = 1 /\ filterlim I (at_right 0) (locally 0) /\ filterlim I (at_left 1) (locally 1) /\
  (forall x, 0 < x < 1 -> is_derive I x (Rpower x (a - 1) * Rpower (1 - x) (b - 1) / c)).
