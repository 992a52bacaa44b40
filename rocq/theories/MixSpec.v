(** Specification of mixtures of distributions. *)
From Coq Require Import Reals List.
From Verif Require Import MixModel.
Local Open Scope R_scope.

Fixpoint rsum (l : list R) : R := match l with [] => 0 | x :: r => x + rsum r end.
Fixpoint products (ws xs : list R) : list R := match ws, xs with w :: ws, x :: xs => w * x :: products ws xs | _, _ => [] end.
(** The average of the numbers xs with the weights ws *)
Definition average (ws xs : list R) : R := rsum (products ws xs) / rsum ws.
Definition positive (ws : list R) : Prop := forall w, In w ws -> 0 < w.
(** Polynomials of degree 4 or less *)
Definition quartic (g : R -> R) : Prop := exists a b c d e, forall x, g x = a + b * x + c * x ^ 2 + d * x ^ 3 + e * x ^ 4.
(** The expectation of functions, for a random variable with four moments: linear, and 1 for the constant 1 *)
Definition expectation_operator (E : (R -> R) -> R) : Prop :=
  E (fun _ => 1) = 1 /\ (forall g h, (forall x, g x = h x) -> E g = E h) /\
  forall g h a b, quartic g -> quartic h -> E (fun x => a * g x + b * h x) = a * E g + b * E h.
(** mean mu and variance v *)
Definition mean_variance (E : (R -> R) -> R) (mu v : R) : Prop := E (fun x => x) = mu /\ E (fun x => (x - mu) ^ 2) = v.
(** skewness and excess kurtosis too *)
Definition four_moments (E : (R -> R) -> R) (mu v sk ku : R) : Prop :=
  mean_variance E mu v /\ E (fun x => (x - mu) ^ 3) = sk * sqrt v ^ 3 /\ E (fun x => (x - mu) ^ 4) = (ku + 3) * v ^ 2.
(** The expectation of a mixture: a distribution is chosen with a probability that is proportional to its weight *)
Definition mixed (ws : list R) (Es : list ((R -> R) -> R)) (g : R -> R) : R := average ws (map (fun E => E g) Es).
(** the member of the mixture has these moments *)
Definition known (wc : R * comp) (E : (R -> R) -> R) : Prop :=
  expectation_operator E /\ exists mu v, c_mean (snd wc) = Fin mu /\ c_var (snd wc) = Fin v /\ mean_variance E mu v.
Definition known4 (wc : R * comp) (E : (R -> R) -> R) : Prop :=
  expectation_operator E /\ exists mu v sk ku, 0 <= v /\ c_mean (snd wc) = Fin mu /\ c_var (snd wc) = Fin v /\ c_skew (snd wc) = Fin sk /\ c_kurt (snd wc) = Fin ku /\ four_moments E mu v sk ku.
