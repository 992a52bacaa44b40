(** Textbook weighted moments of a sample [(value, weight); ...]. *)
From Verif Require Import Num.
Local Open Scope Qc_scope.

Definition total (l : list (Qc * Qc)) : Qc := qsum (map snd l).
Definition wmean (l : list (Qc * Qc)) : Qc := qsum (map (fun p => snd p * fst p) l) / total l.
Fixpoint qpow (x : Qc) (n : nat) : Qc := match n with O => 1 | S m => x * qpow x m end.
(** Sum of weight * (value - mean)^k. *)
Definition central (k : nat) (l : list (Qc * Qc)) : Qc :=
  qsum (map (fun p => snd p * qpow (fst p - wmean l) k) l).
(** The observations that are not NaN. *)
Definition known (l : list (option Qc * Qc)) : list (Qc * Qc) :=
  flat_map (fun p => match fst p with Some x => [(x, snd p)] | None => [] end) l.

(** Mixture of normal distributions with components (mean, variance, weight): central moments.
    For a normal variable with mean d and variance v: E x^2 = v + d^2, E x^3 = 3 v d + d^3,
    E x^4 = 3 v^2 + 6 v d^2 + d^4. *)
Definition normal_moment (k : nat) (d v : Qc) : Qc :=
  match k with
  | 0%nat => 1
  | 1%nat => d
  | 2%nat => v + d * d
  | 3%nat => qz 3 * v * d + d * d * d
  | 4%nat => qz 3 * v * v + qz 6 * v * (d * d) + d * d * d * d
  | _ => 0
  end.
Definition mix_total (l : list (Qc * Qc * Qc)) : Qc := qsum (map snd l).
Definition mix_mean (l : list (Qc * Qc * Qc)) : Qc :=
  qsum (map (fun c => snd c * fst (fst c)) l) / mix_total l.
Definition mix_central (k : nat) (l : list (Qc * Qc * Qc)) : Qc :=
  qsum (map (fun c => snd c * normal_moment k (fst (fst c) - mix_mean l) (snd (fst c))) l).
