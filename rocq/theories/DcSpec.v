(** Specification of discrete choice models, in the words of a textbook: probabilities of the choices, log-likelihood, derivatives. *)
From Verif Require Export DcModel.
Local Open Scope R_scope.

(** The value of the linear index x'b of a row with k regressors. *)
Definition index (k : nat) (o : obs) (b : vec) : R := sumr k (fun j => o_x o j * b j).
(** The logistic distribution function. *)
Definition logistic (z : R) : R := / (1 + exp (- z)).
(** What is assumed of the normal distribution function and density (they are computed by other code). *)
Definition normal_like (cdf pdf : R -> R) : Prop :=
  (forall z, 0 < cdf z < 1) /\ (forall z, cdf (- z) = 1 - cdf z) /\ (forall z, pdf (- z) = pdf z) /\
  (forall z, derivable_pt_lim cdf z (pdf z)) /\ (forall z, derivable_pt_lim pdf z (- z * pdf z)) /\
  (forall eps, 0 < eps -> exists M, forall z, z < M -> cdf z < eps).
(** P (y = 1) = F (x'b), P (y = 0) = 1 - F (x'b) *)
Definition binary_prob (F : R -> R) (k : nat) (o : obs) (b : vec) : R :=
  if (o_y o =? 1)%Z then F (index k o b) else 1 - F (index k o b).
Definition binary_data (l : list obs) : Prop := forall o, In o l -> o_y o = 0%Z \/ o_y o = 1%Z.
(** Ordered choices 0, ..., J: the cutoffs are 0 and the J - 1 parameters after the slopes; P (y <= m) = F (cutoff m - x'b). *)
Definition cutoff (k0 : nat) (b : vec) (m : Z) : R := if (m =? 0)%Z then 0 else b (k0 + Z.to_nat (m - 1))%nat.
Definition at_most (F : R -> R) (k0 : nat) (J : Z) (o : obs) (b : vec) (m : Z) : R :=
  if (m <? 0)%Z then 0 else if (m <? J)%Z then F (cutoff k0 b m - index k0 o b) else 1.
Definition ordered_prob (F : R -> R) (k0 : nat) (J : Z) (o : obs) (b : vec) : R :=
  at_most F k0 J o b (o_y o) - at_most F k0 J o b (o_y o - 1).
Definition ordered_data (J : Z) (l : list obs) : Prop := forall o, In o l -> (0 <= o_y o <= J)%Z.
(** The logarithm of the likelihood of the data. *)
Fixpoint log_lik (P : obs -> vec -> R) (l : list obs) (b : vec) : R :=
  match l with [] => 0 | o :: t => o_w o * ln (P o b) + log_lik P t b end.
(** Partial derivatives. *)
Definition set (b : vec) (j : nat) (t : R) : vec := fun i => if (i =? j)%nat then t else b i.
Definition partial (f : vec -> R) (b : vec) (j : nat) (d : R) : Prop := derivable_pt_lim (fun t => f (set b j t)) (b j) d.
Fixpoint total (l : list R) : R := match l with [] => 0 | x :: t => x + total t end.
