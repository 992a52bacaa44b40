(** Specification of distributions given by 103 quantiles. *)
From Verif Require Import OptModel EmpModel.
Local Open Scope Qc_scope.

(** The probabilities of the quantiles: 0.0001, 0.001, 0.01, 0.02, ..., 0.99, 0.999, 0.9999 *)
Definition ends : list Qc := map Q2Qc [1 # 10000; 1 # 1000]%Q.
Definition probabilities : list Qc := ends ++ map (fun k => Q2Qc (Z.of_nat k # 100)) (seq 1 99) ++ map (fun q => 1 - q) (rev ends).
(** the quantile, the probability with number i *)
Definition quantile_no (t : list Qc) (i : nat) : Qc := nth i t 0.
Definition probability_no (i : nat) : Qc := nth i probabilities 0.
(** 103 strictly increasing quantiles *)
Definition table (t : list Qc) : Prop := length t = 103%nat /\ forall i j, (i < j < 103)%nat -> quantile_no t i < quantile_no t j.
(** The point at [x] of the straight line through (x0, y0) and (x1, y1) *)
Definition line (x0 y0 x1 y1 x : Qc) : Qc := y0 + (y1 - y0) * (x - x0) / (x1 - x0).
(** The weighted sum of the distribution functions at a point is a *)
Definition mixture_cdf (ts : list (list Qc)) (ws : list Qc) (x a : Qc) : Prop :=
  exists cs, Forall2 (fun t c => cdf_approx t (Fin x) = Ok (Some c)) ts cs /\ a = qsum (map2 Qcmult ws cs).
