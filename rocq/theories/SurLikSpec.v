(** Specification of the Gaussian likelihood. *)
From Verif Require Export SurSpec SurLikModel.
Local Open Scope R_scope.

(** The logarithm of the density of a normal vector e with mean 0, inverse covariances W and determinant of the covariances det. *)
Definition log_density (m : Z) (W : Z -> Z -> Qc) (det : Qc) (e : Z -> Qc) : R :=
  - (IZR m / 2) * ln (2 * PI) - / 2 * ln (real det) - / 2 * real (sum_to m (fun i => sum_to m (fun j => W i j * (e i * e j)))%Qc).
Fixpoint r_sum (l : list R) : R := match l with [] => 0 | x :: t => x + r_sum t end.
(** ... of N independent ones. *)
Definition log_likelihood (N m : Z) (W : Z -> Z -> Qc) (det : Qc) (e : Z -> Z -> Qc) : R := r_sum (map (fun t => log_density m W det (e t)) (upto N)).
