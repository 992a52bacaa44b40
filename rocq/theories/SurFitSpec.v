(** Specification of the goodness of fit. *)
From Verif Require Export SurSpec SurFitModel.
Local Open Scope Z_scope.

(** The mean of column j, the total sum of squares around the means, and the sum of squares of residuals e. *)
Definition mean_col (N : Z) (y : Z -> Z -> Qc) (j : Z) : Qc := (sum_to N (fun t => y t j) / qz N)%Qc.
Definition total_ss (N m : Z) (y : Z -> Z -> Qc) : Qc := sum_to m (fun j => sum_to N (fun t => (y t j - mean_col N y j) * (y t j - mean_col N y j)))%Qc.
Definition resid_ss (N m : Z) (e : Z -> Z -> Qc) : Qc := sum_to m (fun j => sum_to N (fun t => e t j * e t j))%Qc.
(** The coefficient of determination; not defined without variation. *)
Definition determination (N m : Z) (y e : Z -> Z -> Qc) : option Qc :=
  if qeqb (total_ss N m y) 0 then None else Some (1 - resid_ss N m e / total_ss N m y)%Qc.
(** The columns of x span the constant; every column of x1 is a combination of the columns of x2. *)
Definition spans_constant (N k : Z) (x : Z -> Z -> Qc) : Prop := exists c, forall t, 0 <= t < N -> sum_to k (fun i => x t i * c i)%Qc = 1%Qc.
Definition nested (N k1 k2 : Z) (x1 x2 : Z -> Z -> Qc) : Prop :=
  exists c, forall t i, 0 <= t < N -> 0 <= i < k1 -> x1 t i = sum_to k2 (fun l => x2 t l * c l i)%Qc.
(** The F statistic of a regression with an intercept: explained variation by k - 1 variables per equation over the rest. *)
Definition f_textbook (N m k : Z) (tss rss : Qc) : Qc := ((tss - rss) / qz (m * (k - 1)) / (rss / qz (m * (N - k))))%Qc.
