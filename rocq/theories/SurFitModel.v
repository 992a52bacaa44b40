(** Model of the goodness of fit in /repo/src/ldt_statistics/modeling/linear/sur.cpp. [None] is NaN or infinite (a division by
    zero); arithmetic is exact. *)
From Verif Require Export SurModel ColModel CorModel.
Local Open Scope Z_scope.

(** sur.cpp:40-58 R2 *)
Definition fit_r2 (y resid : mat Qc) : res (option Qc) :=
  do vars <- columns_variances (with_nan y) (Mat (cols y) 1 (repeat None (cols y))) false false;
  do s2y <- rmap (fun i => do v <- rd (data vars) i; Ok (v *f Some (qz (nrows y)))) (zrange 0 (ncols y));
  do s2r <- rmap (fun i => do e <- rd (data resid) i; Ok (e * e)%Qc) (zrange 0 (mlength resid));
  Ok (Some 1%Qc -f (Some (qsum s2r) /f fsum s2y)).
(** sur.cpp:60-69 F: the statistic and its degrees of freedom; the probability is NaN for a negative statistic, else
    [1 - cdf d1 d2 f]. *)
Record fstat := FS { f_value : option Qc; f_d1 : Z; f_d2 : Z; f_prob : option Qc }.
Definition fit_f (cdf : Z -> Z -> Qc -> Qc) (r2 : option Qc) (N m qstar : Z) : fstat :=
  let d1 := m * (N - 1) in let d2 := m * N - qstar in
  let f := (r2 /f Some (qz d1)) /f ((Some 1%Qc -f r2) /f Some (qz d2)) in
  FS f d1 d2 (match f with Some v => if qltb v 0 then None else Some (1 - cdf d1 d2 v)%Qc | None => None end).
(** sur.cpp:141-142: what calculate_details reports, with the number of all coefficients. *)
Record fit := Fit { g_r2 : option Qc; g_f : fstat }.
Definition fit_of (cdf : Z -> Z -> Qc -> Qc) (y x : mat Qc) (s : est) : res fit :=
  do r <- fit_r2 y (s_resid s); Ok (Fit r (fit_f cdf r (nrows y) (ncols y) (ncols x * ncols y))).
