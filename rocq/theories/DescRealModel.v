(** Model of the skewness of /repo/src/ldt_statistics/statistics/descriptive.cpp:93-155 (MeanVarianceKurtosisSkewness);
    the sums of powers are those of DescModel, square roots are exact. A zero sum of squares (NaN) is not modelled. *)
From Coq Require Export Reals Qreals.
From Verif Require Export DescModel.
Local Open Scope R_scope.

Definition real (q : Qc) : R := Q2R (this q).
(** descriptive.cpp:138-143 *)
Definition skew_formula (sample : bool) (n : Z) (m2 m3 : R) : R :=
  if sample then IZR n * m3 * sqrt (m2 / IZR (n - 1)) / (m2 * m2 * IZR (n - 2)) * IZR (n - 1)
  else sqrt (IZR n) * m3 / Rpower m2 (15 / 10).
Definition skewness (sample : bool) (l : list Qc) : res (option R) :=
  match l with
  | [] => Ok None
  | _ => do a <- mvks_loop l 0 (Sums 0%Qc 0%Qc 0%Qc 0%Qc);
         let n := Z.of_nat (length l) in
         Ok (if (2 <? n)%Z then Some (skew_formula sample n (real (d_m2 a)) (real (d_m3 a))) else None)
  end.
