(** Model of the log-likelihood and the information criteria of /repo/src/ldt_statistics/modeling/linear/sur.cpp, in real
    arithmetic (c_ln_2Pi is ln (2 pi)). *)
From Coq Require Export Reals Qreals.
From Verif Require Export SurFitModel DescRealModel.
Local Open Scope R_scope.

(** sur.cpp:71-92 logL; std::log of zero or of a negative number is not a number (None). *)
Definition log_lik (N m : Z) (det : Qc) : option R :=
  if qltb 0 det then Some (- / 2 * IZR N * (IZR m * ln (2 * PI) + ln (real det)) - / 2 * IZR m * IZR N) else None.
(** sur.cpp:94-100; std::log (std::log (1)) is infinite: N = 1 is not modelled for Hqic. *)
Definition aic (ll : R) (k : Z) : R := 2 * IZR k - 2 * ll.
Definition sic (ll : R) (N k : Z) : R := ln (IZR N) * IZR k - 2 * ll.
Definition hqic (ll : R) (N k : Z) : R := ln (ln (IZR N)) * 2 * IZR k - 2 * ll.
(** sur.cpp:143-145, 429: what is reported for an estimation: the number of all coefficients is used. *)
Record criteria := Criteria { i_ll : R; i_aic : R; i_sic : R; i_hqic : R }.
Definition criteria_of (y x : mat Qc) (u : sur) : option criteria :=
  let N := nrows y in let m := ncols y in let km := (ncols x * m)%Z in
  match log_lik N m (u_det u) with Some ll => Some (Criteria ll (aic ll km) (sic ll N km) (hqic ll N km)) | None => None end.
