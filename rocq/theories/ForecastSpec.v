(** Specification of the forecasts of a VARMA model. *)
From Verif Require Export VarmaSpec.
Local Open Scope Z_scope.

(** Sum of coefficient * value over the lags and the variables: the coefficients of the first lag are a(s), a(s+1),
    ..., a(s+g-1), then come those of the second lag, ...; v b l is the value of variable b at lag l. *)
Fixpoint lag_terms (g : Z) (a : Z -> Qc) (s : Z) (lags : list Z) (v : Z -> Z -> Qc) : Qc :=
  match lags with
  | [] => 0%Qc
  | l :: t => (qsum (map (fun b => a (s + b)%Z * v b l)%Qc (upto g)) + lag_terms g a (s + g) t v)%Qc
  end.
(** The equation of a VARMA model with g variables and nx exogenous variables for one variable at time t: [a] are
    its coefficients, [w b] the (differenced) variable b, [x c] exogenous variable c, [e b] the error of variable b. *)
Definition varma_equation (g nx : Z) (ar ma : list Z) (a : Z -> Qc) (w x e : Z -> series) (t : Z) : Qc :=
  let n := Z.of_nat (length ar) * g in
  (lag_terms g a 0 ar (fun b l => w b (t - l)%Z) + qsum (map (fun c => a (n + c)%Z * x c t)%Qc (upto nx)) +
   lag_terms g a (n + nx) ma (fun b l => e b (t - l)%Z))%Qc.
