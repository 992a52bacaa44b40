(** Specification of the response of a VARMA model to errors, and of the variances of its forecasts. *)
From Verif Require Export ForecastSpec.
Local Open Scope Z_scope.

(** The only error is that of variable b at time 0, with the value 1. *)
Definition impulse (b : Z) : Z -> series := fun a t => if (a =? b) && (t =? 0) then 1%Qc else 0%Qc.
(** [psi t a b] is the response of variable a at time t to a unit error of variable b at time 0, for times t < n: before time 0 all variables are zero; from then on the
    differences [dif] of the variables satisfy the equations of the model, with coefficients [coef a] in the equation of a, without exogenous variables. *)
Definition responses (g nx : Z) (ar ma : list Z) (dif : series -> series) (coef : Z -> Z -> Qc) (n : Z) (psi : Z -> Z -> Z -> Qc) : Prop :=
  (forall t a b, t < 0 -> psi t a b = 0%Qc) /\
  forall t a b, 0 <= t < n -> 0 <= a < g -> 0 <= b < g ->
    let w i := dif (fun s => psi s i b) in
    w a t = (varma_equation g nx ar ma (coef a) w (fun _ _ => 0%Qc) (impulse b) t + impulse b a t)%Qc.
(** sum over errors b and b' of x_b s(b, b') x_b': the variance of the sum of x_b times error b, if s are their covariances *)
Definition quadratic (g : Z) (s : Z -> Z -> Qc) (x : Z -> Qc) : Qc := qsum (map (fun b => qsum (map (fun b' => x b * s b b' * x b')%Qc (upto g))) (upto g)).
(** The errors of the forecast for step h (1, 2, ...) are those of the times 1, ..., h: their variance. *)
Definition error_variance (g : Z) (s : Z -> Z -> Qc) (psi : Z -> Z -> Z -> Qc) (a h : Z) : Qc := qsum (map (fun t => quadratic g s (psi t a)) (upto h)).
(** The paths of a VARMA model in times from t0 + 1 to t0 + n: data [y], exogenous variables [x], errors [e]. *)
Definition follows (g nx : Z) (ar ma : list Z) (dif : series -> series) (coef : Z -> Z -> Qc) (t0 n : Z) (y x e : Z -> series) : Prop :=
  forall t a, t0 < t <= t0 + n -> 0 <= a < g -> dif (y a) t = (varma_equation g nx ar ma (coef a) (fun i => dif (y i)) x e t + e a t)%Qc.
(** The error of the forecast for h steps, if [e] are the errors of the equations: the sum of the responses to the errors of the times t0 + 1, ..., t0 + h. *)
Definition forecast_error (g : Z) (psi : Z -> Z -> Z -> Qc) (e : Z -> series) (t0 a h : Z) : Qc :=
  qsum (map (fun k => qsum (map (fun b => psi k a b * e b (t0 + h - k)%Z)%Qc (upto g))) (upto h)).
(** Lags in increasing order, from 1. *)
Fixpoint ascending (l0 : Z) (l : list Z) : Prop := match l with [] => True | l1 :: t => l0 < l1 /\ ascending l1 t end.
