(** Specification of VARMA orders, differences and restrictions. *)
From Verif Require Export PolySpec MatSpec.
Local Open Scope Z_scope.

(** [l] is a lag of a model with non-seasonal order p and seasonal order P, with s seasons. *)
Definition is_lag (p P s l : Z) : Prop := 1 <= l <= p \/ exists k, 1 <= k <= P /\ l = s * k.
(** Seasons: fewer than two are none. *)
Definition seasons (s : Z) : Z := if s <? 2 then 0 else s.
(** A valid specification (p,d,q)x(P,D,Q)_s. *)
Definition valid_spec (p d q P D Q s : Z) : Prop :=
  0 <= p /\ 0 <= d /\ 0 <= q /\ 0 <= P /\ 0 <= D /\ 0 <= Q /\ (s < 2 -> P = 0 /\ D = 0 /\ Q = 0) /\ ~ (p = 0 /\ q = 0 /\ P = 0 /\ Q = 0).

(** Differences of a series. *)
Definition series := Z -> Qc.
Definition diff_by (s : Z) (f : series) : series := fun t => (f t - f (t - s)%Z)%Qc.
Fixpoint diff_times (n : nat) (s : Z) (f : series) : series := match n with O => f | S k => diff_by s (diff_times k s f) end.
(** Lag polynomial applied to a series: c_0 f(t) + c_1 f(t-1) + ... *)
Fixpoint lag_sum (c : list Qc) (f : series) (t : Z) : Qc := match c with [] => 0%Qc | x :: r => (x * f t + lag_sum r f (t - 1)%Z)%Qc end.

(** A parameter that is not in the list of restricted ones; the free ones in order. *)
Definition free_params (n : Z) (idx : list Z) : list Z := filter (fun i => if in_dec Z.eq_dec i idx then false else true) (upto n).
(** The restricted parameter vector: element i of R * gamma. *)
Definition restricted_value (R : mat Qc) (gamma : Z -> Qc) (i : Z) : Qc := qsum (map (fun j => el R i j * gamma j)%Qc (upto (ncols R))).
