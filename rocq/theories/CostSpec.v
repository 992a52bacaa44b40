(** Specification of frequency costs. *)
From Verif Require Export MatSpec.
Local Open Scope Qc_scope.

(** The first column of a table has the upper bounds of the brackets, the next ones the costs of classes
    0, 1, ... *)
Definition bound (c : mat Qc) (r : Z) : Qc := el c r 0.
Definition cost_at (c : mat Qc) (r k : Z) : Qc := el c r (k + 1).
(** Row [r] is the bracket of probability [p]: the first one with a bound that is not below it. *)
Definition bracket (c : mat Qc) (p : Qc) (r : Z) : Prop :=
  (0 <= r < nrows c)%Z /\ p <= bound c r /\ forall r', (0 <= r' < r)%Z -> bound c r' < p.
(** A table for a number of classes: two or more rows, a column of costs for each class, bounds in [0,1] in
    increasing order. *)
Definition valid_table (classes : Z) (c : mat Qc) : Prop :=
  (2 <= nrows c)%Z /\ ncols c = (classes + 1)%Z /\
  (forall r, (0 <= r < nrows c)%Z -> 0 <= bound c r <= 1) /\ forall a b, (0 <= a < b)%Z -> (b < nrows c)%Z -> bound c a < bound c b.
(** The labels of the observations (None: missing), the probability of the label of observation i. *)
Definition label (labels : list (option Z)) (i : Z) : option Z := nth (Z.to_nat i) labels None.
Definition weight_of (ws : option (list Qc)) (i : Z) : Qc := match ws with Some l => vel l i | None => 1 end.
(** Sums over the observations that have a label. *)
Definition over_cases (labels : list (option Z)) (f : Z -> Z -> Qc) : Qc :=
  qsum (map (fun i => match label labels i with Some k => f i k | None => 0 end) (upto (Z.of_nat (length labels)))).
