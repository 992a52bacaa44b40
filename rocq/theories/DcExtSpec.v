(** Specification for DiscreteChoiceExtended. *)
From Verif Require Export DcExtModel DcCalcSpec.
Local Open Scope Z_scope.

(** Blocks one after another, without overlap, in [from, stop). *)
Fixpoint apart (bs : list block) (from stop : Z) : Prop :=
  match bs with [] => from <= stop | b :: t => from <= b_pos b /\ 0 <= b_len b /\ apart t (b_pos b + b_len b) stop end.
Definition exo (cols : Z) (weight : bool) : Z := cols - (if weight then 2 else 1).
(** A row has no missing value. *)
Definition complete (r : list fl) : Prop := forall v, In v r -> v <> None.
(** Mean of the squares (y - p)^2 with weights w. *)
Definition brier_score (obs : list (Qc * Qc * Qc)) : Qc :=
  (qsum (map (fun '(w, y, p) => w * ((y - p) * (y - p))) obs) / qsum (map (fun '(w, _, _) => w) obs))%Qc.
(** The linear predictor: each value times its coefficient. *)
Definition predictor (coef row : list Qc) : Qc := qsum (map (fun '(b, x) => x * b)%Qc (combine coef row)).
