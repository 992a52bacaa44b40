(** Specification of correlations. *)
From Coq Require Export Reals Qreals.
From Verif Require Export CorSpec DescRealModel.
Local Open Scope R_scope.

(** The correlation coefficient of pairs; it is defined if both variables vary. *)
Definition rho (P : list (Qc * Qc)) : R := real (codev P) / (sqrt (real (dev 2 (xs P))) * sqrt (real (dev 2 (ys P)))).
Definition varies (l : list Qc) : Prop := exists x y, In x l /\ In y l /\ x <> y.
Definition variesb (l : list Qc) : bool := existsb (fun x => existsb (fun y => negb (qeqb x y)) l) l.
Definition cor_spec (P : list (Qc * Qc)) : option R := if variesb (xs P) && variesb (ys P) then Some (rho P) else None.
(** NaN if one of the two columns has a NaN. *)
Definition cor_no_nan (M : mat (option Qc)) (j k : Z) : option R :=
  if existsb is_nan (col_values M j) || existsb is_nan (col_values M k) then None else cor_spec (complete_pairs M j k).
(** As [cor_spec], but 1 if neither variable varies. *)
Definition cor_or_one (P : list (Qc * Qc)) : option R := if variesb (xs P) || variesb (ys P) then cor_spec P else Some 1.
