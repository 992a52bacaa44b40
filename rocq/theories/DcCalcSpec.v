(** Specification for the checks, counts and buffers of discrete choice models. *)
From Verif Require Export DcCalcModel.
Local Open Scope Z_scope.

(** The weights of the rows; 1 if there are none. *)
Definition row_weights (ys : list Qc) (w : option (list Qc)) : list Qc := match w with Some ws => ws | None => map (fun _ => 1%Qc) ys end.
(** The weight of the rows with choice j. *)
Definition weight_of (ys ws : list Qc) (j : Z) : Qc :=
  qsum (map snd (filter (fun yw => qeqb (fst yw) (qz j)) (combine ys ws))).
(** Every value is one of the choices 0, ..., J. *)
Definition choices_upto (J : Z) (ys : list Qc) : Prop := forall y, In y ys -> exists j, 0 <= j <= J /\ y = qz j.
(** Blocks that follow one another from 0 and end at the given position. *)
Fixpoint in_a_row (bs : list block) (from stop : Z) : Prop :=
  match bs with [] => from <= stop | b :: t => b_pos b = from /\ 0 <= b_len b /\ in_a_row t (from + b_len b) stop end.
Definition fits (bs : list block) (size : Z) : Prop := in_a_row bs 0 size.
(** A choice that is not chosen is rejected; ordered models also reject choices of a tiny total weight. *)
Definition enough (t : choice_model) (q : Qc) : Prop := match t with Binary => q <> 0%Qc | Ordered => ~ (q < tiny)%Qc end.
(** A choice model can have the given number of choices. *)
Definition possible (t : choice_model) (c : Z) : Prop := match t with Binary => c = 2 | Ordered => 3 <= c end.
(** Weights, if any, are one for each row. *)
Definition weights_match (ys : list Qc) (w : option (list Qc)) : Prop := forall ws, w = Some ws -> length ws = length ys.
