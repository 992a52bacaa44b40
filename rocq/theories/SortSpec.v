(** Specification of sorting by index. *)
From Verif Require Export Base Num.
Local Open Scope nat_scope.

(** Position [i] comes before position [j]: smaller (larger) value, or equal values and i < j. *)
Definition comes_before (asc : bool) (v : list Qc) (i j : nat) : Prop :=
  (if asc then (nth i v 0 < nth j v 0)%Qc else (nth j v 0 < nth i v 0)%Qc) \/ nth i v 0%Qc = nth j v 0%Qc /\ i < j.
Definition sorted_positions (asc : bool) (v : list Qc) (r : list nat) : Prop :=
  Permutation r (seq 0 (length v)) /\ StronglySorted (comes_before asc v) r.
