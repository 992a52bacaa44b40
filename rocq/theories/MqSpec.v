(** Specification of comparisons, interpolation, sorting, fills and triangles of matrices. *)
From Verif Require Export MatSpec DataSpec.
Local Open Scope Z_scope.

(** A value (None is NaN) counts as equal to [b]: NaNs are skipped, or both are NaN and may be, or they are at most eps apart. *)
Definition close (b : option Qc) (eps : Qc) (nans ignore : bool) (a : option Qc) : Prop :=
  match a, b with
  | Some x, Some y => (y - x <= eps /\ x - y <= eps)%Qc
  | None, None => nans = true \/ ignore = true
  | _, _ => ignore = true
  end.
(** The pairs of row and column of a triangle of size n, row after row. *)
Definition triangle (diag : bool) (n : nat) : list (nat * nat) :=
  filter (fun p => if diag then (fst p <=? snd p)%nat else (fst p <? snd p)%nat) (list_prod (seq 0 n) (seq 0 n)).
(** Rows of the result of sorting are rows [idx] of the source. *)
Definition rows_by {A} (M : mat A) (idx : list Z) (i j : Z) : option A := entry M (at_index idx i) j.
Definition columns_by {A} (M : mat A) (idx : list Z) (i j : Z) : option A := entry M i (at_index idx j).
(** The element for a pair in a list of pairs and elements. *)
Fixpoint element_for {A} (l : list (nat * nat * A)) (i j : Z) : option A :=
  match l with
  | [] => None
  | ((a, b), v) :: t => if (Z.of_nat a =? i) && (Z.of_nat b =? j) then Some v else element_for t i j
  end.
(** [S] with the elements [es] in the upper (row after row) and/or lower triangle. *)
Definition with_triangle {A} (S : mat A) (upper lower diag : bool) (es : list A) (i j : Z) : option A :=
  let l := combine (triangle diag (rows S)) es in
  match (if upper then element_for l i j else None) with
  | Some v => Some v
  | None => match (if lower then element_for l j i else None) with Some v => Some v | None => entry S i j end
  end.
(** [d] is row (column) [i]. [M] with row (column) [i] replaced. *)
Definition line_of (by_row : bool) (M : mat (option Qc)) (i : Z) (d : list (option Qc)) : Prop :=
  Z.of_nat (length d) = n_times by_row M /\ forall t, 0 <= t < n_times by_row M -> nth_error d (Z.to_nat t) = obs by_row M i t.
Definition with_line (by_row : bool) (M : mat (option Qc)) (i : Z) (d : list (option Qc)) (a b : Z) : option (option Qc) :=
  if by_row then if a =? i then nth_error d (Z.to_nat b) else entry M a b else if b =? i then nth_error d (Z.to_nat a) else entry M a b.
(** Which parts are filled: 0 both, 1 the upper one, otherwise the lower one. *)
Definition upper_part (up : Z) : bool := (up =? 0) || (up =? 1).
Definition lower_part (up : Z) : bool := negb (up =? 1).
