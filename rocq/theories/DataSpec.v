(** Specification of data sets: complete rows and common windows of time series. *)
From Verif Require Export MatSpec.
Local Open Scope Z_scope.

(** The rows without an excluded value in the columns [cs], in order. *)
Definition complete_rows {A} (skip : A -> bool) (M : mat A) (cs : list Z) : list Z :=
  filter (fun i => forallb (fun j => match entry M i j with Some v => negb (skip v) | None => false end) cs) (upto (nrows M)).
(** [R] consists of the listed rows and columns of [M]. *)
Definition picks {A} (M : mat A) (rs cs : list Z) (R : mat A) : Prop :=
  nrows R = Z.of_nat (length rs) /\ ncols R = Z.of_nat (length cs) /\
  forall i j, inside R i j -> entry R i j = entry M (at_index rs i) (at_index cs j).

(** ** Time series: variables in the rows (or columns), time in the columns (rows) *)
Section Ts.
Context {A : Type}.
Definition n_vars (by_row : bool) (M : mat (option A)) : Z := if by_row then nrows M else ncols M.
Definition n_times (by_row : bool) (M : mat (option A)) : Z := if by_row then ncols M else nrows M.
Definition obs (by_row : bool) (M : mat (option A)) (i t : Z) : option (option A) := if by_row then entry M i t else entry M t i.
Definition known_at (by_row : bool) (M : mat (option A)) (i t : Z) : Prop := exists v, obs by_row M i t = Some (Some v).
(** Time t is neither before the first nor after the last known value of variable i. *)
Definition covered (by_row : bool) (M : mat (option A)) (i t : Z) : Prop :=
  exists a b, a <= t <= b /\ known_at by_row M i a /\ known_at by_row M i b.
(** A NaN between known values. *)
Definition has_gap (by_row : bool) (M : mat (option A)) (i : Z) : Prop := exists t, covered by_row M i t /\ ~ known_at by_row M i t.
End Ts.
