(** Specification of matrices: only dimensions and storage of the model are used. *)
From Verif Require Export Base Num MatModel.
Local Open Scope Z_scope.

Definition inside {A} (M : mat A) (i j : Z) : Prop := 0 <= i < nrows M /\ 0 <= j < ncols M.
Definition insideb {A} (M : mat A) (i j : Z) : bool := (0 <=? i) && (i <? nrows M) && (0 <=? j) && (j <? ncols M).
(** The element in row i and column j (both from 0); elements are stored column after column. *)
Definition entry {A} (M : mat A) (i j : Z) : option A :=
  if insideb M i j then nth_error (data M) (Z.to_nat (j * nrows M + i)) else None.
(** The storage has a place for every element. *)
Definition mat_ok {A} (M : mat A) : Prop := (rows M * cols M <= length (data M))%nat.
(** [M'] is [M] with the elements [f]; the dimensions and the storage behind the matrix are kept. *)
Record becomes {A} (M : mat A) (f : Z -> Z -> option A) (M' : mat A) : Prop := {
  bc_rows : rows M' = rows M;
  bc_cols : cols M' = cols M;
  bc_length : length (data M') = length (data M);
  bc_entry : forall i j, inside M i j -> entry M' i j = f i j;
  bc_behind : forall k, (rows M * cols M <= k)%nat -> nth_error (data M') k = nth_error (data M) k }.
Definition in_block (r c nr nc i j : Z) : bool := (r <=? i) && (i <? r + nr) && (c <=? j) && (j <? c + nc).

(** Number of row (column) k in the Kronecker product: quotient and remainder. *)
Definition kron_entry (a b : Z -> Z -> option Qc) (p q : Z) (i j : Z) : option Qc :=
  match a (i / p) (j / q), b (i mod p) (j mod q) with Some x, Some y => Some (x * y)%Qc | _, _ => None end.
Definition identity (h : Z) (i j : Z) : option Qc :=
  if (0 <=? i) && (i <? h) && (0 <=? j) && (j <? h) then Some (if i =? j then 1%Qc else 0%Qc) else None.

(** The columns of a matrix. *)
Definition column {A} (M : mat A) (j : nat) : list A := firstn (rows M) (skipn (j * rows M) (data M)).
Definition columns {A} (M : mat A) : list (list A) := map (column M) (seq 0 (cols M)).

(** ** Products. Elements outside the matrix count as 0 (never used). *)
Definition upto (n : Z) : list Z := map Z.of_nat (seq 0 (Z.to_nat n)).
Definition el (M : mat Qc) (i j : Z) : Qc := match entry M i j with Some v => v | None => 0%Qc end.
Definition el_t (M : mat Qc) (i j : Z) : Qc := el M j i.
(** Element of a symmetric matrix of which only the upper (lower) triangle is given. *)
Definition el_sym (upper : bool) (M : mat Qc) (i j : Z) : Qc :=
  if Bool.eqb upper (i <=? j) then el M i j else el M j i.
Definition product (n : Z) (a b : Z -> Z -> Qc) (i j : Z) : Qc := qsum (map (fun l => a i l * b l j)%Qc (upto n)).
(** alpha * product + beta * old value *)
Definition scaled (alpha beta : Qc) (p : Z -> Z -> Qc) (S : mat Qc) (i j : Z) : option Qc := Some (alpha * p i j + beta * el S i j)%Qc.
(** Element-wise operation. *)
Definition omap2 {A B C} (f : A -> B -> C) (a : option A) (b : option B) : option C :=
  match a, b with Some x, Some y => Some (f x y) | _, _ => None end.
(** Element k of a vector. *)
Definition vel (d : list Qc) (k : Z) : Qc := nth (Z.to_nat k) d 0%Qc.
(** Rows in which neither of the columns i and j has a NaN (None). *)
Definition opel (M : mat (option Qc)) (i j : Z) : option Qc := match entry M i j with Some (Some v) => Some v | _ => None end.
Definition complete_pairs (M : mat (option Qc)) (i j : Z) : list (Qc * Qc) :=
  flat_map (fun k => match opel M k i, opel M k j with Some a, Some b => [(a, b)] | _, _ => [] end) (upto (nrows M)).
(** Element k of a list of row or column numbers. *)
Definition at_index (l : list Z) (k : Z) : Z := nth (Z.to_nat k) l (-1).
(** Elements s, s+1, ..., s+n-1 of the storage become v 0, v 1, ...; the others are kept. *)
Definition filled {A} (d d' : list A) (s n : Z) (v : Z -> option A) : Prop :=
  length d' = length d /\ forall k, nth_error d' k = if (s <=? Z.of_nat k) && (Z.of_nat k <? s + n) then v (Z.of_nat k - s) else nth_error d k.
(** An allowed pair of row and column. *)
Definition sym_pair (diag : bool) (n i j : Z) : Prop := 0 <= i < n /\ 0 <= j < n /\ (diag = true \/ i <> j).
Definition omult (a b : option Qc) : option Qc := match a, b with Some x, Some y => Some (x * y)%Qc | _, _ => None end.
(** Upper triangle updated; the lower one copied from it or kept. *)
Definition sym_result (alpha beta : Qc) (S : mat Qc) (lower : bool) (p : Z -> Z -> Qc) (i j : Z) : option Qc :=
  if i <=? j then scaled alpha beta p S i j else if lower then scaled alpha beta p S j i else entry S i j.
(** The columns (rows) asked for: the listed ones, or all that are not listed. *)
Definition selected {A} (M : mat A) (first_is_row exclude : bool) (idx : list Z) : list Z :=
  if exclude then filter (fun j => negb (existsb (Z.eqb j) idx)) (upto (if first_is_row then ncols M else nrows M)) else idx.
