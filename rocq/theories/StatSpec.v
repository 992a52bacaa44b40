(** Specification of ranks and least squares. *)
From Verif Require Export MatSpec MPolySpec.
Local Open Scope Z_scope.

(** Column j of a matrix. *)
Definition col_of (M : mat Qc) (j : Z) : list Qc := map (fun i => el M i j) (upto (nrows M)).
(** The number of smaller (larger) values. *)
Definition smaller (x : Qc) (l : list Qc) : nat := length (filter (fun y => qltb y x) l).
Definition larger (x : Qc) (l : list Qc) : nat := length (filter (fun y => qltb x y) l).
Definition rank_of (asc : bool) (x : Qc) (l : list Qc) : Z := Z.of_nat (if asc then smaller x l else larger x l).
(** M is a matrix with r rows, c columns and the elements f. *)
Definition has (r c : nat) (f : Z -> Z -> Qc) (M : mat Qc) : Prop :=
  rows M = r /\ cols M = c /\ mat_ok M /\ forall i j, 0 <= i < Z.of_nat r -> 0 <= j < Z.of_nat c -> el M i j = f i j.
(** ** Least squares *)
Definition sum_to (n : Z) (f : Z -> Qc) : Qc := qsum (map f (upto n)).
(** g is the inverse of the n x n matrix a. *)
Definition inverse_of (n : Z) (a g : Z -> Z -> Qc) : Prop :=
  forall i j, 0 <= i < n -> 0 <= j < n -> product n a g i j = iden i j /\ product n g a i j = iden i j.
(** The contract of dgetrf and dgetri: info = 0 only if the storage has the inverse; info = 0 if there is one
    (the second is needed for the size n of the matrix that is inverted only). *)
Definition lapack_sound (lapack : mat Qc -> list Qc * Z) : Prop :=
  forall M d, mat_ok M -> nrows M = ncols M -> lapack M = (d, 0) -> length d = length (data M) /\ inverse_of (nrows M) (el M) (el (with_data M d)).
Definition lapack_complete (n : Z) (lapack : mat Qc -> list Qc * Z) : Prop :=
  forall M g, mat_ok M -> nrows M = n -> ncols M = n -> inverse_of n (el M) g -> snd (lapack M) = 0.
(** Residual at observation t of equation j with coefficients b (k explanatory variables). *)
Definition residual (k : Z) (y x b : Z -> Z -> Qc) (t j : Z) : Qc := (y t j - sum_to k (fun l => x t l * b l j))%Qc.
(** Sum of squared residuals, and the quadratic form with weights w. *)
Definition ssr (N k : Z) (y x b : Z -> Z -> Qc) (j : Z) : Qc := sum_to N (fun t => residual k y x b t j * residual k y x b t j)%Qc.
Definition wssr (N k : Z) (w y x b : Z -> Z -> Qc) (j : Z) : Qc :=
  sum_to N (fun t => sum_to N (fun s => residual k y x b t j * w t s * residual k y x b s j))%Qc.
Definition symmetric (n : Z) (w : Z -> Z -> Qc) : Prop := forall i j, 0 <= i < n -> 0 <= j < n -> w i j = w j i.
Definition psd (n : Z) (w : Z -> Z -> Qc) : Prop := forall v : Z -> Qc, (0 <= sum_to n (fun t => sum_to n (fun s => v t * w t s * v s)))%Qc.
