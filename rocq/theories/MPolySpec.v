(** Specification of matrix polynomials: coefficient k is a matrix, given by its elements. *)
From Verif Require Export MatSpec PolySpec.
Local Open Scope Z_scope.

Definition mcoef (a : list (mat Qc)) (k : nat) (i j : Z) : Qc := match nth_error a k with Some A => el A i j | None => 0%Qc end.
(** All coefficients are m x m. *)
Definition square_poly (m : nat) (a : list (mat Qc)) : Prop := Forall (fun A => mat_ok A /\ rows A = m /\ cols A = m) a.
(** Cauchy products: sum over the pairs of degrees; by matrices and by scalars. *)
Definition mconv (m : nat) (a b : nat -> Z -> Z -> Qc) (k : nat) (i j : Z) : Qc :=
  qsum (map (fun p => product (Z.of_nat m) (a p) (b (k - p)%nat) i j) (seq 0 (S k))).
Definition sconv (a : nat -> Z -> Z -> Qc) (b : nat -> Qc) (k : nat) (i j : Z) : Qc :=
  qsum (map (fun p => (a p i j * b (k - p)%nat)%Qc) (seq 0 (S k))).
Definition iden (i j : Z) : Qc := if i =? j then 1%Qc else 0%Qc.
(** The constant polynomial with the identity matrix. *)
Definition mone (k : nat) (i j : Z) : Qc := match k with O => iden i j | _ => 0%Qc end.
(** [r] has the coefficients [f] at degrees below n, and no others. *)
Definition has_coefs (m : nat) (r : list (mat Qc)) (n : nat) (f : nat -> Z -> Z -> Qc) : Prop :=
  length r = n /\ square_poly m r /\ forall k i j, (k < n)%nat -> 0 <= i < Z.of_nat m -> 0 <= j < Z.of_nat m -> mcoef r k i j = f k i j.
(** dgetrf and dgetri, called with a copy of A, leave the elements [g] in the m x m matrix they are given, whatever was
    there, and return [info]. *)
Definition lapack_leaves (lapack : mat Qc -> list Qc -> list Qc * Z) (m : nat) (A : mat Qc) (info : Z) (g : Z -> Z -> Qc) : Prop :=
  forall d, (m * m <= length d)%nat -> exists d', lapack A d = (d', info) /\ becomes (Mat m m d) (fun i j => Some (g i j)) (Mat m m d').
(** A g = I *)
Definition right_inverse (m : nat) (A : mat Qc) (g : Z -> Z -> Qc) : Prop :=
  forall i j, 0 <= i < Z.of_nat m -> 0 <= j < Z.of_nat m -> product (Z.of_nat m) (el A) g i j = iden i j.
(** All elements are zero. *)
Definition zero_mat (A : mat Qc) : Prop := forall i j, el A i j = 0%Qc.
