(** Specification of numerical derivatives. *)
From Coq Require Import Reals List.
From Coquelicot Require Import Coquelicot.
From Verif Require Import Base.
Local Open Scope R_scope.

(** the partial derivative of f at x *)
Definition partial (f : list R -> R) (x : list R) (i : nat) (d : R) : Prop := is_derive (fun t => f (upd i t x)) (nth i x 0) d.
(** the second partial derivative: the derivative in direction i of the partial derivative in direction j *)
Definition partial2 (f : list R -> R) (x : list R) (i j : nat) (d : R) : Prop :=
  exists g : R -> R, (forall t, partial f (upd i t x) j (g t)) /\ is_derive g (nth i x 0) d.
(** a polynomial of degree D (or less) *)
Definition polynomial (D : nat) (p : R -> R) : Prop := exists a : nat -> R, forall h, p h = sum_f_R0 (fun k => a k * h ^ k) D.
(** a polynomial of total degree D (or less) in two variables *)
Definition polynomial2 (D : nat) (p : R -> R -> R) : Prop :=
  exists c : nat -> nat -> R, (forall a b, (D < a + b)%nat -> c a b = 0) /\ forall u v, p u v = sum_f_R0 (fun a => sum_f_R0 (fun b => c a b * u ^ a * v ^ b) D) D.
(** f around x in direction i, in directions i and j *)
Definition along (f : list R -> R) (x : list R) (i : nat) (h : R) : R := f (upd i (nth i x 0 + h) x).
Definition around (f : list R -> R) (x : list R) (i j : nat) (u v : R) : R := f (upd j (nth j x 0 + v) (upd i (nth i x 0 + u) x)).
(** The quotients for steps of length h (h in direction i, k in direction j) *)
Definition central (f : list R -> R) (x : list R) (i : nat) (h : R) : R := (along f x i h - along f x i (- h)) / (2 * h).
Definition central2 (f : list R -> R) (x : list R) (i j : nat) (h k : R) : R :=
  if Nat.eqb i j then (along f x i (2 * h) - 2 * f x + along f x i (- 2 * h)) / (4 * h ^ 2)
  else (around f x i j h k - around f x i j h (- k) - around f x i j (- h) k + around f x i j (- h) (- k)) / (4 * h * k).
(** none of the quotients is taken for zero (or all of them are zero) *)
Definition not_cut (m : nat) (q : nat -> R) : Prop := (forall c, (c < m)%nat -> 1 / 10 ^ 16 < Rabs (q c)) \/ forall c, (c < m)%nat -> q c = 0.
(** the lengths of the steps *)
Definition step1 (step0 step1 eps v : R) : R := if Rlt_dec (Rabs v) eps then step0 / 2 else step1 / 2 * Rabs v.
Definition step2 (step0 step1 v : R) : R := if Rlt_dec (Rabs v) 1 then 2 * step0 else 2 * step1 * Rabs v.
(** The product of (T^c + 1) / (T^c - 1) for c = 1, ..., k *)
Fixpoint amplification (T : R) (k : nat) : R := match k with O => 1 | S k => amplification T k * ((T ^ S k + 1) / (T ^ S k - 1)) end.
(** f can be derived twice in direction i around x; d is the second derivative at x *)
Definition twice (f : list R -> R) (x : list R) (i : nat) (d : R) : Prop :=
  exists (r : R) (g : R -> R), 0 < r /\ (forall h, Rabs h < r -> is_derive (along f x i) h (g h)) /\ is_derive g 0 d.
(** f can be derived in direction i and then in direction j around x, the derivative is continuous at x and d is its value *)
Definition mixed (f : list R -> R) (x : list R) (i j : nat) (d : R) : Prop :=
  exists (r : R) (g1 g2 : R -> R -> R), 0 < r /\
    (forall u v, Rabs u < r -> Rabs v < r -> is_derive (fun u => around f x i j u v) u (g1 u v) /\ is_derive (fun v => g1 u v) v (g2 u v)) /\
    g2 0 0 = d /\ forall eps, 0 < eps -> exists delta, 0 < delta /\ forall u v, Rabs u < delta -> Rabs v < delta -> Rabs (g2 u v - d) < eps.
