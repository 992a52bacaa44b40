(** Specification of polynomials: coefficient functions. *)
From Verif Require Export Base Num.
Local Open Scope Qc_scope.

Definition coef (a : list Qc) (k : nat) : Qc := nth k a 0.
(** Cauchy product and powers. *)
Definition conv (f g : nat -> Qc) (k : nat) : Qc := qsum (map (fun i => f i * g (k - i)%nat) (seq 0 (S k))).
Definition one (k : nat) : Qc := match k with O => 1 | _ => 0 end.
Fixpoint power (f : nat -> Qc) (n : nat) : nat -> Qc := match n with O => one | S n' => conv f (power f n') end.
(** The first [n] coefficients. *)
Definition truncated (n : nat) (f : nat -> Qc) : list Qc := map f (seq 0 n).
(** The value of a polynomial at x. *)
Fixpoint eval (a : list Qc) (x : Qc) : Qc := match a with [] => 0 | c :: t => c + x * eval t x end.
Fixpoint qpow (x : Qc) (n : nat) : Qc := match n with O => 1 | S n' => x * qpow x n' end.
