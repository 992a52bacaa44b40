(** Specification for standardization and principal components: words of linear algebra and statistics. *)
From Verif Require Export DcModel.
Local Open Scope R_scope.

Definition dot (n : nat) (a b : vec) : R := sumr n (fun i => a i * b i).
Definition col (A : mtx) (j : nat) : vec := fun i => A i j.
Definition delta (a b : nat) : R := if (a =? b)%nat then 1 else 0.
(** The vectors e 0, ..., e (m - 1) are perpendicular and of length one. *)
Definition orthonormal (n m : nat) (e : nat -> vec) : Prop := forall a b, (a < m)%nat -> (b < m)%nat -> dot n (e a) (e b) = delta a b.
(** X = U diag (s) vt, the thin singular value decomposition. *)
Definition svd_of (n k : nat) (X : mtx) (s : vec) (vt : mtx) : Prop :=
  let m := Nat.min n k in
  (forall l, (l < m)%nat -> 0 <= s l) /\ (forall l, (S l < m)%nat -> s (S l) <= s l) /\ orthonormal k m vt /\
  exists U, orthonormal n m (col U) /\
    forall i j, (i < n)%nat -> (j < k)%nat -> X i j = sumr m (fun l => U i l * s l * vt l j).
(** The contract of LAPACK's dgesvd. *)
Definition svd_sound (svd : nat -> nat -> mtx -> option (vec * mtx)) : Prop :=
  forall n k X s vt, svd n k X = Some (s, vt) -> svd_of n k X s vt.

(** Sample moments of n numbers. *)
Definition mean (n : nat) (a : vec) : R := sumr n a / INR n.
Definition cov (n : nat) (a b : vec) : R := sumr n (fun i => (a i - mean n a) * (b i - mean n b)) / INR (n - 1).
Definition variance (n : nat) (a : vec) : R := cov n a a.
Definition constant (n : nat) (a : vec) : Prop := forall i j, (i < n)%nat -> (j < n)%nat -> a i = a j.
(** The score of every row: a combination of its k elements with weights w. *)
Definition combination (k : nat) (X : mtx) (w : vec) : vec := fun i => sumr k (fun j => X i j * w j).
