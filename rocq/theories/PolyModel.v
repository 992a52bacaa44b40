(** Model of /repo/src/ldt_math/polynomials/polynomial.cpp. The coefficients are rationals (Polynomial<Tv>) or
    integers among them (Polynomial<Ti>, without overflow); the lengths of the caller's arrays are given by the
    arrays; a write outside of them is UB. maxLength is positive. *)
From Verif Require Export MatModel.
Local Open Scope Qc_scope.

(** Coefficients, from degree 0. GetDegree (polynomial.cpp:43-45) is the length minus 1. *)
Definition poly := list Qc.
Definition degree (a : poly) : Z := Z.of_nat (length a) - 1.
(** polynomial.cpp:25-31 the loop: [j] is the number of coefficients kept. *)
Fixpoint trim_len (d : list Qc) (j : nat) : res nat :=
  match j with O => Ok O | S j' => do v <- rd d (Z.of_nat j'); if qeqb v 0 then trim_len d j' else Ok j end.
(** polynomial.cpp:22-37 Data *)
Definition poly_data (d : list Qc) (trim : bool) : res poly :=
  if trim then do j <- trim_len d (length d); if (j =? 0)%nat then Throw else Ok (firstn j d) else Ok d.

(** polynomial.cpp:54-57 the size of the storage of a product. *)
Definition mul_size (da db max : Z) : Z := Z.min (da + db + 1) max.
(** matrix.cpp SetData(value, ...): the first [n] elements are set. *)
Fixpoint fill (v : Qc) (n : nat) (d : list Qc) : res (list Qc) :=
  match n with O => Ok d | S n' => match d with [] => UB | _ :: t => do t' <- fill v n' t; Ok (v :: t') end end.
(** polynomial.cpp:73-79 the loops; [ps] are the pairs (i, j). *)
Fixpoint mul_loop (a b : poly) (n : Z) (ps : list (Z * Z)) (d : list Qc) : res (list Qc) :=
  match ps with
  | [] => Ok d
  | (i, j) :: t =>
      if (i + j <? n)%Z then
        do s <- rd d (i + j); do x <- rd a i; do y <- rd b j;
        do d' <- wr d (i + j) (s + x * y); mul_loop a b n t d'
      else mul_loop a b n t d
  end.
Definition pairs (m n : Z) : list (Z * Z) := flat_map (fun i => map (fun j => (i, j)) (zrange 0 n)) (zrange 0 m).
(** polynomial.cpp:60-80 PolynomialMultiply::Calculate: [size] is the StorageSize of the object; the content of
    the storage afterwards and the length of the result. *)
Definition mul_calc (size : Z) (a b : poly) (storage : list Qc) (max : Z) : res (list Qc * Z) :=
  let n := mul_size (degree a) (degree b) max in
  if (size <? n)%Z then Throw
  else do d <- fill 0 (Z.to_nat n) storage;
       do d' <- mul_loop a b n (pairs (degree a + 1) (degree b + 1)) d; Ok (d', n).
(** Constructor with the degrees of the polynomials, then Calculate; Result. *)
Definition poly_mul (a b : poly) (storage : list Qc) (max : Z) : res poly :=
  do r <- mul_calc (mul_size (degree a) (degree b) max) a b storage max; Ok (firstn (Z.to_nat (snd r)) (fst r)).

(** polynomial.cpp:88-93 the sizes of the storage and the work array of a power. *)
Definition pow_size (power da max : Z) : Z := Z.min (power * da + 1) max.
Definition pow_work (power da max : Z) : Z := mul_size da (pow_size power da max - 1) max.
(** polynomial.cpp:119-122 the loop; [k] products are left. [res] is the storage of which the first [n] elements are
    the result. *)
Fixpoint pow_loop (a : poly) (n : Z) (k : nat) (max : Z) (d work : list Qc) : res (list Qc) :=
  match k with
  | O => Ok d
  | S k' =>
      do r <- mul_calc (mul_size (degree a) (n - 1) max) a (firstn (Z.to_nat n) d) work max;
      do d' <- writes (map (fun i => (i, rd (fst r) i)) (zrange 0 n)) d;
      pow_loop a n k' max d' (fst r)
  end.
(** polynomial.cpp:96-123 PolynomialPower::Calculate ([size], [wsize]: StorageSize and WorkSize of the object). *)
Definition pow_calc (size wsize : Z) (a : poly) (power : nat) (storage work : list Qc) (max : Z) : res poly :=
  let p := Z.of_nat power in
  let n := pow_size p (degree a) max in
  if ((size <? n) || (wsize <? pow_work p (degree a) max))%Z then Throw
  else do d <- fill 0 (Z.to_nat n) storage;
  do d' <- (match power with
    | O => wr d 0 1
    | S k => do d1 <- writes (map (fun i => (i, rd a i)) (zrange 0 (Z.of_nat (length a)))) d;
             pow_loop a n k max d1 work
    end);
  Ok (firstn (Z.to_nat n) d').
Definition poly_pow (a : poly) (power : nat) (storage work : list Qc) (max : Z) : res poly :=
  let p := Z.of_nat power in pow_calc (pow_size p (degree a) max) (pow_work p (degree a) max) a power storage work max.
