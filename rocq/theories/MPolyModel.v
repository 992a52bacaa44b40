(** Model of /repo/src/ldt_math/polynomials/mpolynomial.cpp: polynomials whose coefficients are square matrices.
    The coefficients of a result are consecutive blocks of one storage array: a matrix with Data = &storage[k*m*m]
    is the rest of the array from there on. The storage does not overlap the coefficients of the arguments. *)
From Verif Require Export PolyModel MatDotModel.
Local Open Scope Z_scope.

Definition mpoly := list (mat Qc).
(** mpolynomial.cpp:54-58 GetDegree, GetSize. *)
Definition mdegree (a : mpoly) : Z := Z.of_nat (length a) - 1.
Definition msize (a : mpoly) : res nat := match a with [] => Throw | A :: _ => Ok (rows A) end.
(** matrix.cpp:305-353 EqualsValue of a matrix without NaN: no element differs by more than epsilon. *)
Definition qabs_diff (x y : Qc) : Qc := if qltb x y then (y - x)%Qc else (x - y)%Qc.
Fixpoint equals_value (d : list Qc) (ks : list Z) (b eps : Qc) : res bool :=
  match ks with [] => Ok true | k :: t => do x <- rd d k; if qltb eps (qabs_diff b x) then Ok false else equals_value d t b eps end.
(** mpolynomial.cpp:29-44 Data(vector, trim) of a new object. *)
Fixpoint mtrim_len (a : mpoly) (j : nat) : res nat :=
  match j with
  | O => Ok O
  | S j' => match nth_error a j' with
            | None => Throw
            | Some A => do z <- equals_value (data A) (zrange 0 (mlength A)) 0 0; if z then mtrim_len a j' else Ok j
            end
  end.
Definition mpoly_data (a : mpoly) (trim : bool) : res mpoly :=
  do j <- (if trim then mtrim_len a (length a) else Ok (length a)); if (j =? 0)%nat then Throw else Ok (firstn j a).
(** matrix.cpp:1637-1663 IsDiagonal. *)
Fixpoint all_close (M : mat Qc) (cells : list (Z * Z)) (v eps : Qc) : res bool :=
  match cells with [] => Ok true | (i, j) :: t => do x <- get0 M i j; if qltb eps (qabs_diff v x) then Ok false else all_close M t v eps end.
Definition is_diagonal (M : mat Qc) (diag off eps : Qc) : res bool :=
  if negb (nrows M =? ncols M) then Throw
  else do d <- all_close M (map (fun i => (i, i)) (zrange 0 (nrows M))) diag eps;
       if negb d then Ok false
       else all_close M (filter (fun ij => negb (fst ij =? snd ij)) (list_prod (zrange 0 (nrows M)) (zrange 0 (nrows M)))) off eps.
(** mpolynomial.cpp:60-62 IsMonic; the default epsilon is 1e-8 (matrix.h:935). *)
Definition monic_eps : Qc := Q2Qc (1 # 100000000).
Definition is_monic (a : mpoly) : res bool :=
  match nth_error a (Z.to_nat (mdegree a)) with Some M => is_diagonal M 1 0 monic_eps | None => Throw end.

(** Block k of a storage: mpolynomial.cpp:46-53; and the storage after a write to the block. *)
Definition block (m : nat) (st : list Qc) (k : nat) : mat Qc := Mat m m (skipn (k * (m * m)) st).
Definition put (m : nat) (st : list Qc) (k : nat) (M : mat Qc) : list Qc := firstn (k * (m * m)) st ++ data M.
(** matrix.cpp:952-955 SetValue. *)
Definition set_value (M : mat Qc) (v : Qc) : res (mat Qc) := do d <- fill v (rows M * cols M) (data M); Ok (with_data M d).
Fixpoint zero_blocks (m : nat) (refs : list nat) (st : list Qc) : res (list Qc) :=
  match refs with [] => Ok st | k :: t => do M <- set_value (block m st k) 0; zero_blocks m t (put m st k M) end.

(** ** Multiplication *)
(** mpolynomial.cpp:68-72 the size of the storage, in blocks. *)
Definition mmul_len (d1 d2 max : Z) : Z := Z.min (d1 + d2 + 1) max.
(** mpolynomial.cpp:93-100,124-131 the loops. [refs] are the blocks of Result.Coefficients; [step i j S] is the
    operation on the pair (i, j) with the target S. *)
Fixpoint mmul_loop (m : nat) (step : nat -> nat -> mat Qc -> res (mat Qc)) (refs : list nat) (len : Z) (ps : list (nat * nat)) (st : list Qc) : res (list Qc) :=
  match ps with
  | [] => Ok st
  | (i, j) :: t =>
      if Z.of_nat i + Z.of_nat j <? len then
        match nth_error refs (i + j) with
        | None => Throw
        | Some k => do S <- step i j (block m st k); mmul_loop m step refs len t (put m st k S)
        end
      else mmul_loop m step refs len t st
  end.
Definition nat_pairs (m n : nat) : list (nat * nat) := flat_map (fun i => map (fun j => (i, j)) (seq 0 n)) (seq 0 m).
(** mpolynomial.cpp:74-101 and 103-132 Calculate: [size] is the StorageSize of the object, [refs0] are the blocks its
    Result has from previous calls (with this storage): Data appends (mpolynomial.cpp:50-52). *)
Definition mmul_calc (size : Z) (refs0 : list nat) (a : mpoly) (lb : nat) (step : nat -> nat -> mat Qc -> res (mat Qc)) (st : list Qc) (max : Z) : res (list nat * list Qc) :=
  do m <- msize a;
  let len := mmul_len (mdegree a) (Z.of_nat lb - 1) max in
  if size <? len * Z.of_nat (m * m) then Throw
  else let refs := refs0 ++ seq 0 (Z.to_nat len) in
  do st1 <- zero_blocks m refs st;
  do st2 <- mmul_loop m step refs len (nat_pairs (length a) lb) st1; Ok (refs, st2).
Definition at_coef (a : mpoly) (i : nat) : res (mat Qc) := match nth_error a i with Some A => Ok A | None => Throw end.
Definition mm_step (a b : mpoly) (i j : nat) (S : mat Qc) : res (mat Qc) := do A <- at_coef a i; do B <- at_coef b j; dot A B S 1 1.
Definition ms_step (a : mpoly) (b : poly) (i j : nat) (S : mat Qc) : res (mat Qc) := do A <- at_coef a i; do v <- rd b (Z.of_nat j); multiply_scalar A v S 1.
Definition mm_calc size refs0 a b st max := mmul_calc size refs0 a (length b) (mm_step a b) st max.
Definition ms_calc size refs0 a b st max := mmul_calc size refs0 a (length b) (ms_step a b) st max.
(** The coefficients of the result. *)
Definition mresult (m : nat) (r : list nat * list Qc) : mpoly := map (block m (snd r)) (fst r).

(** ** Inversion *)
(** matrix.cpp:2335-2356, matrix_la.cpp:563-600 Inv: a copy, then dgetrf and dgetri. [lapack A d] gives the storage and
    info they leave; info is returned, no exception is thrown. *)
Definition inv (lapack : mat Qc -> list Qc -> list Qc * Z) (A S : mat Qc) : res (mat Qc * Z) :=
  if negb (nrows A =? ncols A) then Throw
  else if negb (nrows A =? nrows S) || negb (ncols A =? ncols S) then Throw
  else let (d, info) := lapack A (data S) in Ok (with_data S d, info).
(** mpolynomial.cpp:166-171 the loop over the coefficients: block i-1 of work becomes - inv0 * A_i. *)
Fixpoint neg_loop (m : nat) (inv0 : mat Qc) (a : mpoly) (is : list nat) (w : list Qc) : res (list Qc) :=
  match is with
  | [] => Ok w
  | i :: t => do A <- at_coef a i; do X <- dot inv0 A (block m w (i - 1)) (-(1))%Qc 0; neg_loop m inv0 a t (put m w (i - 1) X)
  end.
(** matrix.cpp:2062-2067 Add_in0. *)
Definition add_in (M B : mat Qc) : res (mat Qc) := vmap M M (fun k x => do y <- rd (data B) k; Ok (x + y)%Qc).
(** mpolynomial.cpp:177-183 the inner loop for [s]; [js] are the values of j. *)
Fixpoint inv_inner (m deg s : nat) (refs : list nat) (js : list nat) (st w : list Qc) : res (list Qc * list Qc) :=
  match js with
  | [] => Ok (st, w)
  | j :: t =>
      if (s <? j)%nat then Ok (st, w)
      else match nth_error refs (s - j), nth_error refs s with
      | Some kj, Some ks =>
          do X <- dot (block m w (j - 1)) (block m st kj) (block m w deg) 1 0;
          let w' := put m w deg X in
          do R <- add_in (block m st ks) (block m w' deg); inv_inner m deg s refs t (put m st ks R) w'
      | _, _ => Throw
      end
  end.
(** mpolynomial.cpp:175-184 the outer loop. *)
Fixpoint inv_outer (m deg : nat) (refs : list nat) (ss : list nat) (st w : list Qc) : res (list Qc * list Qc) :=
  match ss with
  | [] => Ok (st, w)
  | s :: t =>
      match nth_error refs s with
      | None => Throw
      | Some ks => do M <- set_value (block m st ks) 0;
                   do '(st', w') <- inv_inner m deg s refs (seq 1 deg) (put m st ks M) w; inv_outer m deg refs t st' w'
      end
  end.
(** mpolynomial.cpp:146-186 Calculate ([size], [wsize]: StorageSize, WorkSize of the object; [refs0] as above). *)
Definition minv_calc (lapack : mat Qc -> list Qc -> list Qc * Z) (size wsize : Z) (refs0 : list nat) (a : mpoly) (st w : list Qc) (max : nat) : res (list nat * list Qc) :=
  match a with
  | [] => Throw
  | A0 :: _ =>
      let m := rows A0 in let deg := (length a - 1)%nat in let mm := Z.of_nat (m * m) in
      if (size <? Z.of_nat max * mm) || (wsize <? Z.of_nat (deg + 1) * mm) then Throw
      else let refs := refs0 ++ seq 0 max in
      match nth_error refs 0 with
      | None => Throw
      | Some k0 =>
          do '(X0, _) <- inv lapack A0 (block m st k0);
          let st0 := put m st k0 X0 in
          do w1 <- neg_loop m (block m st0 k0) a (seq 1 deg) w;
          do '(st', _) <- inv_outer m deg refs (seq 1 (max - 1)) st0 w1; Ok (refs, st')
      end
  end.
(** Constructor with the size and degree of the polynomial, then Calculate; Result. *)
Definition minv (lapack : mat Qc -> list Qc -> list Qc * Z) (a : mpoly) (st w : list Qc) (max : nat) : res (list nat * list Qc) :=
  do m <- msize a;
  minv_calc lapack (Z.of_nat max * Z.of_nat (m * m)) (Z.of_nat (length a) * Z.of_nat (m * m)) [] a st w max.
