(** Model of the products and element-wise operations of /repo/src/matrix/matrix.cpp:1897-2269 and
    matrix_la.cpp:38-225,241-389 for Matrix<double>. The reference contracts of the BLAS routines the
    code calls are modelled ([gemm], [gemv], [syrk], [symm], [dotp]); the arithmetic is exact. BLAS
    reports a wrong leading dimension through XERBLA: Throw. *)
From Verif Require Export MatModel.
Local Open Scope Z_scope.

(** ** BLAS *)
Fixpoint rsum (l : list (res Qc)) : res Qc :=
  match l with [] => Ok 0%Qc | x :: t => do v <- x; do s <- rsum t; Ok (v + s)%Qc end.
Definition dotk (k : Z) (a b : Z -> res Qc) : res Qc := rsum (map (fun l => times (a l) (b l)) (zrange 0 k)).
(** A[i,l] of a matrix stored with leading dimension ld, or of its transpose. *)
Definition op (tr : bool) (d : list Qc) (ld : Z) (i l : Z) : res Qc := if tr then rd d (l + ld * i) else rd d (i + ld * l).
(** c := alpha * val + beta * c on the elements (i, j) of [cells]. *)
Definition update_cells (cells : list (Z * Z)) (alpha beta : Qc) (val : Z -> Z -> res Qc) (c : list Qc) (ldc : Z) : res (list Qc) :=
  writes (map (fun ij => (fst ij + ldc * snd ij,
    do s <- val (fst ij) (snd ij); do o <- rd c (fst ij + ldc * snd ij); Ok (alpha * s + beta * o)%Qc)) cells) c.
Definition cells (m n : Z) : list (Z * Z) := list_prod (zrange 0 m) (zrange 0 n).
Definition bad_ld (ld n : Z) : bool := ld <? Z.max 1 n.
(** dgemm: C := alpha * op(A) * op(B) + beta * C, op(A) m x k, op(B) k x n. *)
Definition gemm (ta tb : bool) (m n k : Z) (alpha : Qc) (a : list Qc) (lda : Z) (b : list Qc) (ldb : Z) (beta : Qc) (c : list Qc) (ldc : Z) : res (list Qc) :=
  if bad_ld lda (if ta then k else m) || bad_ld ldb (if tb then n else k) || bad_ld ldc m then Throw
  else update_cells (cells m n) alpha beta (fun i j => dotk k (fun l => op ta a lda i l) (fun l => op tb b ldb l j)) c ldc.
(** dgemv with unit increments: y := alpha * op(A) * x + beta * y, A m x n. *)
Definition gemv (ta : bool) (m n : Z) (alpha : Qc) (a : list Qc) (lda : Z) (x : list Qc) (beta : Qc) (y : list Qc) : res (list Qc) :=
  if bad_ld lda m then Throw
  else update_cells (cells (if ta then n else m) 1) alpha beta
         (fun i _ => dotk (if ta then m else n) (fun l => op ta a lda i l) (fun l => rd x l)) y 0.
(** dsyrk, upper triangle: C := alpha * op(A) * op(A)' + beta * C, op(A) n x k. *)
Definition syrk (ta : bool) (n k : Z) (alpha : Qc) (a : list Qc) (lda : Z) (beta : Qc) (c : list Qc) (ldc : Z) : res (list Qc) :=
  if bad_ld lda (if ta then k else n) || bad_ld ldc n then Throw
  else update_cells (filter (fun ij => fst ij <=? snd ij) (cells n n)) alpha beta
         (fun i j => dotk k (fun l => op ta a lda i l) (fun l => op ta a lda j l)) c ldc.
(** dsymm: C := alpha * A * B + beta * C (left) or alpha * B * A + beta * C, A symmetric of which one
    triangle is read. *)
Definition sym_el (upper : bool) (a : list Qc) (lda : Z) (i j : Z) : res Qc :=
  if Bool.eqb upper (i <=? j) then rd a (i + lda * j) else rd a (j + lda * i).
Definition symm (left upper : bool) (m n : Z) (alpha : Qc) (a : list Qc) (lda : Z) (b : list Qc) (ldb : Z) (beta : Qc) (c : list Qc) (ldc : Z) : res (list Qc) :=
  if bad_ld lda (if left then m else n) || bad_ld ldb m || bad_ld ldc m then Throw
  else update_cells (cells m n) alpha beta
         (fun i j => if left then dotk m (fun l => sym_el upper a lda i l) (fun l => rd b (l + ldb * j))
                     else dotk n (fun l => rd b (i + ldb * l)) (fun l => sym_el upper a lda l j)) c ldc.
(** ddot with unit increments. *)
Definition dotp (n : Z) (x y : list Qc) : res Qc := dotk n (fun l => rd x l) (fun l => rd y l).

Definition in_mat (S : mat Qc) (r : res (list Qc)) : res (mat Qc) := do d <- r; Ok (with_data S d).

(** ** Products *)
(** matrix.cpp:160-170 IsVector, IsSquare. *)
Definition is_vector {A} (M : mat A) : bool := ncols M =? 1.
Definition is_square {A} (M : mat A) : bool := nrows M =? ncols M.
(** matrix.cpp:2112-2120, matrix_la.cpp:38-53 VectorDotVector. *)
Definition vector_dot_vector (M B : mat Qc) : res Qc :=
  if negb (is_vector M) then Throw else if negb (mlength B =? mlength M) then Throw
  else dotp (mlength M) (data M) (data B).
(** matrix.cpp:2122-2152, matrix_la.cpp:55-103 DotVector, tDotVector. *)
Definition dot_vector (M B S : mat Qc) (alpha beta : Qc) : res (mat Qc) :=
  if negb (is_vector B) then Throw else if negb (is_vector S) then Throw
  else if negb (ncols M =? nrows B) then Throw else if negb (nrows M =? nrows S) then Throw
  else in_mat S (gemv false (nrows M) (ncols M) alpha (data M) (nrows M) (data B) beta (data S)).
Definition t_dot_vector (M B S : mat Qc) (alpha beta : Qc) : res (mat Qc) :=
  if negb (is_vector B) then Throw else if negb (is_vector S) then Throw
  else if negb (nrows M =? nrows B) then Throw else if negb (ncols M =? nrows S) then Throw
  else in_mat S (gemv true (nrows M) (ncols M) alpha (data M) (nrows M) (data B) beta (data S)).
(** matrix.cpp:2154-2163, matrix_la.cpp:105-134 Dot. *)
Definition dot (M B S : mat Qc) (alpha beta : Qc) : res (mat Qc) :=
  if negb (ncols M =? nrows B) then Throw
  else if negb (nrows M =? nrows S) || negb (ncols B =? ncols S) then Throw
  else let m := nrows M in let n := ncols B in let k := ncols M in
       in_mat S (gemm false false m n k alpha (data M) m (data B) k beta (data S) m).
(** matrix.cpp:2165-2174, matrix_la.cpp:136-165 DotTr. *)
Definition dot_tr (M B S : mat Qc) (alpha beta : Qc) : res (mat Qc) :=
  if negb (ncols M =? ncols B) then Throw
  else if negb (nrows M =? nrows S) || negb (nrows B =? ncols S) then Throw
  else let m := nrows M in let n := nrows B in let k := ncols M in
       in_mat S (gemm false true m n k alpha (data M) m (data B) n beta (data S) m).
(** matrix.cpp:2176-2185, matrix_la.cpp:167-195 TrDot. *)
Definition tr_dot (M B S : mat Qc) (alpha beta : Qc) : res (mat Qc) :=
  if negb (nrows M =? nrows B) then Throw
  else if negb (ncols M =? nrows S) || negb (ncols B =? ncols S) then Throw
  else let m := ncols M in let n := ncols B in let k := nrows M in
       in_mat S (gemm true false m n k alpha (data M) k (data B) k beta (data S) m).
(** matrix.cpp:2187-2196, matrix_la.cpp:197-225 TrDotTr. *)
Definition tr_dot_tr (M B S : mat Qc) (alpha beta : Qc) : res (mat Qc) :=
  if negb (nrows M =? ncols B) then Throw
  else if negb (ncols M =? nrows S) || negb (nrows B =? ncols S) then Throw
  else let m := ncols M in let n := nrows B in let k := nrows M in
       in_mat S (gemm true true m n k alpha (data M) k (data B) n beta (data S) m).
(** matrix_la.cpp:264-271,297-304: the lower part is set from the upper one. Cells above the diagonal
    are not changed by the loop, so all reads are of the storage before it. *)
Definition set_lower (n : Z) (S : mat Qc) : res (mat Qc) :=
  mwrites S (map (fun ij => (pos S (fst ij) (snd ij), get0 S (snd ij) (fst ij))) (filter (fun ij => negb (fst ij <=? snd ij)) (cells n n))).
(** matrix.cpp:2216-2230, matrix_la.cpp:241-305 Dot_AAt, Dot_AtA. *)
Definition dot_aat (M S : mat Qc) (lower : bool) (alpha beta : Qc) : res (mat Qc) :=
  if negb (nrows S =? nrows M) || negb (ncols S =? nrows M) then Throw
  else do S1 <- in_mat S (syrk false (nrows M) (ncols M) alpha (data M) (nrows M) beta (data S) (nrows M));
       if lower then set_lower (nrows M) S1 else Ok S1.
Definition dot_ata (M S : mat Qc) (lower : bool) (alpha beta : Qc) : res (mat Qc) :=
  if negb (nrows S =? ncols M) || negb (ncols S =? ncols M) then Throw
  else do S1 <- in_mat S (syrk true (ncols M) (nrows M) alpha (data M) (nrows M) beta (data S) (ncols M));
       if lower then set_lower (ncols M) S1 else Ok S1.
(** matrix.cpp:2243-2269, matrix_la.cpp:340-389 SymDot, DotSym. *)
Definition sym_dot (M B S : mat Qc) (upper : bool) (alpha beta : Qc) : res (mat Qc) :=
  if negb (is_square M) then Throw else if negb (ncols M =? nrows B) then Throw
  else if negb (nrows M =? nrows S) || negb (ncols B =? ncols S) then Throw
  else in_mat S (symm true upper (nrows M) (ncols B) alpha (data M) (nrows M) (data B) (ncols M) beta (data S) (nrows M)).
Definition dot_sym (M B S : mat Qc) (upper : bool) (alpha beta : Qc) : res (mat Qc) :=
  if negb (is_square B) then Throw else if negb (ncols M =? nrows B) then Throw
  else if negb (nrows M =? nrows S) || negb (ncols B =? ncols S) then Throw
  else in_mat S (symm false (negb upper) (nrows S) (ncols S) alpha (data B) (ncols S) (data M) (nrows S) beta (data S) (nrows S)).

(** matrix.cpp:2232-2241, matrix_la.cpp:307-338 Dot_AtA_nan: sums and numbers of the pairs without NaN. *)
Definition pair_terms (M : mat (option Qc)) (i j : Z) : res (list Qc) :=
  fold_right (fun k acc => do t <- acc; do x <- rd (data M) (i * nrows M + k); do y <- rd (data M) (j * nrows M + k);
                match x, y with Some a, Some b => Ok ((a * b)%Qc :: t) | _, _ => Ok t end) (Ok []) (zrange 0 (nrows M)).
Definition dot_ata_nan_writes {A} (M : mat (option Qc)) (S : mat A) (val : list Qc -> A) (lower : bool) : list (Z * res A) :=
  flat_map (fun ij => let v := do t <- pair_terms M (fst ij) (snd ij); Ok (val t) in
     (pos S (snd ij) (fst ij), v) :: (if lower then [(pos S (fst ij) (snd ij), v)] else [])) (cells (ncols M) (ncols M)).
Definition dot_ata_nan (M : mat (option Qc)) (S C : mat Qc) (lower : bool) : res (mat Qc * mat Qc) :=
  if negb (nrows S =? ncols M) || negb (ncols S =? ncols M) then Throw
  else if negb (nrows C =? ncols M) || negb (ncols C =? ncols M) then Throw
  else do S' <- mwrites S (dot_ata_nan_writes M S qsum lower);
       do C' <- mwrites C (dot_ata_nan_writes M C (fun t => qn (length t)) lower); Ok (S', C').

(** ** Element-wise operations: matrix.cpp:1898-2106. [f] is the operation; division by zero (an
    infinity or NaN in the code) is not modelled. *)
Definition vmap (M S : mat Qc) (f : Z -> Qc -> res Qc) : res (mat Qc) :=
  mwrites S (map (fun k => (k, do x <- rd (data M) k; f k x)) (zrange 0 (mlength M))).
Definition same_size (M S : mat Qc) : bool := (nrows S =? nrows M) && (ncols S =? ncols M).
Definition ew_scalar (f : Qc -> Qc -> Qc) (M : mat Qc) (b : Qc) (S : mat Qc) : res (mat Qc) :=
  if negb (same_size M S) then Throw else vmap M S (fun _ x => Ok (f x b)).
Definition ew (f : Qc -> Qc -> Qc) (M B S : mat Qc) : res (mat Qc) :=
  if negb (same_size M S) then Throw else if negb (same_size M B) then Throw
  else vmap M S (fun k x => do y <- rd (data B) k; Ok (f x y)).
(** Multiply with beta. *)
Definition multiply_scalar (M : mat Qc) (b : Qc) (S : mat Qc) (beta : Qc) : res (mat Qc) :=
  if negb (same_size M S) then Throw
  else if qeqb beta 0 then vmap M S (fun _ x => Ok (x * b)%Qc)
  else vmap M S (fun k x => do o <- rd (data S) k; Ok (x * b + beta * o)%Qc).
Definition multiply (M B S : mat Qc) (beta : Qc) : res (mat Qc) :=
  if negb (same_size M S) then Throw else if negb (same_size M B) then Throw
  else if qeqb beta 0 then vmap M S (fun k x => do y <- rd (data B) k; Ok (x * y)%Qc)
  else vmap M S (fun k x => do y <- rd (data B) k; do o <- rd (data S) k; Ok (x * y + beta * o)%Qc).
(** In place: the element is read before it is written, so the reads are of the storage before the loop. *)
Definition ew_scalar_in (f : Qc -> Qc -> Qc) (M : mat Qc) (b : Qc) : res (mat Qc) := vmap M M (fun _ x => Ok (f x b)).
Definition ew_in (f : Qc -> Qc -> Qc) (M B : mat Qc) : res (mat Qc) :=
  if negb (same_size M B) then Throw else vmap M M (fun k x => do y <- rd (data B) k; Ok (f x y)).
