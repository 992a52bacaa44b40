(** Model of /repo/src/ldt_statistics/statistics/statistics.cpp (Rank, Ols, Gls) and of Matrix::Sort,
    matrix.cpp:837-857. Exact arithmetic; no NaN. Negative dimensions do not occur. *)
From Verif Require Export SortModel MatModel MatDotModel DataModel.
Local Open Scope Z_scope.

(** ** Matrix::Sort *)
(** std::sort with < or std::greater; a stable sort, equal numbers are the same. *)
Definition sort_col (asc : bool) (l : list Qc) : list Qc := stable_sort (fun a b => if asc then qltb a b else qltb b a) l.
(** matrix.cpp:847-855 the loop over the columns. *)
Fixpoint sort_cols (asc : bool) (js : list Z) (S : mat Qc) : res (mat Qc) :=
  match js with
  | [] => Ok S
  | j :: t =>
      do c <- rmap (fun k => get0 S k j) (zrange 0 (nrows S));
      do S' <- mwrites S (map (fun k => (pos S k j, rd (sort_col asc c) k)) (zrange 0 (nrows S)));
      sort_cols asc t S'
  end.
(** matrix.cpp:838-857 *)
Definition mat_sort (asc : bool) (M S : mat Qc) : res (mat Qc) :=
  if negb (ncols S =? ncols M) || negb (nrows S =? nrows M) then Throw
  else do S1 <- copy_to00 M S; sort_cols asc (zrange 0 (ncols M)) S1.

(** ** Rank *)
(** statistics.cpp:58-64 the search in the sorted column. *)
Fixpoint find_eq (v : Qc) (sorted : list Qc) (r : Z) (ks : list Z) : res (option Z) :=
  match ks with
  | [] => Ok None
  | k :: t => do w <- rd sorted (r + k); if qeqb w v then Ok (Some k) else find_eq v sorted r t
  end.
(** statistics.cpp:51-66 the loops over columns and rows; an element which is not found is left as it is. *)
Fixpoint rank_loop (n : Z) (M sorted : mat Qc) (ij : list (Z * Z)) (d : list Qc) : res (list Qc) :=
  match ij with
  | [] => Ok d
  | (j, i) :: t =>
      do v <- rd (data M) (j * n + i); do k <- find_eq v (data sorted) (j * n) (zrange 0 n);
      do d' <- match k with Some k => wr d (j * n + i) (qz k) | None => Ok d end;
      rank_loop n M sorted t d'
  end.
(** statistics.cpp:21-66: the declared dimensions, the matrix, the arrays; the result is Result. *)
Definition rank (drows dcols : Z) (M : mat Qc) (work storage : list Qc) (asc : bool) : res (mat Qc) :=
  if drows * dcols <? mlength M then Throw
  else do S <- mat_sort asc M (Mat (rows M) (cols M) work);
       do d <- rank_loop (nrows M) M S (list_prod (zrange 0 (ncols M)) (zrange 0 (nrows M))) storage;
       Ok (Mat (rows M) (cols M) d).

(** ** Ols and Gls *)
(** matrix_la.cpp:107-195 the products without size checks. *)
Definition dot00 (M B S : mat Qc) : res (mat Qc) :=
  let m := nrows M in let n := ncols B in let k := ncols M in in_mat S (gemm false false m n k 1 (data M) m (data B) k 0 (data S) m).
Definition dot_tr00 (M B S : mat Qc) : res (mat Qc) :=
  let m := nrows M in let n := nrows B in let k := ncols M in in_mat S (gemm false true m n k 1 (data M) m (data B) n 0 (data S) m).
Definition tr_dot00 (M B S : mat Qc) : res (mat Qc) :=
  let m := ncols M in let n := ncols B in let k := nrows M in in_mat S (gemm true false m n k 1 (data M) k (data B) k 0 (data S) m).
(** matrix.cpp:1943-1946 Subtract0; here the storage is [B] itself. *)
Definition subtract_from (M B : mat Qc) : res (mat Qc) := vmap M B (fun k x => do y <- rd (data B) k; Ok (x - y)%Qc).
(** matrix_la.cpp:563-600 Inv00: dgetrf and dgetri in place; [lapack] gives the storage they leave and info. *)
Definition inv00 (lapack : mat Qc -> list Qc * Z) (M : mat Qc) : res (mat Qc) :=
  let (d, info) := lapack M in if info =? 0 then Ok (with_data M d) else Throw.

(** statistics.cpp:72-90 and 146-167: the declared N, m, k and what is asked for. *)
Record ols_decl := OD { o_N : Z; o_m : Z; o_k : Z; o_resid : bool; o_sigma : bool; o_inv : bool }.
Definition with_resid (d : ols_decl) : bool := o_sigma d || o_resid d.
Definition fit_storage (d : ols_decl) : Z :=
  o_k d * o_m d + (if with_resid d then o_N d * o_m d else 0) + (if o_sigma d then o_m d * o_m d else 0).
Definition ols_work (d : ols_decl) : Z := 2 * o_k d * o_k d + o_k d * o_N d.
Definition gls_work (d : ols_decl) : Z :=
  let invs := if o_inv d then o_k d else o_N d in invs * invs + o_k d * o_k d + 2 * o_k d * o_N d.
(** The array from place p. The work array is divided into the blocks of the code; blocks do not overlap. *)
Definition from (p : Z) (d : list Qc) : list Qc := skipn (Z.to_nat p) d.
(** Beta, Resid and Sigma (statistics.h:160-176), each with the part of the storage from its place. *)
Record fit := Fit { f_beta : mat Qc; f_resid : option (mat Qc); f_sigma : option (mat Qc) }.
(** statistics.cpp:131-145, 217-231 the residuals and their products. *)
Definition fit_rest (d : ols_decl) (y x beta : mat Qc) (storage : list Qc) : res fit :=
  let N := nrows y in let m := ncols y in let k := ncols x in
  if with_resid d then
    do R <- dot00 x beta (Mat (rows y) (cols y) (from (k * m) storage));
    do R <- subtract_from y R;
    if o_sigma d then do S <- tr_dot R R (Mat (cols y) (cols y) (from (k * m + N * m) storage)) 1 0; Ok (Fit beta (Some R) (Some S))
    else Ok (Fit beta (Some R) None)
  else Ok (Fit beta None None).
(** statistics.cpp:92-145 Ols::Calculate. A work array shorter than the blocks the code uses is UB. *)
Definition ols_calculate (lapack : mat Qc -> list Qc * Z) (d : ols_decl) (y x : mat Qc) (storage work : list Qc) : res fit :=
  let N := nrows y in let m := ncols y in let k := ncols x in
  if negb (nrows x =? N) then Throw else if N <? k then Throw
  else let need := OD N m k (with_resid d) (o_sigma d) false in
    if (ols_work need <? ols_work d) || (fit_storage need <? fit_storage d) then Throw
    else if Z.of_nat (length work) <? ols_work need then UB
    else
      do xx <- tr_dot00 x x (Mat (cols x) (cols x) work);
      do xx <- inv00 lapack xx;
      do xxx <- dot_tr00 xx x (Mat (cols x) (rows y) (from (2 * k * k) work));
      do beta <- dot00 xxx y (Mat (cols x) (cols y) storage);
      fit_rest d y x beta storage.
(** statistics.cpp:169-231 Gls::Calculate; omega is inverted in place unless it is declared as an inverse. The sizes are
    compared with those of an object without that declaration. *)
Definition gls_calculate (lapack : mat Qc -> list Qc * Z) (d : ols_decl) (y x omega : mat Qc) (storage work : list Qc) : res fit :=
  let N := nrows y in let m := ncols y in let k := ncols x in
  if negb (nrows x =? N) then Throw else if N <? k then Throw
  else let need := OD N m k (with_resid d) (o_sigma d) false in
    if (gls_work need <? gls_work d) || (fit_storage need <? fit_storage d) then Throw
    else let invs := if o_inv d then k else N in
    if Z.of_nat (length work) <? gls_work (OD N m k (with_resid d) (o_sigma d) (o_inv d)) then UB
    else
      do om <- (if o_inv d then Ok omega else inv00 lapack omega);
      do xo <- tr_dot00 x om (Mat (cols x) (rows y) (from (invs * invs) work));
      do xox <- dot xo x (Mat (cols x) (cols x) (from (invs * invs + k * N) work)) 1 0;
      do xox <- inv00 lapack xox;
      do xoxxo <- dot xox xo (Mat (cols x) (rows y) (from (invs * invs + k * N + k * k) work)) 1 0;
      do beta <- dot00 xoxxo y (Mat (cols x) (cols y) storage);
      fit_rest d y x beta storage.
