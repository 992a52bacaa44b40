(** Model of the statistics of /repo/src/matrix/matrix.cpp:2419-3195 for Matrix<double>. Elements are [option Qc]: [None]
    is NaN; infinite elements are not modelled; arithmetic is exact. 0/0 is NaN ([fdiv]); no other division by zero occurs.
    Standard deviations and correlations are in CorModel. *)
From Verif Require Export MomentsModel MatModel DataModel DescModel.
Local Open Scope Z_scope.

(** Data[s], ..., Data[s+n-1] as they are read. *)
Definition values {A} (M : mat A) (s n : Z) : res (list A) := rmap (fun k => rd (data M) k) (zrange s n).

(** ** Extremes: [DPInf] and [DNInf] are the infinities the loops start from. *)
(** matrix.cpp:2432-2435, 2446-2449, 2463-2468, 2481-2486 and the loops over a row or a column: the value and the place
    of the last replacement; [idx] is the place before. *)
Fixpoint ext_loop (bigger : bool) (l : list (option Qc)) (i : Z) (m : dbl) (idx : option Z) : dbl * option Z :=
  match l with
  | [] => (m, idx)
  | t :: r => if (if bigger then less m (dbl_of t) else less (dbl_of t) m) then ext_loop bigger r (i + 1) (dbl_of t) (Some i)
              else ext_loop bigger r (i + 1) m idx
  end.
Definition start_of (bigger : bool) : dbl := if bigger then DNInf else DPInf.
(** matrix.cpp:2421-2451 Maximum, Minimum. *)
Definition mat_extreme (bigger : bool) (M : mat (option Qc)) : res dbl :=
  do l <- values M 0 (mlength M); Ok (fst (ext_loop bigger l 0 (start_of bigger) None)).
(** matrix.cpp:2453-2489 max, min with the place; the place starts as 0. *)
Definition mat_extreme_at (bigger : bool) (M : mat (option Qc)) : res (dbl * (Z * Z)) :=
  do l <- values M 0 (mlength M);
  let (m, idx) := ext_loop bigger l 0 (start_of bigger) (Some 0) in
  do ij <- translate_index M (match idx with Some k => k | None => 0 end); Ok (m, ij).
(** matrix.cpp:2491-2575 MaximumInRow, MinimumInRow, MaximumInColumn, MinimumInColumn; the place is [None] if the
    argument is left as it was. *)
Definition row_extreme (bigger : bool) (M : mat (option Qc)) (i : Z) : res (dbl * option Z) :=
  do l <- rmap (fun j => rd (data M) (i + nrows M * j)) (zrange 0 (ncols M)); Ok (ext_loop bigger l 0 (start_of bigger) None).
Definition col_extreme (bigger : bool) (M : mat (option Qc)) (j : Z) : res (dbl * option Z) :=
  do l <- rmap (fun i => rd (data M) (nrows M * j + i)) (zrange 0 (nrows M)); Ok (ext_loop bigger l 0 (start_of bigger) None).

(** ** Sums and means *)
(** matrix.cpp:2578-2586 Trace, 2588-2593 Sum; [fsum] is a loop s += x from s = 0. *)
Definition fsum (l : list (option Qc)) : option Qc := fold_left fadd l (Some 0%Qc).
Definition trace (M : mat (option Qc)) : res (option Qc) :=
  if negb (nrows M =? ncols M) then Throw else do l <- rmap (fun i => get0 M i i) (zrange 0 (nrows M)); Ok (fsum l).
Definition mat_sum (M : mat (option Qc)) : res (option Qc) := do l <- values M 0 (mlength M); Ok (fsum l).
(** matrix.cpp:2604-2616 the loop of Mean which leaves out NaN; [i] counts all elements. *)
Fixpoint mean_nan (l : list (option Qc)) (i : Z) (me : Qc) : Qc :=
  match l with
  | [] => me
  | None :: t => mean_nan t (i + 1) me
  | Some d :: t => let diff := (d - me)%Qc in let s := (diff / qz (i + 1))%Qc in mean_nan t (i + 1) (me + s)%Qc
  end.
(** matrix.cpp:2617-2628 *)
Fixpoint mean_all (l : list (option Qc)) (i : Z) (me : option Qc) : option Qc :=
  match l with
  | [] => me
  | d :: t => let diff := d -f me in let s := diff /f Some (qz (i + 1)) in mean_all t (i + 1) (me +f s)
  end.
(** matrix.cpp:2595-2629 Mean *)
Definition mean_of (check : bool) (l : list (option Qc)) : option Qc :=
  match l with [] => None | [x] => x | _ => if check then Some (mean_nan l 0 0%Qc) else mean_all l 0 (Some 0%Qc) end.
Definition mat_mean (check : bool) (M : mat (option Qc)) : res (option Qc) := do l <- values M 0 (mlength M); Ok (mean_of check l).

(** ** Variances *)
(** matrix.cpp:2673-2689, 2757-2772 *)
Fixpoint var_nan (l : list (option Qc)) (j : Z) (me m2 : Qc) : Z * Qc * Qc :=
  match l with
  | [] => (j, me, m2)
  | None :: t => var_nan t j me m2
  | Some d :: t => let diff := (d - me)%Qc in let s := (diff / qz (j + 1))%Qc in var_nan t (j + 1) (me + s)%Qc (m2 + diff * s * qz j)%Qc
  end.
(** matrix.cpp:2690-2702, 2773-2786 *)
Fixpoint var_all (l : list (option Qc)) (i : Z) (me m2 : option Qc) : option Qc * option Qc :=
  match l with
  | [] => (me, m2)
  | d :: t => let diff := d -f me in let s := diff /f Some (qz (i + 1)) in var_all t (i + 1) (me +f s) (m2 +f diff *f s *f Some (qz i))
  end.
Definition nan_or_ratio (m2 : option Qc) (sample : bool) (n : Z) : option Qc := m2 /f Some (qz (if sample then n - 1 else n)).
(** matrix.cpp:2662-2706 Variance: me and the variance. *)
Definition variance_of (sample check : bool) (l : list (option Qc)) : option Qc * option Qc :=
  match l with
  | [] => (None, None)
  | [x] => (x, None)
  | _ => if check then let '(j, me, m2) := var_nan l 0 0%Qc 0%Qc in (Some me, nan_or_ratio (Some m2) sample j)
         else let '(me, m2) := var_all l 0 (Some 0%Qc) (Some 0%Qc) in (me, nan_or_ratio m2 sample (Z.of_nat (length l)))
  end.
Definition mat_variance (sample check : bool) (M : mat (option Qc)) : res (option Qc * option Qc) :=
  do l <- values M 0 (mlength M); Ok (variance_of sample check l).
(** matrix.cpp:2741-2796 VarianceColumn: me, count and the variance. The column number is not checked. *)
Definition variance_column (M : mat (option Qc)) (j : Z) (sample check : bool) : res (option Qc * Z * option Qc) :=
  if nrows M =? 0 then Ok (None, 0, None)
  else if nrows M =? 1 then do x <- get0 M 0 j; Ok (x, 1, None)
  else do l <- values M (nrows M * j) (nrows M);
    if check then let '(n, me, m2) := var_nan l 0 0%Qc 0%Qc in Ok (Some me, n, nan_or_ratio (Some m2) sample n)
    else let '(me, m2) := var_all l 0 (Some 0%Qc) (Some 0%Qc) in Ok (me, nrows M, nan_or_ratio m2 sample (nrows M)).

(** ** Covariances of two columns *)
(** matrix.cpp:2821-2839 *)
Fixpoint cov_nan (l : list (option Qc * option Qc)) (count : Z) (mean1 mean2 m2 : Qc) : Z * Qc * Qc * Qc :=
  match l with
  | [] => (count, mean1, mean2, m2)
  | (Some d1, Some d2) :: t =>
      let count := count + 1 in let dx := (d1 - mean1)%Qc in
      let mean1 := (mean1 + dx / qz count)%Qc in let mean2 := (mean2 + (d2 - mean2) / qz count)%Qc in
      cov_nan t count mean1 mean2 (m2 + dx * (d2 - mean2))%Qc
  | _ :: t => cov_nan t count mean1 mean2 m2
  end.
(** matrix.cpp:2840-2855 *)
Fixpoint cov_all (l : list (option Qc * option Qc)) (count : Z) (mean1 mean2 m2 : option Qc) : option Qc * option Qc * option Qc :=
  match l with
  | [] => (mean1, mean2, m2)
  | (d1, d2) :: t =>
      let count := count + 1 in let dx := d1 -f mean1 in
      let mean1 := mean1 +f dx /f Some (qz count) in let mean2 := mean2 +f (d2 -f mean2) /f Some (qz count) in
      cov_all t count mean1 mean2 (m2 +f dx *f (d2 -f mean2))
  end.
(** The two columns as they are read, col1[i] and col2[i]. (The code which leaves out NaN reads col2[i] only if col1[i]
    is not NaN; both columns are in the storage, see the check of j1 and j2.) *)
Definition two_columns (M : mat (option Qc)) (j1 j2 : Z) : res (list (option Qc * option Qc)) :=
  rmap (fun i => do a <- rd (data M) (nrows M * j1 + i); do b <- rd (data M) (nrows M * j2 + i); Ok (a, b)) (zrange 0 (nrows M)).
Definition bad_columns (M : mat (option Qc)) (j1 j2 : Z) : bool := (ncols M <=? j1) || (ncols M <=? j2) || (j1 <? 0) || (j2 <? 0).
(** matrix.cpp:2798-2860 CovarianceColumn: mean1, mean2, count and the covariance. *)
Definition covariance_column (M : mat (option Qc)) (j1 j2 : Z) (sample check : bool) : res (option Qc * option Qc * Z * option Qc) :=
  if bad_columns M j1 j2 then Throw
  else if nrows M =? 0 then Ok (None, None, 0, None)
  else if nrows M =? 1 then do a <- get0 M 0 j1; do b <- get0 M 0 j2; Ok (a, b, 1, None)
  else do l <- two_columns M j1 j2;
    if check then let '(n, a, b, m2) := cov_nan l 0 0%Qc 0%Qc 0%Qc in Ok (Some a, Some b, n, nan_or_ratio (Some m2) sample n)
    else let '(a, b, m2) := cov_all l 0 (Some 0%Qc) (Some 0%Qc) (Some 0%Qc) in Ok (a, b, nrows M, nan_or_ratio m2 sample (nrows M)).

(** ** Statistics of all columns *)
(** matrix.cpp:2956-2974, 2976-2994 RowsSum, ColumnsSum: the list of rows (columns), all if it is empty; it is left with
    the numbers which are used. *)
Definition used (idx : list Z) (n : Z) : list Z := match idx with [] => zrange 0 n | _ => idx end.
Definition rows_sum (M S : mat (option Qc)) (idx : list Z) : res (mat (option Qc) * list Z) :=
  let ix := used idx (nrows M) in
  if negb (mlength S =? Z.of_nat (length ix)) then Throw
  else do S' <- mwrites S (combine (zrange 0 (Z.of_nat (length ix)))
         (map (fun i => do l <- rmap (fun j => get0 M i j) (zrange 0 (ncols M)); Ok (fsum l)) ix));
       Ok (S', ix).
Definition columns_sum (M S : mat (option Qc)) (idx : list Z) : res (mat (option Qc) * list Z) :=
  let ix := used idx (ncols M) in
  if negb (mlength S =? Z.of_nat (length ix)) then Throw
  else do S' <- mwrites S (combine (zrange 0 (Z.of_nat (length ix)))
         (map (fun j => do l <- rmap (fun i => get0 M i j) (zrange 0 (nrows M)); Ok (fsum l)) ix));
       Ok (S', ix).
(** matrix.cpp:2996-3022 ColumnsMean *)
Definition columns_mean (M S : mat (option Qc)) (idx : list Z) : res (mat (option Qc) * list Z) :=
  let ix := used idx (ncols M) in
  if negb (mlength S =? Z.of_nat (length ix)) then Throw
  else do S' <- mwrites S (combine (zrange 0 (Z.of_nat (length ix)))
         (map (fun j => do l <- rmap (fun i => get0 M i j) (zrange 0 (nrows M)); Ok (fsum l /f Some (qz (nrows M)))) ix));
       Ok (S', ix).
(** matrix.cpp:3024-3067 ColumnsVariance: places (q0, q1) with q0 <= q1 and their mirror images. *)
Definition cross_product (M : mat (option Qc)) (means : list (option Qc)) (ix : list Z) (q0 q1 : Z) : res (option Qc) :=
  do m0 <- rd means q0; do m1 <- rd means q1; do j <- rd ix q0; do k <- rd ix q1;
  do l <- rmap (fun i => do a <- get0 M i j; do b <- get0 M i k; Ok ((a -f m0) *f (b -f m1))) (zrange 0 (nrows M)); Ok (fsum l).
Definition columns_variance (M S : mat (option Qc)) (idx : list Z) (sample : bool) : res (mat (option Qc) * list Z) :=
  let ix := used idx (ncols M) in let m := Z.of_nat (length ix) in
  if negb (nrows S =? m) || negb (ncols S =? m) then Throw
  else do means <- columns_mean M (Mat (length ix) 1 (repeat None (length ix))) ix;
    do S' <- mwrites S (flat_map (fun q0 => flat_map (fun q1 =>
        if q1 <? q0 then [] else let e := do s <- cross_product M (data (fst means)) ix q0 q1; Ok (nan_or_ratio s sample (nrows M)) in
        (pos S q0 q1, e) :: (if q0 =? q1 then [] else [(pos S q1 q0, e)])) (zrange 0 m)) (zrange 0 m));
    Ok (S', ix).
(** matrix.cpp:3131-3190 ColumnsMeans, ColumnsVariances, ColumnsMeansVariances *)
Definition columns_means (M S : mat (option Qc)) (check : bool) : res (mat (option Qc)) :=
  if negb (mlength S =? ncols M) then Throw
  else mwrites S (map (fun j => (j, do l <- values M (j * nrows M) (nrows M); Ok (mean_of check l))) (zrange 0 (ncols M))).
Definition columns_variances (M S : mat (option Qc)) (sample check : bool) : res (mat (option Qc)) :=
  if negb (mlength S =? ncols M) then Throw
  else mwrites S (map (fun j => (j, do l <- values M (j * nrows M) (nrows M); Ok (snd (variance_of sample check l)))) (zrange 0 (ncols M))).
Definition columns_means_variances (M Sm Sv : mat (option Qc)) (sample check : bool) : res (mat (option Qc) * mat (option Qc)) :=
  if negb (mlength Sm =? ncols M) || negb (mlength Sv =? ncols M) then Throw
  else do Sm' <- mwrites Sm (map (fun j => (j, do l <- values M (j * nrows M) (nrows M); Ok (fst (variance_of sample check l)))) (zrange 0 (ncols M)));
       do Sv' <- mwrites Sv (map (fun j => (j, do l <- values M (j * nrows M) (nrows M); Ok (snd (variance_of sample check l)))) (zrange 0 (ncols M)));
       Ok (Sm', Sv').
