(** Model of /repo/src/ldt_statistics/modeling/time_series/varma/: varma_sizes.cpp (lines 13-172),
    varma_restriction.cpp and varma.cpp:24-119 (differences, data of the regression). Integers are not bounded; the
    coefficients of the (integer) difference polynomial are rationals; data has no NaN. A piece of a work array
    given to a function is that piece only: a write behind it is UB. *)
From Verif Require Export PolyModel.
Local Open Scope Z_scope.

(** ** Sizes *)
Definition ti_max : Z := 2147483647.
(** varma_sizes.cpp:19 the loop; [fuel] iterations at most, UB if they do not suffice. *)
Fixpoint seasonal_loop (fuel : nat) (i s bound : Z) : res (list Z) :=
  if i <=? bound then match fuel with O => UB | S f => do t <- seasonal_loop f (i + s) s bound; Ok (i :: t) end else Ok [].
(** varma_sizes.cpp:13-21 ExpandPoly *)
Definition expand_poly (p P s : Z) : res (list Z) :=
  if (p =? 0) && (P =? 0) then Ok []
  else do t <- (if 0 <? s then seasonal_loop (Z.to_nat P) s s (s * P) else Ok []); Ok (zrange 1 p ++ t).

(** varma_sizes.cpp:24-43 ExpandPolyDiff_ws *)
Definition expand_diff_ws (d D s : Z) : Z :=
  if (d =? 0) && (D =? 0) then 0 else
  (if d =? 0 then 0 else pow_work d 1 ti_max + pow_size d 1 ti_max) +
  (if D =? 0 then 0 else s + 1 + pow_work D s ti_max + pow_size D s ti_max) +
  (if (d =? 0) || (D =? 0) then 0 else mul_size (pow_size d 1 ti_max - 1) (pow_size D s ti_max - 1) ti_max).
(** The piece of [n] elements from position [p]. *)
Definition piece {A} (w : list A) (p n : Z) : list A := firstn (Z.to_nat n) (skipn (Z.to_nat p) w).
(** varma_sizes.cpp:52-63 the power of 1 - L. *)
Definition diff_pow1 (d : Z) (work : list Qc) : res poly :=
  let st := pow_size d 1 ti_max in let wk := pow_work d 1 ti_max in
  pow_calc st wk [1%Qc; (- (1))%Qc] (Z.to_nat d) (piece work 0 st) (piece work st wk) ti_max.
(** varma_sizes.cpp:65-77 the power of 1 - L^s; [p] is the position in the work array. *)
Definition diff_pow2 (D s : Z) (work : list Qc) (p : Z) : res poly :=
  let st := pow_size D s ti_max in let wk := pow_work D s ti_max in
  do z <- fill 0%Qc (Z.to_nat (s + 1)) (piece work p (s + 1));
  do j <- wr z 0 1%Qc;
  do j <- wr j s (- (1))%Qc;
  pow_calc st wk j (Z.to_nat D) (piece work (p + (s + 1)) st) (piece work (p + (s + 1) + st) wk) ti_max.
(** varma_sizes.cpp:45-91 ExpandPolyDiff *)
Definition expand_diff (d D s : Z) (work : list Qc) : res poly :=
  let st1 := pow_size d 1 ti_max in let wk1 := pow_work d 1 ti_max in
  let st2 := pow_size D s ti_max in let wk2 := pow_work D s ti_max in
  let p := if d =? 0 then 0 else st1 + wk1 in
  if d =? 0 then (if D =? 0 then UB else diff_pow2 D s work p)
  else do a <- diff_pow1 d work;
       if D =? 0 then Ok a else
       do b <- diff_pow2 D s work p;
       let ms := mul_size (st1 - 1) (st2 - 1) ti_max in
       do r <- mul_calc ms a b (piece work (p + (s + 1) + (st2 + wk2)) ms) ti_max;
       Ok (firstn (Z.to_nat (snd r)) (fst r)).

(** The fields of VarmaSizes, as set by the constructor, Calculate and UpdateChanged. *)
Record vsizes := VSizes { v_obs : Z; v_eqs : Z; v_exo : Z; v_arlags : list Z; v_malags : list Z; v_diff : poly }.
Definition v_arlen (z : vsizes) : Z := Z.of_nat (length (v_arlags z)).
Definition v_malen (z : vsizes) : Z := Z.of_nat (length (v_malags z)).
(** varma_sizes.cpp:154-158 *)
Definition last_lag (l : list Z) : Z := if (length l =? 0)%nat then 0 else nth (length l - 1) l 0.
Definition v_armax (z : vsizes) : Z := last_lag (v_arlags z).
Definition v_mamax (z : vsizes) : Z := last_lag (v_malags z).
Definition v_diffdeg (z : vsizes) : Z := if (length (v_diff z) =? 0)%nat then 0 else Z.of_nat (length (v_diff z)) - 1.
Definition v_armaxd (z : vsizes) : Z := v_armax z + v_diffdeg z.
(** varma_sizes.cpp:163-172 UpdateChanged *)
Definition v_hasarexo (z : vsizes) : bool := negb (v_arlen z =? 0) || negb (v_exo z =? 0).
Definition v_hasar (z : vsizes) : bool := negb (v_arlen z =? 0).
Definition v_hasma (z : vsizes) : bool := negb (v_malen z =? 0).
Definition v_hasdiff (z : vsizes) : bool := (1 <? length (v_diff z))%nat.
Definition v_mastart (z : vsizes) : Z := v_arlen z * v_eqs z + v_exo z.
Definition v_paramseq (z : vsizes) : Z := v_mastart z + v_malen z * v_eqs z.
Definition v_params (z : vsizes) : Z := v_paramseq z * v_eqs z.
Definition v_T (z : vsizes) : Z := v_obs z - v_armaxd z.
(** varma_sizes.cpp:93-161 the constructor, with the work array it gives to Calculate; orders (p,d,q)x(P,D,Q)_s. *)
Definition make_sizes (obs eqs exo p d q P D Q s0 : Z) (work : list Qc) : res vsizes :=
  let s := if s0 <? 2 then 0 else s0 in
  if (p <? 0) || (d <? 0) || (D <? 0) || (P <? 0) || (q <? 0) || (Q <? 0) || (s <? 0) then Throw
  else if (s =? 0) && (negb (P =? 0) || negb (Q =? 0) || negb (D =? 0)) then Throw
  else if (p =? 0) && (q =? 0) && (P =? 0) && (Q =? 0) then Throw
  else do ar <- expand_poly p P s;
       do ma <- expand_poly q Q s;
       do df <- (if (d =? 0) && (D =? 0) then Ok [1%Qc] else expand_diff d D s work);
       Ok (VSizes obs eqs exo ar ma df).

(** ** Differences: varma.cpp:24-57 *)
(** varma.cpp:34-36 the sum for one element; [f] runs over the coefficients, [h] downwards from the column. *)
Fixpoint diff_elem (c : list Qc) (y : mat Qc) (j h : Z) (row col : Z) (S : mat Qc) : res (mat Qc) :=
  match c with
  | [] => Ok S
  | x :: t => do s <- get0 S row col; do v <- get0 y j h; do S' <- set0 S row col (s + x * v)%Qc; diff_elem t y j (h - 1) row col S'
  end.
(** varma.cpp:24-39 Difference; [is] are the pairs (column i, row j) in the order of the loops. *)
Fixpoint diff_rows (c : list Qc) (y : mat Qc) (g i : Z) (js : list Z) (S : mat Qc) : res (mat Qc) :=
  match js with [] => Ok S | j :: t => do S' <- diff_elem c y j i j (i - g) S; diff_rows c y g i t S' end.
Fixpoint diff_cols (c : list Qc) (y : mat Qc) (g : Z) (is : list Z) (S : mat Qc) : res (mat Qc) :=
  match is with
  | [] => Ok S
  | i :: t =>
      if i <? g then diff_cols c y g t S
      else do S1 <- mwrites S (map (fun r => (pos S r (i - g), Ok 0%Qc)) (zrange 0 (nrows S)));
           do S2 <- diff_rows c y g i (zrange 0 (nrows y)) S1; diff_cols c y g t S2
  end.
Definition difference (c : list Qc) (y S : mat Qc) : res (mat Qc) :=
  diff_cols c y (Z.of_nat (length c) - 1) (zrange 0 (ncols y)) S.
(** varma.cpp:41-57 UnDiferences *)
Fixpoint undiff_rows (d : Qc) (k j : Z) (is : list Z) (S : mat Qc) : res (mat Qc) :=
  match is with
  | [] => Ok S
  | i :: t => do a <- get0 S i j; do b <- get0 S i (j - k); do S' <- set0 S i j (a - d * b)%Qc; undiff_rows d k j t S'
  end.
Fixpoint undiff_lags (c : list Qc) (k j : Z) (S : mat Qc) : res (mat Qc) :=
  match c with [] => Ok S | d :: t => do S' <- undiff_rows d k j (zrange 0 (nrows S)) S; undiff_lags t (k + 1) j S' end.
Fixpoint undiff_cols (c : list Qc) (h : Z) (js : list Z) (S : mat Qc) : res (mat Qc) :=
  match js with
  | [] => Ok S
  | j :: t => if j <? h then undiff_cols c h t S else do S' <- undiff_lags (tl c) 1 j S; undiff_cols c h t S'
  end.
Definition undifference (c : list Qc) (S : mat Qc) : res (mat Qc) :=
  undiff_cols c (Z.of_nat (length c) - 1) (zrange 0 (ncols S)) S.

(** ** Data of the regression: varma.cpp:62-119 (EstimateOls), without the estimation *)
(** matrix.cpp:1160-1175 SetSub_t0 *)
Definition set_sub_t0 {A} (M : mat A) (r c : Z) (S : mat A) (sr sc nr nc : Z) : res (mat A) :=
  mwrites M (grid M r c nr nc (fun t u => get0 S (sr + u) (sc + t))).
(** varma.cpp:66-69 the sizes of the given data. *)
Definition ols_sizes (z : vsizes) (dat : mat Qc) (exo : option (mat Qc)) : vsizes :=
  VSizes (ncols dat) (nrows dat) (match exo with Some e => nrows e | None => 0 end) (v_arlags z) (v_malags z) (v_diff z).
(** varma.cpp:92-100 the differenced data; [work] is the work array. *)
Definition ols_data (z : vsizes) (dat : mat Qc) (work : list Qc) : res (mat Qc) :=
  if v_hasdiff z then difference (v_diff z) dat (Mat (rows dat) (Z.to_nat (ncols dat - Z.of_nat (length (v_diff z)) + 1)) work)
  else Ok dat.
(** varma.cpp:112-117 the loop over the lags. *)
Fixpoint set_lags (lags : list Z) (armax T g row : Z) (dd Xt : mat Qc) : res (mat Qc * Z) :=
  match lags with
  | [] => Ok (Xt, row)
  | l :: t => do X <- set_sub_t0 Xt 0 row dd 0 (armax - l) T g; set_lags t armax T g (row + g) dd X
  end.
(** varma.cpp:75-122 the arrays y (g x T) and Xt (T x MaStart); [sy] and [sx] are their storages. *)
Definition ols_arrays (z0 : vsizes) (dat : mat Qc) (exo : option (mat Qc)) (sampleEnd : Z) (work sy sx : list Qc) : res (mat Qc * mat Qc) :=
  let z := ols_sizes z0 dat exo in
  let g := v_eqs z in let T := v_T z - sampleEnd in
  if (T <? 1) || (g <? 1) || (v_params z <? 1) then Throw
  else do dd <- ols_data z dat work;
       do y <- set_sub0 (Mat (rows dat) (Z.to_nat T) sy) 0 0 dd 0 (v_armax z) g T;
       if v_hasarexo z then
         do r <- set_lags (v_arlags z) (v_armax z) T g 0 dd (Mat (Z.to_nat T) (Z.to_nat (v_mastart z)) sx);
         let '(X, row) := r in
         do X <- (match exo with Some e => if v_exo z =? 0 then Ok X else set_sub_t0 X 0 row e 0 (v_armaxd z) T (v_exo z) | None => Ok X end);
         Ok (y, X)
       else Ok (y, Mat (Z.to_nat T) (Z.to_nat (v_mastart z)) sx).

(** ** Restrictions: varma_restriction.cpp:11-90 *)
Inductive vrestriction := RNone | RGeneral (count : Z) | RMaFinal.
(** varma_restriction.cpp:11-41 the constructor: None if the model is not restricted, else the number of columns
    (StorageSize is NumParams times this). *)
Definition restriction_cols (z : vsizes) (t : vrestriction) : res (option Z) :=
  match t with
  | RNone => Ok None
  | RGeneral count => if count <=? 0 then Throw else Ok (Some (v_params z - count))
  | RMaFinal => if (v_eqs z =? 1) || negb (v_hasma z) then Ok None
                else Ok (Some (v_eqs z * v_paramseq z - v_malen z * (v_eqs z * v_eqs z - 1)))
  end.
(** varma_restriction.cpp:60-71 the loop over the parameters. *)
Fixpoint general_loop (idx : list Z) (is : list Z) (j : Z) (R : mat Qc) : res (mat Qc) :=
  match is with
  | [] => Ok R
  | i :: t => if existsb (Z.eqb i) idx then general_loop idx t j R
              else do R' <- set0 R i (j + 1) 1%Qc; general_loop idx t (j + 1) R'
  end.
(** varma_restriction.cpp:79-87 the loop over the moving average lags. *)
Fixpoint final_loop (fuel : nat) (g row col q : Z) (R : mat Qc) : res (mat Qc) :=
  match fuel with
  | O => UB
  | S f => do R' <- mwrites R (map (fun j => (pos R (row + j * (g + 1)) col, Ok 1%Qc)) (zrange 0 g));
           if col + 1 =? q then Ok R' else final_loop f g (row + g * g) (col + 1) q R'
  end.
(** varma_restriction.cpp:43-90 Calculate, after the constructor; a negative number of columns is modelled as 0. The
    fuel is the number of columns, which the loop cannot exceed without a write outside. *)
Definition restriction_matrix (z : vsizes) (t : vrestriction) (storage : list Qc) (idx : option (list Z)) : res (option (mat Qc)) :=
  do c <- restriction_cols z t;
  match c with
  | None => Ok None
  | Some q0 =>
      let params := v_params z in
      match t with
      | RGeneral count =>
          match idx with
          | None => Throw
          | Some ix =>
              let q := params - Z.of_nat (length ix) in
              do st <- fill 0%Qc (Z.to_nat (params * q)) storage;
              if Z.of_nat (length ix) <? count then Throw
              else do R <- general_loop ix (zrange 0 params) (-1) (Mat (Z.to_nat params) (Z.to_nat q) st); Ok (Some R)
          end
      | _ =>
          do st <- fill 0%Qc (Z.to_nat (params * q0)) storage;
          let n := v_mastart z * v_eqs z in
          let R := Mat (Z.to_nat params) (Z.to_nat q0) st in
          do R1 <- mwrites R (map (fun r => (pos R r r, Ok 1%Qc)) (zrange 0 n));
          do R2 <- final_loop (Z.to_nat q0) (v_eqs z) (Z.max 0 n) (Z.max 0 n) q0 R1; Ok (Some R2)
      end
  end.
