(** Model of the AR, MA and MA(infinity) polynomials of a VARMA model and of the variances of its forecasts:
    /repo/src/ldt_statistics/modeling/time_series/varma/varma_arma.cpp and varma_forecast.cpp:21-39,113-150,181-199.
    Exact arithmetic; no NaN; orders are not negative. The blocks of the polynomials are numbered in the storage; a piece
    of the work array given to a function is that piece only (a write behind it is UB), the storage is all memory from its start on. *)
From Verif Require Export ForecastModel.
Local Open Scope Z_scope.

(** matrix.cpp:1626-1634 Diagonal *)
Definition diagonal (M : mat Qc) (diagv offdiagv : Qc) : res (mat Qc) :=
  if negb (nrows M =? ncols M) then Throw
  else do M <- set_value M offdiagv; mwrites M (map (fun i => (pos M i i, Ok diagv)) (zrange 0 (nrows M))).
(** matrix.cpp:991-994 Apply_in *)
Definition apply_in (f : Qc -> Qc) (M : mat Qc) : res (mat Qc) := vmap M M (fun _ x => Ok (f x)).
(** matrix_la.cpp:22-37 CopyTo00 *)
Definition copy_to (M S : mat Qc) : res (mat Qc) := mwrites S (map (fun k => (k, rd (data M) k)) (zrange 0 (mlength M))).

(** varma_arma.cpp:78-87 and 97-104 the loops over the lags k; [i] is the column of the next coefficients *)
Fixpoint coef_loop (m : nat) (coef : mat Qc) (neg : bool) (lags : list Z) (base : nat) (ks : list nat) (i : Z) (st : list Qc) : res (list Qc) :=
  match ks with
  | [] => Ok st
  | k :: t =>
      if existsb (Z.eqb (Z.of_nat k)) lags then
        do M <- set_sub0 (block m st (base + k)) 0 0 coef 0 i (Z.of_nat m) (Z.of_nat m);
        do M <- (if neg then apply_in Qcopp M else Ok M);
        coef_loop m coef neg lags base t (i + Z.of_nat m) (put m st (base + k) M)
      else
        do M <- set_value (block m st (base + k)) 0; coef_loop m coef neg lags base t i (put m st (base + k) M)
  end.
(** varma_arma.cpp:70-88 (AR), 91-105 (MA): the polynomial in blocks base, ..., base + max *)
Definition arma_poly (m : nat) (coef : mat Qc) (neg : bool) (lags : list Z) (base max : nat) (i : Z) (st : list Qc) : res (list Qc) :=
  do D <- diagonal (block m st base) 1 0;
  let st := put m st base D in
  if (max =? 0)%nat then Ok st else coef_loop m coef neg lags base (seq 1 max) i st.
(** varma_arma.cpp:113-119 the loop over the coefficients [ks] of MA; the result has the value of i *)
Fixpoint copy_ma (m : nat) (ks : list nat) (base i n : nat) (st : list Qc) : res (list Qc * nat) :=
  match ks with
  | [] => Ok (st, i)
  | k :: t => do M <- copy_to (block m st k) (block m st (base + i));
              let st := put m st (base + i) M in
              if (i =? n)%nat then Ok (st, i) else copy_ma m t base (S i) n st
  end.
(** varma_arma.cpp:11-56 the constructor: the sizes (in elements) of storage and work array for [n] coefficients of MA(infinity) *)
Definition mm (z : vsizes) : Z := v_eqs z * v_eqs z.
Definition arma_storage (z : vsizes) (n : Z) : Z := (v_armax z + 1) * mm z + (v_mamax z + 1) * mm z + (if 0 <? n then n * mm z else 0).
Definition mul1_size (z : vsizes) : Z := mmul_len (v_armax z) (v_diffdeg z) ti_max * mm z.
Definition ardiff_degree (z : vsizes) : Z := if v_hasdiff z then v_armax z + v_diffdeg z + 1 else v_armax z.
Definition arma_work (z : vsizes) (n : Z) : Z :=
  if 0 <? n then
    if negb (v_hasdiff z) && negb (v_hasar z) then 0
    else (if v_hasdiff z then Z.of_nat (length (v_diff z)) + mul1_size z else 0) +
         (if v_hasma z then (ardiff_degree z + 1) * mm z + n * mm z else (ardiff_degree z + 1) * mm z)
  else 0.
(** varma_arma.cpp:59-160 Calculate of a new object, with [n] = mMaInfCount; [lapack] as in C38 *)
Definition arma_calc (lapack : mat Qc -> list Qc -> list Qc * Z) (z : vsizes) (n : nat) (coef : mat Qc) (st work : list Qc) : res (list Qc) :=
  if negb (ncols coef =? v_paramseq z) then Throw else
  let m := Z.to_nat (v_eqs z) in let a := Z.to_nat (v_armax z) in let q := Z.to_nat (v_mamax z) in
  do st <- arma_poly m coef true (v_arlags z) 0 a 0 st;
  do st <- arma_poly m coef false (v_malags z) (S a) q (v_paramseq z - v_eqs z * v_malen z) st;
  if (n =? 0)%nat then Ok st else
  let p := (S a + S q)%nat in
  if negb (v_hasdiff z) && negb (v_hasar z) then
    do '(st, i) <- copy_ma m (seq (S a) (S q)) p 0 n st;
    zero_blocks m (map (Nat.add p) (seq i (S n - i))) st
  else
    let ar := map (block m st) (seq 0 (S a)) in
    let ma := map (block m st) (seq (S a) (S q)) in
    do '(ardiff, q0) <- (if v_hasdiff z then
         let d := Z.of_nat (length (v_diff z)) in
         do dp <- writes (map (fun i => (i, rd (v_diff z) i)) (zrange 0 d)) (piece work 0 d);
         do r <- ms_calc (mul1_size z) [] ar dp (piece work d (mul1_size z)) ti_max;
         Ok (mresult m r, d + mul1_size z)
       else Ok (ar, 0));
    let isize := Z.of_nat n * mm z in let iwork := (ardiff_degree z + 1) * mm z in
    let before := firstn (p * (m * m)) st in let behind := skipn ((p + n) * (m * m)) st in
    let here := piece st (Z.of_nat (p * (m * m))) isize in
    if v_hasma z then
      do r <- minv_calc lapack isize iwork [] ardiff (piece work q0 isize) (piece work (q0 + isize) iwork) n;
      do r <- mm_calc (mmul_len (Z.of_nat n - 1) (v_mamax z) ti_max * mm z) [] (mresult m r) ma here (Z.of_nat n);
      Ok (before ++ snd r ++ behind)
    else
      do r <- minv_calc lapack isize iwork [] ardiff here (piece work q0 iwork) n;
      Ok (before ++ snd r ++ behind).
(** The coefficients of MA(infinity): Ar, Ma and MaInf follow each other in the storage *)
Definition ma_inf (z : vsizes) (n : nat) (st : list Qc) : mpoly :=
  map (block (Z.to_nat (v_eqs z)) st) (seq (S (Z.to_nat (v_armax z)) + S (Z.to_nat (v_mamax z))) n).

(** varma_forecast.cpp:21-36 the size of the work array for a horizon with variances, without coefUncertainty *)
Definition forecast_work (z : vsizes) (h : Z) : Z := v_paramseq z + v_eqs z + (arma_work z h + arma_storage z h) + 3 * mm z.

(** matrix_la.cpp:137-165 DotTr0 *)
Definition dot_tr0 (M B S : mat Qc) (alpha beta : Qc) : res (mat Qc) :=
  let m := nrows M in let n := nrows B in let k := ncols M in
  in_mat S (gemm false true m n k alpha (data M) m (data B) n beta (data S) m).
(** matrix.cpp:1546-1550 SetColumn0 (value); 1530-1538 SetColumnFromDiag0 *)
Definition set_column_value0 (M : mat Qc) (j : Z) (v : Qc) : res (mat Qc) := mwrites M (map (fun i => (pos M i j, Ok v)) (zrange 0 (nrows M))).
Definition set_column_from_diag0 (M : mat Qc) (j : Z) (S : mat Qc) : res (mat Qc) :=
  mwrites M (map (fun i => (pos M i j, rd (data S) (i * (nrows S + 1)))) (zrange 0 (nrows M))).
(** varma_forecast.cpp:191-199 the loop; MaInf starts at block p, varp, temp1 and temp2 are the blocks b, b + 1, b + 2 *)
Fixpoint variance_loop (m : nat) (sigma : mat Qc) (p b : nat) (start : Z) (is : list nat) (st : list Qc) (V : mat Qc) : res (mat Qc) :=
  match is with
  | [] => Ok V
  | i :: t =>
      do T2 <- dot0 (block m st (p + i)) sigma (block m st (b + 2)) 1 0;
      let st := put m st (b + 2) T2 in
      do T1 <- dot_tr0 (block m st (b + 2)) (block m st (p + i)) (block m st (b + 1)) 1 0;
      let st := put m st (b + 1) T1 in
      do P <- add_in (block m st b) (block m st (b + 1));
      let st := put m st b P in
      do V <- set_column_from_diag0 V (Z.of_nat i + start) (block m st b);
      variance_loop m sigma p b start t st V
  end.
(** varma_forecast.cpp:184-188 *)
Fixpoint zero_columns (js : list Z) (V : mat Qc) : res (mat Qc) :=
  match js with [] => Ok V | j :: t => do V <- set_column_value0 V j 0; zero_columns t V end.
(** varma_forecast.cpp:73-199 Calculate: Variance, with doVariance; [sigma] is Result.sigma2, [mh] the horizon of the constructor,
    [uncertainty] is coefUncertainty, [vstorage] the part of the storage for the variances; the means are those of [forecast] (C77), which uses the
    work array before these parts and is not part of this definition; a horizon is not negative *)
Definition forecast_variance (lapack : mat Qc -> list Qc -> list Qc * Z) (mh : Z) (uncertainty : bool) (e : vest) (sigma : mat Qc) (vstorage work : list Qc) (horizon : Z) : res (mat Qc) :=
  let z := e_sizes e in
  if negb (horizon =? -1) && (mh <? horizon) then Throw else
  let h := if horizon =? -1 then mh else horizon in
  let g := v_eqs z in let m := Z.to_nat g in
  let p := (S (Z.to_nat (v_armax z)) + S (Z.to_nat (v_mamax z)))%nat in
  let b := (p + Z.to_nat h)%nat in
  let start := v_paramseq z + g in
  let V := Mat m (Z.to_nat (h + v_armaxd z)) vstorage in
  let st := skipn (Z.to_nat (start + arma_work z h)) work in
  do P <- set_value (block m st b) 0;
  let st := put m st b P in
  match e_coef e with
  | None => Throw
  | Some coef =>
      do V <- zero_columns (zrange 0 (v_armaxd z)) V;
      do st <- arma_calc lapack z (Z.to_nat h) coef st (piece work start (arma_work z h));
      do V <- variance_loop m sigma p b (v_armaxd z) (seq 0 (Z.to_nat h)) st V;
      if uncertainty then Throw else Ok V
  end.
