(** Model of the forecasted means of VARMA, /repo/src/ldt_statistics/modeling/time_series/varma/varma_forecast.cpp:10-182
    (the variance part is in ArmaModel.v). Exact arithmetic; no NaN. *)
From Verif Require Export VarmaModel MatDotModel MPolyModel.
Local Open Scope Z_scope.

(** The fields of an estimated Varma which are used: Sizes, SampleEnd and Result.y, Result.resid, Result.coef (None: not calculated). *)
Record vest := VEst { e_sizes : vsizes; e_end : Z; e_y : mat Qc; e_resid : mat Qc; e_coef : option (mat Qc) }.
(** matrix_la.cpp:106-134 Dot0 *)
Definition dot0 (M B S : mat Qc) (alpha beta : Qc) : res (mat Qc) :=
  let m := nrows M in let n := ncols B in let k := ncols M in
  in_mat S (gemm false false m n k alpha (data M) m (data B) k beta (data S) m).
(** varma_forecast.cpp:48-52 (lim = false) and 62-69 (lim = true: columns behind the matrix are skipped); [base] is
    the column at lag 0. The result has the next row. *)
Fixpoint x_lags (lim : bool) (lags : list Z) (src : mat Qc) (base g sR : Z) (xt : mat Qc) : res (mat Qc * Z) :=
  match lags with
  | [] => Ok (xt, sR)
  | l :: t => do X <- (if lim && (ncols src <=? base - l) then Ok xt else set_sub0 xt sR 0 src 0 (base - l) g 1);
              x_lags lim t src base g (sR + g) X
  end.
(** varma_forecast.cpp:42-71 xtprime *)
Definition xtprime (xt F resid : mat Qc) (fRow x_ind resid_ind : Z) (exo : option (mat Qc)) (z : vsizes) : res (mat Qc) :=
  do xt <- set_value xt 0;
  do r <- (if v_hasar z then x_lags false (v_arlags z) F fRow (nrows F) 0 xt else Ok (xt, 0));
  let '(xt, sR) := r in
  do r <- (if 0 <? v_exo z then
             match exo with
             | Some e => do X <- set_sub0 xt sR 0 e 0 (x_ind + fRow) (nrows e) 1; Ok (X, sR + nrows e)
             | None => UB
             end
           else Ok (xt, sR));
  let '(xt, sR) := r in
  do r <- (if v_hasma z then x_lags true (v_malags z) resid (resid_ind + fRow) (nrows F) sR xt else Ok (xt, sR));
  Ok (fst r).
(** varma_forecast.cpp:157-166 the columns before the forecasts; [su], [sy] are the columns for i = 0. *)
Fixpoint start_cols (is : list Z) (g diffl su sy : Z) (U y F : mat Qc) : res (mat Qc) :=
  match is with
  | [] => Ok F
  | i :: t => do F' <- (if i <? diffl then set_sub0 F 0 i U 0 (su + i) g 1 else set_sub0 F 0 i y 0 (sy + i) g 1);
              start_cols t g diffl su sy U y F'
  end.
(** varma_forecast.cpp:168-176 the loop over the forecasts. *)
Fixpoint next_cols (is : list Z) (coef resid : mat Qc) (x_ind resid_ind : Z) (exo : option (mat Qc)) (z : vsizes) (xt yhat F : mat Qc) : res (mat Qc) :=
  match is with
  | [] => Ok F
  | i :: t => do xt <- xtprime xt F resid i x_ind resid_ind exo z;
              do yhat <- dot0 coef xt yhat 1 0;
              do F' <- set_column F i yhat;
              next_cols t coef resid x_ind resid_ind exo z xt yhat F'
  end.
(** varma_forecast.cpp:73-179 Calculate; [mh]: the horizon of the constructor; [U]: undiff_y. *)
Definition forecast (mh : Z) (e : vest) (exo U : option (mat Qc)) (storage work : list Qc) (horizon : Z) (isnew : bool) : res (mat Qc) :=
  let z := e_sizes e in
  if negb (horizon =? -1) && (mh <? horizon) then Throw else
  let h := if horizon =? -1 then mh else horizon in
  let g := v_eqs z in let k := v_paramseq z in
  let len := h + v_armaxd z in
  let resid_ind := v_T z - e_end e - v_armaxd z in
  let x_ind := if isnew then - v_armaxd z else v_T z - e_end e in
  if negb isnew && (resid_ind <? 0) then Throw else
  if negb isnew && negb (v_exo z =? 0) && (match exo with Some x => ncols x <? x_ind + len | None => true end) then
    (match exo with Some _ => Throw | None => UB end) else
  let U := match U with Some u => u | None => e_y e end in
  let F := Mat (Z.to_nat g) (Z.to_nat len) storage in
  let xt := Mat (Z.to_nat k) 1 (piece work 0 k) in
  let yhat := Mat (Z.to_nat g) 1 (piece work k g) in
  match e_coef e with
  | None => Throw
  | Some coef =>
      do F <- start_cols (zrange 0 (v_armaxd z)) g (v_diffdeg z) (ncols U - e_end e - v_armaxd z) resid_ind U (e_y e) F;
      do F <- next_cols (zrange (v_armaxd z) (ncols F - v_armaxd z)) coef (e_resid e) x_ind resid_ind exo z xt yhat F;
      if v_hasdiff z then undifference (v_diff z) F else Ok F
  end.
