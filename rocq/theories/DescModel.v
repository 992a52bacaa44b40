(** Model of /repo/src/ldt_statistics/statistics/descriptive.cpp (class Descriptive). The array is the list of its
    elements; exact arithmetic. [None] is NaN; a division of a non-zero number by zero (infinity) is not modelled:
    it gives [None] as well. *)
From Verif Require Export MomentsModel MatModel MatDotModel.
From Coq Require Import Qround.
Local Open Scope Z_scope.

(** A double: result of Minimum and Maximum. *)
Inductive dbl := DNan | DPInf | DNInf | DFin (q : Qc).
(** descriptive.cpp:14-28, 37-51 Minimum, Maximum; the comparison with a NaN is false. *)
Definition less (a b : dbl) : bool :=
  match a, b with
  | DNan, _ | _, DNan => false
  | DFin x, DFin y => qltb x y
  | DNInf, DNInf | DPInf, _ => false
  | _, DNInf => false
  | DNInf, _ | DFin _, DPInf => true
  end.
Definition dbl_of (x : option Qc) : dbl := match x with Some q => DFin q | None => DNan end.
Fixpoint min_loop (l : list (option Qc)) (m : dbl) : dbl := match l with [] => m | d :: t => min_loop t (if less (dbl_of d) m then dbl_of d else m) end.
Fixpoint max_loop (l : list (option Qc)) (m : dbl) : dbl := match l with [] => m | d :: t => max_loop t (if less m (dbl_of d) then dbl_of d else m) end.
Definition minimum (l : list (option Qc)) : dbl := match l with [] => DNan | _ => min_loop l DPInf end.
Definition maximum (l : list (option Qc)) : dbl := match l with [] => DNan | _ => max_loop l DNInf end.
(** descriptive.cpp:30-35, 53-59 *)
Definition minimum_sorted (l : list Qc) : option Qc := match l with [] => None | x :: _ => Some x end.
Definition maximum_sorted (l : list Qc) : option Qc := match l with [] => None | _ => nth_error l (length l - 1) end.

(** descriptive.cpp:63-91 MeanVariance; [i] is the index of the first element of [l]. *)
Fixpoint mv_loop (l : list Qc) (i : Z) (mean m2 : Qc) : Qc * Qc :=
  match l with
  | [] => (mean, m2)
  | d :: t => let diff := (d - mean)%Qc in let s := (diff / qz (i + 1))%Qc in mv_loop t (i + 1) (mean + s)%Qc (m2 + diff * s * qz i)%Qc
  end.
Definition mean_variance (sample : bool) (l : list Qc) : option Qc * option Qc :=
  match l with
  | [] => (None, None)
  | [d] => (Some (0 + (d - 0) / qz 1)%Qc, None)
  | _ => let '(mean, m2) := mv_loop l 0 0%Qc 0%Qc in
         (Some mean, Some (if sample then m2 / qz (Z.of_nat (length l)) else m2 / qz (Z.of_nat (length l) - 1))%Qc)
  end.

(** descriptive.cpp:93-155 MeanVarianceKurtosisSkewness, without the skewness (square roots). Line 131 multiplies
    ints: UB if the product exceeds the largest int. *)
Definition desc_int_max : Z := 2147483647.
Record sums := Sums { d_mean : Qc; d_m2 : Qc; d_m3 : Qc; d_m4 : Qc }.
Fixpoint mvks_loop (l : list Qc) (count : Z) (a : sums) : res sums :=
  match l with
  | [] => Ok a
  | d :: t =>
      let count := count + 1 in
      let diff := (d - d_mean a)%Qc in
      let s := (diff / qz count)%Qc in
      let s2 := (s * s)%Qc in
      let t' := (diff * s * qz (count - 1))%Qc in
      if desc_int_max <? count * count then UB else
      mvks_loop t count
        (Sums (d_mean a + s) (d_m2 a + t')
              (d_m3 a + (t' * s * qz (count - 2) - qz 3 * s * d_m2 a))
              (d_m4 a + (t' * s2 * qz (count * count - 3 * count + 3) + qz 6 * s2 * d_m2 a - qz 4 * s * d_m3 a)))%Qc
  end.
(** Mean, variance and kurtosis. *)
Definition mvks (sample : bool) (l : list Qc) : res (option Qc * option Qc * option Qc) :=
  match l with
  | [] => Ok (None, None, None)
  | _ =>
      do a <- mvks_loop l 0 (Sums 0 0 0 0);
      let n := Z.of_nat (length l) in
      let variance := if 1 <? n then Some (if sample then d_m2 a / qz (n - 1) else d_m2 a / qz n)%Qc else None in
      let q := Some (qz n * d_m4 a)%Qc /f Some (d_m2 a * d_m2 a)%Qc in
      let kurtosis := if 3 <? n then
          (if sample then Some ((qz n * qz n - 1) / qz ((n - 2) * (n - 3)))%Qc *f (q -f Some (qz 3) +f Some (qz 6 / qz (n + 1))%Qc)
           else q -f Some (qz 3))
        else None in
      Ok (Some (d_mean a), variance, kurtosis)
  end.
(** descriptive.cpp:314-343 SumOfSquares *)
Fixpoint ss_loop (l : list Qc) (count : Z) (mean m2 : Qc) : Qc :=
  match l with
  | [] => m2
  | d :: t => let count := count + 1 in let diff := (d - mean)%Qc in let s := (diff / qz count)%Qc in
              ss_loop t count (mean + s)%Qc (m2 + diff * s * qz (count - 1))%Qc
  end.
Fixpoint sq_loop (l : list Qc) (sum2 : Qc) : Qc := match l with [] => sum2 | d :: t => sq_loop t (sum2 + d * d)%Qc end.
Definition sum_of_squares (central : bool) (l : list Qc) : Qc := if central then ss_loop l 0 0%Qc 0%Qc else sq_loop l 0%Qc.

(** descriptive.cpp:345-364 QuantileSorted; the element count-1 of an empty array is outside of it. *)
Definition qfloor (q : Qc) : Z := Qfloor (this q).
Definition third : Qc := Q2Qc (1 # 3).
Definition quantile_sorted (l : list Qc) (tau : Qc) : res Qc :=
  let count := Z.of_nat (length l) in
  if (count =? 1) || qleb tau 0 then rd l 0
  else if qleb 1 tau then rd l (count - 1)
  else let h := ((qz count + third) * tau + third)%Qc in
       let hf := qfloor h in
       if hf <? 1 then rd l 0
       else if count <=? hf then (if (count - 1 <? 0) then Throw else rd l (count - 1))
       else do a <- rd l (hf - 1); do b <- rd l hf; Ok (a + (h - qz hf) * (b - a))%Qc.

(** ** Filters *)
(** descriptive.cpp:157-180 FilterAr *)
Fixpoint ar_sum (c : list Qc) (st : list Qc) (p : Z) (r : Qc) : res Qc :=
  match c with [] => Ok r | a :: t => do y <- rd st p; ar_sum t st (p - 1) (r + a * y)%Qc end.
Fixpoint ar_loop (is : list Z) (c x st : list Qc) : res (list Qc) :=
  match is with
  | [] => Ok st
  | i :: t => do x0 <- rd x i; do r <- ar_sum c st (i - 1) x0; do st' <- wr st i r; ar_loop t c x st'
  end.
Definition filter_ar (x c st : list Qc) : res (list Qc) :=
  let k := Z.of_nat (length c) in let T := Z.of_nat (length x) in
  if Z.of_nat (length st) <? T then Throw
  else if T <? k then Throw
  else do st <- writes (map (fun i => (i, rd x i)) (zrange 0 k)) st; ar_loop (zrange k (T - k)) c x st.
(** descriptive.cpp:182-203 FilterMa; [st] is the storage. *)
Definition ma_value (x c : list Qc) (o i : Z) : res Qc :=
  let k := Z.of_nat (length c) in let T := Z.of_nat (length x) in
  let lo := Z.max 0 (o + i - T) in let hi := Z.min k (i + o + 1) in
  rsum (map (fun j => times (rd c j) (rd x (i + o - j))) (zrange lo (hi - lo))).
Definition ma_offset (k : Z) (centered : bool) : Z := if centered then k / 2 else 0.
Definition filter_ma (x c : list Qc) (centered : bool) (st : list (option Qc)) : res (list (option Qc)) :=
  let k := Z.of_nat (length c) in let T := Z.of_nat (length x) in
  if Z.of_nat (length st) <? T then Throw
  else let o := ma_offset k centered in let i0 := - o + (k - 1) in
       writes (map (fun i => (i, do v <- ma_value x c o i; Ok (Some v))) (zrange i0 (T - o - i0))) (repeat None (length st)).

(** ** Seasonal decomposition: descriptive.cpp:205-291; the null pointer of trendcoefs is an error (line 220). *)
(** matrix.cpp Subtract0, Divide0: for every element of this matrix. *)
Definition vec_op (f : option Qc -> option Qc -> option Qc) (a b st : list (option Qc)) : res (list (option Qc)) :=
  writes (map (fun i => (i, do x <- rd a i; do y <- rd b i; Ok (f x y))) (zrange 0 (Z.of_nat (length a)))) st.
(** descriptive.cpp:249-261 the sums and counts of the seasons. *)
Fixpoint season_sums (vals : list (option Qc)) (s f : Z) (means : list (option Qc)) (cnt : list Z) : res (list (option Qc) * list Z) :=
  match vals with
  | [] => Ok (means, cnt)
  | v :: t =>
      let f := if s <=? f then 0 else f in
      match v with
      | None => season_sums t s (f + 1) means cnt
      | Some _ => do a <- rd means f; do means' <- wr means f (a +f v);
                  do c <- rd cnt f; do cnt' <- wr cnt f (c + 1); season_sums t s (f + 1) means' cnt'
      end
  end.
(** descriptive.cpp:273-279 *)
Fixpoint season_fill (js : list Z) (s f : Z) (means : list (option Qc)) (st : list (option Qc)) : res (list (option Qc)) :=
  match js with
  | [] => Ok st
  | j :: t => do v <- rd means f; do st' <- wr st j v; season_fill t s (if s <=? f + 1 then 0 else f + 1) means st'
  end.
Record decomposition := Decomp { dc_trend : list (option Qc); dc_seasonal : list (option Qc); dc_resid : list (option Qc); dc_means : list (option Qc) }.
Definition seasonal_decomposition (x : list Qc) (coefs : option (list Qc)) (s : Z) (mult do_resid centered : bool)
    (st_trend st_seas st_resid st_means : list (option Qc)) : res decomposition :=
  match coefs with
  | None => Throw
  | Some c =>
      let T := Z.of_nat (length x) in let X := map (@Some Qc) x in
      let minus := if mult then fdiv else fsub in
      do trend <- filter_ma x c centered st_trend;
      do seas <- vec_op minus X trend st_seas;
      do means <- writes (map (fun j => (j, Ok (Some 0%Qc))) (zrange 0 s)) st_means;
      do r <- season_sums (firstn (length x) seas) s 0 means (repeat 0 (Z.to_nat s));
      let '(means, cnt) := r in
      do means <- writes (map (fun j => (j, do m <- rd means j; do n <- rd cnt j; Ok (m /f Some (qz n)))) (zrange 0 s)) means;
      let m := fold_left fadd means (Some 0%Qc) /f Some (qz s) in
      let means := map (fun v => minus v m) means in
      do seas <- season_fill (zrange 0 T) s 0 means seas;
      do resid <- (if do_resid then do r <- vec_op minus X trend st_resid;
                                    writes (map (fun i => (i, do a <- rd r i; do b <- rd seas i; Ok (minus a b))) (zrange 0 (Z.of_nat (length r)))) r
                   else Ok st_resid);
      Ok (Decomp trend seas resid means)
  end.

(** ** Trend: descriptive.cpp:293-312 RegressionTrend, matrix_la.cpp:516-539 Inv2x2 *)
Definition inv2x2 (d : list Qc) : option (list Qc) :=
  match d with
  | [a; b; c; e] => if qeqb (a * e - b * c) 0 then None
                    else let i := (1 / (a * e - b * c))%Qc in Some [i * e; i * (- b); i * (- c); i * a]%Qc
  | _ => None
  end.
Fixpoint trend_sum (l : list Qc) (i : Z) (b1 : Qc) : Qc := match l with [] => b1 | x :: t => trend_sum t (i + 1) (b1 + qz i * x)%Qc end.
Definition regression_trend (l : list Qc) : res (Qc * Qc) :=
  let a00 := qz (Z.of_nat (length l)) in
  let a01 := (a00 * (a00 + 1) / qz 2)%Qc in
  let a11 := (a01 * (qz 2 * a00 + 1) / qz 3)%Qc in
  match inv2x2 [a00; a01; a01; a11] with
  | Some [i; j; k; e] =>
      let b0 := fold_left Qcplus l 0%Qc in let b1 := trend_sum l 1 0%Qc in
      Ok (i * b0 + k * b1, j * b0 + e * b1)%Qc
  | _ => Throw
  end.
