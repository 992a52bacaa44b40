(** Model of the correlations of /repo/src/ldt_statistics/correlation.cpp and of Matrix::CorrelationColumn and
    ColumnsStandard, /repo/src/matrix/matrix.cpp:2862-2953, 3070-3129. Data are [option Qc], correlations [option R];
    [None] is NaN; arithmetic and square roots are exact. *)
From Verif Require Export CorModel DescRealModel.
Local Open Scope Z_scope.

(** Real numbers with NaN. *)
Definition radd (a b : option R) : option R := match a, b with Some x, Some y => Some (x + y)%R | _, _ => None end.
Definition rmul (a b : option R) : option R := match a, b with Some x, Some y => Some (x * y)%R | _, _ => None end.
(** matrix.cpp:3085-3096 (x - m) / sqrt(s), NaN if s = 0. *)
Definition standardize (x m s : option Qc) : option R :=
  match s with
  | Some v => if qeqb v 0 then None else match x, m with Some x, Some m => Some ((real x - real m) / sqrt (real v))%R | _, _ => None end
  | None => None
  end.

(** ** CorrelationColumn *)
Record cor_sums := CS { c_n : Z; c_mean1 : Qc; c_mean2 : Qc; c_m2 : Qc; c_w1 : Qc; c_w2 : Qc }.
(** matrix.cpp:2892-2916 *)
Fixpoint cor_nan (l : list (option Qc * option Qc)) (a : cor_sums) : cor_sums :=
  match l with
  | [] => a
  | (Some d1, Some d2) :: t =>
      let count := c_n a + 1 in
      let dx1 := (d1 - c_mean1 a)%Qc in let s1 := (dx1 / qz count)%Qc in
      let dx2 := (d2 - c_mean2 a)%Qc in let s2 := (dx2 / qz count)%Qc in
      let mean1 := (c_mean1 a + s1)%Qc in let mean2 := (c_mean2 a + s2)%Qc in
      cor_nan t (CS count mean1 mean2 (c_m2 a + dx1 * (d2 - mean2))%Qc (c_w1 a + dx1 * s1 * qz (count - 1))%Qc (c_w2 a + dx2 * s2 * qz (count - 1))%Qc)
  | _ :: t => cor_nan t a
  end.
(** matrix.cpp:2925-2942; [i] is the loop variable, count = i + 1. *)
Record cor_sums_f := CSF { f_mean1 : option Qc; f_mean2 : option Qc; f_m2 : option Qc; f_w1 : option Qc; f_w2 : option Qc }.
Fixpoint cor_all (l : list (option Qc * option Qc)) (i : Z) (a : cor_sums_f) : cor_sums_f :=
  match l with
  | [] => a
  | (d1, d2) :: t =>
      let count := i + 1 in
      let dx1 := d1 -f f_mean1 a in let s1 := dx1 /f Some (qz count) in
      let dx2 := d2 -f f_mean2 a in let s2 := dx2 /f Some (qz count) in
      let mean1 := f_mean1 a +f s1 in let mean2 := f_mean2 a +f s2 in
      cor_all t (i + 1) (CSF mean1 mean2 (f_m2 a +f dx1 *f (d2 -f mean2)) (f_w1 a +f dx1 *f s1 *f Some (qz i)) (f_w2 a +f dx2 *f s2 *f Some (qz i)))
  end.
(** matrix.cpp:2917-2921, 2945-2949: m2 / (sqrt(w1) sqrt(w2)), 1 if all are 0. A zero w1 or w2 gives 0/0. *)
Definition cor_value (m2 w1 w2 : option Qc) : option R :=
  match m2, w1, w2 with
  | Some m, Some u, Some v =>
      if qeqb m 0 && qeqb u 0 && qeqb v 0 then Some 1%R
      else if qeqb u 0 || qeqb v 0 then None
      else Some (real m / (sqrt (real u) * sqrt (real v)))%R
  | _, _, _ => None
  end.
(** mean1, mean2, var1, var2, the count (None: not set) and the correlation. *)
Record cor_result := CR { k_mean1 : option Qc; k_mean2 : option Qc; k_var1 : option Qc; k_var2 : option Qc; k_count : option Z; k_cor : option R }.
(** matrix.cpp:2862-2953 CorrelationColumn *)
Definition correlation_column (M : mat (option Qc)) (j1 j2 : Z) (sample check : bool) : res cor_result :=
  if bad_columns M j1 j2 then Throw
  else if nrows M =? 0 then Ok (CR None None None None None None)
  else if nrows M =? 1 then do a <- get0 M 0 j1; do b <- get0 M 0 j2; Ok (CR a b None None None None)
  else do l <- two_columns M j1 j2;
    if check then let a := cor_nan l (CS 0 0%Qc 0%Qc 0%Qc 0%Qc 0%Qc) in
      Ok (CR (Some (c_mean1 a)) (Some (c_mean2 a)) (nan_or_ratio (Some (c_w1 a)) sample (nrows M)) (nan_or_ratio (Some (c_w2 a)) sample (nrows M))
             (Some (c_n a)) (cor_value (Some (c_m2 a)) (Some (c_w1 a)) (Some (c_w2 a))))
    else let a := cor_all l 0 (CSF (Some 0%Qc) (Some 0%Qc) (Some 0%Qc) (Some 0%Qc) (Some 0%Qc)) in
      Ok (CR (f_mean1 a) (f_mean2 a) (nan_or_ratio (f_w1 a) sample (nrows M)) (nan_or_ratio (f_w2 a) sample (nrows M))
             (Some (nrows M)) (cor_value (f_m2 a) (f_w1 a) (f_w2 a))).

(** ** Pearson *)
(** correlation.cpp:113-141, correlations: Result, Means and Variances. *)
Definition pearson_cor (M : mat (option Qc)) (sR : list (option R)) (sM sV : list (option Qc)) (work : Z) (lower : bool) : res (mat (option R) * mat (option Qc) * mat (option Qc)) :=
  if work <? mlength M then UB else
  do mv <- columns_means_variances M (Mat (cols M) 1 sM) (Mat (cols M) 1 sV) false false;
  do C <- columnwise M (fun j x => do m <- rd (data (fst mv)) j; do v <- rd (data (snd mv)) j; Ok (standardize x m v));
  do S <- gram (Some 0%R) radd rmul C (Mat (cols M) (cols M) sR) lower;
  do S <- map_in (fun x => match x with Some v => Some (v / IZR (nrows M))%R | None => None end) S;
  Ok (S, fst mv, snd mv).
(** Line 86: the diagonal is 1 and its counts are not set; line 92: a count which is not set stays 0. *)
Definition pearson_cor_nan (M : mat (option Qc)) (sR : list (option R)) (sC : list Z) (adjust lower : bool) : res (mat (option R) * symmat Z) :=
  let n := ncols M in let S := Mat (cols M) (cols M) sR in
  do S' <- mwrites S (flat_map (fun i => (pos S i i, Ok (Some 1%R)) ::
             pair_writes S lower (fun i j => do r <- correlation_column M i j adjust true; Ok (k_cor r)) n i) (zrange 0 n));
  do c <- writes (flat_map (fun i =>
             flat_map (fun j => if i <? j then [(sym_index true n i j, do r <- correlation_column M i j adjust true; Ok (match k_count r with Some c => c | None => 0 end))] else []) (zrange 0 n)) (zrange 0 n)) sC;
  Ok (S', Sym (cols M) c).

(** ** Spearman *)
(** As for covariances, see CorModel. *)
Definition spearman_cor (M : mat Qc) (sR : list (option R)) (sM sV : list (option Qc)) (work : list Qc) (lower : bool) : res (mat (option R) * mat (option Qc) * mat (option Qc)) :=
  do K <- rank (nrows M) (ncols M) M (from (mlength M) work) work false;
  pearson_cor (with_nan K) sR sM sV (Z.of_nat (length work) - mlength M) lower.
Definition spearman_cor_pair (M : mat (option Qc)) (i j : Z) : res (option R) :=
  do K <- pair_ranks M i j;
  do c <- pearson_cor (with_nan K) (repeat None 4) (repeat None 2) (repeat None 2) (2 * nrows M) false; rd (data (fst (fst c))) 2.
