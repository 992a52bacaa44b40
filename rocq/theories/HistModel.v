(** Model of /repo/src/ldt_statistics/distributions/histogram.cpp. Exact arithmetic; the data are numbers (NaN and
    infinities removed); counts do not overflow. std::sort of numbers is modelled by a stable sort. *)
From Verif Require Export DescModel SortModel.
From Coq Require Import Qround.
Local Open Scope Z_scope.

(** histogram.cpp:25-34, 39-48 the search for the first axis point behind [d]; [last]: the last observation. *)
Fixpoint find_bin (ps : list Z) (last : bool) (d : Qc) (axis : list Qc) : res (option Z) :=
  match ps with
  | [] => Ok None
  | p :: t => do a <- rd axis p; if (if last then qleb d a else qltb d a) then Ok (Some p) else find_bin t last d axis
  end.
Definition bump (counts : list Z) (p : Z) : res (list Z) := do c <- rd counts p; wr counts p (c + 1).
(** histogram.cpp:23-54 the loop over the observations; [n]: number of axis points, [j]: bin of the previous one. *)
Fixpoint fill_loop (ds : list Qc) (n : Z) (axis : list Qc) (j : Z) (counts : list Z) : res (list Z) :=
  match ds with
  | [] => Ok counts
  | d :: t =>
      do r <- find_bin (zrange j (n - j)) (match t with [] => true | _ => false end) d axis;
      match r with
      | Some p => do c <- bump counts p; fill_loop t n axis p c
      | None => do c <- bump counts n; fill_loop t n axis j c
      end
  end.
(** histogram.cpp:13-54 fill *)
Definition fill_hist (ds axis : list Qc) (counts : list Z) : res (list Z) :=
  let n := Z.of_nat (length axis) in
  do c <- writes (map (fun i => (i, Ok 0)) (zrange 0 (n + 1))) counts; fill_loop ds n axis 0 c.
(** std::sort *)
Definition qsort (l : list Qc) : list Qc := stable_sort qltb l.
(** histogram.cpp:160-177 ComputeV: the sorted data, the counts and the number of observations. *)
Definition compute_v (ds axis : list Qc) (counts : list Z) : res (list Qc * list Z * Z) :=
  match ds with
  | [] => Throw
  | _ => let s := qsort ds in do c <- fill_hist s axis counts; Ok (s, c, Z.of_nat (length ds))
  end.
(** DBL_EPSILON *)
Definition dbl_eps : Qc := Q2Qc (1 # 4503599627370496).
(** histogram.cpp:121-158 Compute with forsize = false; [step] is NaN for [None], min and max are numbers.
    The axis, the counts, the number of bins. *)
Definition compute (ds axis : list Qc) (counts : list Z) (bincount : Z) (mn mx : Qc) (step : option Qc) : res (list Qc * list Z * Z) :=
  let L := Z.of_nat (length ds) in
  if L =? 0 then Throw
  else if bincount =? 1 then
    do a <- writes [(0, Ok mn); (1, Ok mx)] axis; do c <- writes [(0, Ok 0); (1, Ok L); (2, Ok 0)] counts; Ok (a, c, bincount)
  else
    do r <- (match step with
             | None => if bincount =? 0 then Throw else Ok ((mx - mn) / qz bincount, bincount)%Qc
             | Some s => if qeqb s 0 then Throw else Ok (s, Z.of_nat (length axis) - 1)
             end);
    let '(step, bincount) := r in
    if bincount =? 0 then Throw
    else do a <- writes (map (fun i => (i, Ok (mn + qz i * step)%Qc)) (zrange 0 bincount)) axis;
         do a <- wr a bincount (mn + qz bincount * step + dbl_eps)%Qc;
         do c <- fill_hist ds a counts; Ok (a, c, bincount).

(** Integer cube root: the largest k with k^3 <= n. *)
Fixpoint icbrt_from (fuel : nat) (k n : Z) : Z :=
  match fuel with O => k | S f => if n <? (k + 1) * (k + 1) * (k + 1) then k else icbrt_from f (k + 1) n end.
Definition icbrt (n : Z) : Z := icbrt_from (Z.to_nat n) 0 n.
(** Conversion to int of a number which has been rounded: UB outside of the range. *)
Definition to_int (z : Z) : res Z := if (z <? -2147483648) || (2147483647 <? z) then UB else Ok z.
Definition qmax (a b : Qc) : Qc := if qltb a b then b else a.
Definition qmin (a b : Qc) : Qc := if qltb b a then b else a.
(** histogram.cpp:56-119 Compute with forsize = true: the sorted data, bincount, min, max and the size of the axis.
    The truncated product of the cube root of L and r >= 0 is the cube root of the integer part of L r^3; a division
    by zero (infinity) cannot be converted. *)
Definition compute_size (ds : list Qc) (bincount : Z) (mn mx : option Qc) (mult : Qc) (step : option Qc) : res (list Qc * Z * Qc * Qc * Z) :=
  let L := Z.of_nat (length ds) in
  if L =? 0 then Throw
  else if (match mn, mx with Some a, Some b => qleb b a | _, _ => false end) then Throw
  else
    let s := qsort ds in
    do r <- (match mn, mx, 0 <? bincount with
             | Some a, Some b, true => Ok (a, b, bincount)
             | _, _, _ =>
                 do min0 <- quantile_sorted s 0; do q1 <- quantile_sorted s (Q2Qc (1 # 4));
                 do q3 <- quantile_sorted s (Q2Qc (3 # 4)); do max0 <- quantile_sorted s 1;
                 let iqr := (q3 - q1)%Qc in
                 let a := match mn with Some a => a | None => qmax min0 (q1 - iqr * mult)%Qc end in
                 let b := match mx with Some b => b | None => qmin max0 (q3 + iqr * mult)%Qc end in
                 match step with
                 | None =>
                     if bincount =? 0 then
                       (if qltb (b - a) dbl_eps then Ok (a, b, 1)
                        else if qeqb iqr 0 then UB
                        else let x := ((b - a) / (qz 2 * iqr))%Qc in do k <- to_int (icbrt (qfloor (qz L * x * x * x)%Qc)); Ok (a, b, k))
                     else Ok (a, b, bincount)
                 | Some st => if qeqb st 0 then UB else do k <- to_int (Qceiling (this ((b - a) / st)%Qc)); Ok (a, b, k)
                 end
             end);
    let '(a, b, k) := r in
    let '(a, b) := if qeqb a b then (a - Q2Qc (1 # 100), b + Q2Qc (1 # 100))%Qc else (a, b) in
    Ok (s, k, a, b, k + 1).
