(** Model of /repo/src/ldt_math/derivative.cpp: numerical derivatives with Richardson extrapolation.
    Numbers are exact and finite; the work array is not modelled cell by cell (its parts do not overlap: [first_used], [second_used] give the numbers of cells used);
    the numbers n and count are not negative. *)
From Coq Require Export Reals List.
From Verif Require Export Base MatModel.
Export ListNotations.
Local Open Scope R_scope.

(** functionx.h:13-60 the members; derivative.cpp:18-53 *)
Record setup := Setup { s_n : nat; s_first : bool; s_second : bool; s_count : nat; s_step0 : R; s_step1 : R; s_epsilon : R; s_T : R }.
(** functionx.h:48-57 the initial values *)
Definition der_new (n : nat) (first second : bool) (count : nat) : setup := Setup n first second count (1 / 10 ^ 5) (1 / 10 ^ 4) (1 / 10 ^ 7) 2.
(** derivative.cpp:27-52 WorkSize, StorageSize1, StorageSize2 *)
Definition table_size (count n : nat) : nat := (count * n + fold_right Nat.add 0 (map (fun c => (count - c) * n) (seq 1 (count - 1))))%nat.
Definition pairs_count (n : nat) : nat := (n * (n + 1) / 2)%nat.
Definition work_size (s : setup) : nat :=
  Nat.max (if s_first s then 3 * s_n s + table_size (s_count s) (s_n s) else 0)%nat (if s_second s then 3 * s_n s + table_size (s_count s) (pairs_count (s_n s)) else 0)%nat.
Definition storage_size1 (s : setup) : nat := if s_first s then s_n s else 0%nat.
Definition storage_size2 (s : setup) : nat := if s_second s then (s_n s * s_n s)%nat else 0%nat.
(** derivative.cpp:71-85, 176-190 the cells of the work array that are used for an argument of length n *)
Definition first_used (s : setup) (n : nat) : nat := (3 * n + table_size (s_count s) n)%nat.
Definition second_used (s : setup) (n : nat) : nat := (3 * n + table_size (s_count s) (pairs_count n))%nat.

(** std::abs(dif) <= 1e-16 ? 0.0 : dif *)
Definition cut (v : R) : R := if Rle_dec (Rabs v) (1 / 10 ^ 16) then 0 else v.
(** c > 0 && A0.Get0(c - 1, p) == 0.0 *)
Definition skip (prev : option (list R)) (p : nat) : bool := match prev with Some row => if Req_EM_T (nth p row 0) 0 then true else false | None => false end.
(** derivative.cpp:87-109 the steps to the left and to the right (p = 0) *)
Definition first_steps (s : setup) (x : list R) : list R := map (fun v => let ax := Rabs v in if Rlt_dec ax (s_epsilon s) then s_step0 s / 2 else s_step1 s / 2 * ax) x.
(** derivative.cpp:122-140 one row of A0, and the division of the steps. x0 is x outside of the evaluation of f. *)
Definition first_dif (f : list R -> R) (x hl hr : list R) (i : nat) : R :=
  let f_l := f (upd i (nth i x 0 + nth i hl 0) x) in let f_r := f (upd i (nth i x 0 + nth i hr 0) x) in
  (f_l - f_r) / (nth i hl 0 - nth i hr 0).
Definition first_row (f : list R -> R) (x hl hr : list R) (prev : option (list R)) : list R :=
  map (fun i => if skip prev i then 0 else cut (first_dif f x hl hr i)) (seq 0 (length x)).
Fixpoint table (row : list R -> list R -> option (list R) -> list R) (T : R) (hl hr : list R) (prev : option (list R)) (k : nat) : list (list R) :=
  match k with
  | O => []
  | S k => let r := row hl hr prev in r :: table row T (map (fun h => h / T) hl) (map (fun h => h / T) hr) (Some r) k
  end.
(** derivative.cpp:146-157, 270-281 the extrapolation *)
Fixpoint map2 {A B C} (f : A -> B -> C) (l : list A) (k : list B) : list C := match l, k with a :: l, b :: k => f a b :: map2 f l k | _, _ => [] end.
Definition extrapolate_step (tki : R) (rows : list (list R)) : list (list R) := map2 (map2 (fun y x => (y * tki - x) / (tki - 1))) (tl rows) rows.
Fixpoint extrapolate (T : R) (c k : nat) (rows : list (list R)) : list (list R) :=
  match k with O => rows | S k => extrapolate T (S c) k (extrapolate_step (T ^ c) rows) end.
(** As[mCount - 1]; with mCount = 0 this (and As[0]) is outside of the vector *)
Definition last_row (s : setup) (rows : list (list R)) : res (list R) :=
  if Nat.eqb (s_count s) 0 then UB else match extrapolate (s_T s) 1 (s_count s - 1) rows with r :: _ => Ok r | [] => UB end.
(** derivative.cpp:55-160 CalculateFirst *)
Definition calculate_first (s : setup) (f : list R -> R) (x : list R) : res (list R) :=
  if Nat.ltb (s_n s) (length x) then Throw else if negb (s_first s) then Throw else if negb (Nat.eqb (length x * 1) (s_n s * 1)) then Throw (* Restructure, matrix.cpp:118-123 *)
  else let hl := first_steps s x in last_row s (table (first_row f x) (s_T s) hl (map Ropp hl) None (s_count s)).
(** derivative.cpp:192-214 *)
Definition second_steps (s : setup) (x : list R) : list R := map (fun v => let ax := Rabs v in if Rlt_dec ax 1 then 2 * s_step0 s else 2 * s_step1 s * ax) x.
(** derivative.cpp:219-267 *)
Definition second_dif (f : list R -> R) (x hl hr : list R) (i j : nat) : R :=
  let xi := nth i x 0 in let xj := nth j x 0 in let li := nth i hl 0 in let lj := nth j hl 0 in let ri := nth i hr 0 in let rj := nth j hr 0 in
  let df :=
    if Nat.eqb i j then f (upd i (xi + 2 * li) x) - f (upd i (xi + li + ri) x) - f (upd i (xi + li + ri) x) + f (upd i (xi + 2 * ri) x)
    else f (upd j (xj + lj) (upd i (xi + li) x)) - f (upd j (xj + rj) (upd i (xi + li) x)) - f (upd j (xj + lj) (upd i (xi + ri) x)) + f (upd j (xj + rj) (upd i (xi + ri) x)) in
  df / ((ri - li) * (rj - lj)).
Definition pairs (n : nat) : list (nat * nat) := flat_map (fun i => map (fun j => (i, j)) (seq i (n - i))) (seq 0 n).
Definition second_row (f : list R -> R) (x hl hr : list R) (prev : option (list R)) : list R :=
  map (fun pij => if skip prev (fst pij) then 0 else cut (second_dif f x hl hr (fst (snd pij)) (snd (snd pij)))) (combine (seq 0 (length (pairs (length x)))) (pairs (length x))).
(** matrix.cpp:1683-1704 MakeTriangular0 with up = 0, diag, byrow; div(i, m) with m = 0 is UB *)
Fixpoint triangular (m : Z) (i : Z) (l : list R) : list (Z * res R) :=
  match l with
  | [] => []
  | d :: l => let q := (i / m)%Z in let r := (i mod m)%Z in
      ((q + m * r)%Z, if (m =? 0)%Z then UB else Ok d) :: ((r + m * q)%Z, Ok d) :: triangular m ((if (r =? m - 1)%Z then i + (q + 1) else i) + 1)%Z l
  end.
(** derivative.cpp:162-284 CalculateSecond; [storage] is the array for the result *)
Definition calculate_second (s : setup) (f : list R -> R) (x storage : list R) : res (mat R) :=
  if Nat.ltb (s_n s) (length x) then Throw else if negb (s_second s) then Throw else if negb (Nat.eqb (length x * length x) (s_n s * s_n s)) then Throw (* Restructure *)
  else let hl := second_steps s x in do r <- last_row s (table (second_row f x) (s_T s) hl (map Ropp hl) None (s_count s));
       mwrites (Mat (length x) (length x) storage) (triangular (Z.of_nat (length x)) 0 r).
