(** Model of /repo/src/matrix/matrix.cpp: comparisons, ranges and interpolation with NaN, sorting of rows and columns, fills,
    triangular matrices. Elements that may be NaN are [option Qc] ([None] is NaN). *)
From Verif Require Export MatModel ArrModel DataModel SortModel.
Local Open Scope Z_scope.

(** ** Comparisons *)
Definition abs_diff (a b : Qc) : Qc := if qltb (b - a) 0 then (- (b - a))%Qc else (b - a)%Qc.
(** matrix.cpp:308-333 EqualsValueArray: the loop over the positions [ks] *)
Fixpoint value_loop (d : list (option Qc)) (ks : list Z) (b : option Qc) (eps : Qc) (ignore nans : bool) : res bool :=
  match ks with
  | [] => Ok true
  | k :: t => do a <- rd d k;
      match a, b with
      | Some x, Some y => if qltb eps (abs_diff x y) then Ok false else value_loop d t b eps ignore nans
      | None, _ => if ignore then value_loop d t b eps ignore nans
                   else match b with None => if nans then value_loop d t b eps ignore nans else Ok false | Some _ => Ok false end
      | Some _, None => Ok false
      end
  end.
Definition equals_array (d : list (option Qc)) (ks : list Z) (b : option Qc) (eps : Qc) (ignore nans : bool) : res bool :=
  match b with None => if ignore then Ok true else value_loop d ks b eps ignore nans | Some _ => value_loop d ks b eps ignore nans end.
(** matrix.cpp:349-360 EqualsValue, EqualsValueColumn *)
Definition equals_value (M : mat (option Qc)) (b : option Qc) (eps : Qc) (nans ignore : bool) : res bool := equals_array (data M) (zrange 0 (mlength M)) b eps ignore nans.
Definition equals_value_column (M : mat (option Qc)) (j : Z) (b : option Qc) (eps : Qc) (nans ignore : bool) : res bool :=
  equals_array (data M) (map (fun i => j * nrows M + i) (zrange 0 (nrows M))) b eps ignore nans.
(** matrix.cpp:369-414 Equals; [diff] is the value of abs_diff, None is NaN; abs is that of the standard library *)
Fixpoint equals_loop (d e : list (option Qc)) (ks : list Z) (eps : Qc) (nans : bool) (diff : option Qc) : res (bool * option Qc) :=
  match ks with
  | [] => Ok (true, diff)
  | k :: t => do a <- rd d k; do b <- rd e k;
      match a, b with
      | Some x, Some y => if qltb eps (abs_diff x y) then Ok (false, Some (abs_diff x y)) else equals_loop d e t eps nans (Some (abs_diff x y))
      | None, None => if nans then equals_loop d e t eps nans diff else Ok (false, None)
      | _, _ => Ok (false, None)
      end
  end.
Definition equals (same : bool) (M N : mat (option Qc)) (diff : option Qc) (eps : Qc) (throw nans : bool) : res (bool * option Qc) :=
  if same then Ok (true, diff)
  else if negb (nrows N =? nrows M) || negb (ncols N =? ncols M) then if throw then Throw else Ok (false, diff)
  else equals_loop (data M) (data N) (zrange 0 (mlength M)) eps nans diff.

(** ** Ranges and interpolation. [addr k] is the place of element k of a row or column. *)
Definition row_addr (M : mat (option Qc)) (i k : Z) : Z := pos M i k.
Definition col_addr (M : mat (option Qc)) (j k : Z) : Z := nrows M * j + k.
(** matrix.cpp:498-501, array.cpp:107-110 *)
Fixpoint fill_at (addr : Z -> Z) (d : list (option Qc)) (i : Z) (v step : Qc) (p : Z) (n : nat) (count : Z) : res (list (option Qc) * Z) :=
  match n with
  | O => Ok (d, count)
  | S m => do d' <- wr d (addr (i - p)) (Some (v - qz p * step)%Qc); fill_at addr d' i v step (p + 1) m (count + 1)
  end.
(** matrix.cpp:487-515, array.cpp:99-118; NaN as [first] in a quotient is UB here (shown unreachable) *)
Fixpoint interp_at (addr : Z -> Z) (d : list (option Qc)) (i : Z) (n : nat) (inm : bool) (first : option Qc) (len : Z) (count : Z) : res (list (option Qc) * Z) :=
  match n with
  | O => Ok (d, count)
  | S m =>
      do x <- rd d (addr i);
      match x with
      | None =>
          let len := len + 1 in
          if inm then interp_at addr d (i + 1) m true first len count
          else do f <- rd d (addr (i - 1)); interp_at addr d (i + 1) m true f len count
      | Some v =>
          if inm then
            match first with
            | None => UB
            | Some f =>
                let step := ((v - f) / qz len)%Qc in
                do '(d', c') <- fill_at addr d i v step 1 (Z.to_nat (len - 1)) count;
                interp_at addr d' (i + 1) m false first 1 c'
            end
          else interp_at addr d (i + 1) m false first len count
      end
  end.
(** matrix.cpp:469-525 InterpolateColumn, InterpolateRow; the range as in DataModel *)
Definition interpolate_line (by_row : bool) (M : mat (option Qc)) (i : Z) : res (irange * mat (option Qc) * Z) :=
  do s <- ts_series by_row M i; do '(r, m) <- get_range_m s;
  if m : bool then
    do '(d', c) <- interp_at (if by_row then row_addr M i else col_addr M i) (data M) (i_start r) (Z.to_nat (i_end r - i_start r + 1)) false None 1 0;
    Ok (r, with_data M d', c)
  else Ok (r, M, 0).
(** matrix.cpp:527-547 GetRange, the loop over the columns *)
Fixpoint range_loop (M : mat (option Qc)) (js : list Z) (s e : Z) (miss : bool) : res (irange * bool) :=
  match js with
  | [] => Ok (irange_make s e, miss)
  | j :: t => do v <- ts_series false M j; do '(r, m) <- get_range_m v;
      let miss := (miss || m)%bool in let s := Z.max s (i_start r) in let e := Z.min e (i_end r) in
      if e <? s then Ok (irange_make (-1) (-1), miss) else range_loop M t s e miss
  end.
Definition get_range_all (M : mat (option Qc)) : res (irange * bool) := range_loop M (zrange 0 (ncols M)) 0 2147483647 false.

(** ** Sorting: matrix.cpp:882-931 SortRowsBy, SortColumnsBy *)
Fixpoint lines_from {A} (set : mat A -> Z -> Z -> res (mat A)) (S : mat A) (j : Z) (idx : list Z) : res (mat A) :=
  match idx with [] => Ok S | i :: t => do S' <- set S j i; lines_from set S' (j + 1) t end.
Definition sort_rows_by {A} (M S : mat A) (idx : list Z) : res (mat A) :=
  if negb (nrows S =? nrows M) || negb (ncols S =? ncols M) then Throw
  else if negb (Z.of_nat (length idx) =? nrows M) then Throw
  else match maxl idx with None => UB | Some m => if nrows S - 1 <? m then Throw else lines_from (fun S j i => set_row_from_row S j M i) S 0 idx end.
Definition sort_columns_by {A} (M S : mat A) (idx : list Z) : res (mat A) :=
  if negb (nrows S =? nrows M) || negb (ncols S =? ncols M) then Throw
  else if negb (Z.of_nat (length idx) =? ncols M) then Throw
  else match maxl idx with None => UB | Some m => if ncols S - 1 <? m then Throw else lines_from (fun S j i => set_column_from_column S j M i) S 0 idx end.

(** ** Fills *)
(** matrix.cpp:952-963 SetValue, SetSequence *)
Definition set_value {A} (M : mat A) (v : A) : res (mat A) := mwrites M (map (fun k => (k, Ok v)) (zrange 0 (mlength M))).
Fixpoint sequence_writes (ks : list Z) (s step : Qc) : list (Z * res Qc) :=
  match ks with [] => [] | k :: t => (k, Ok s) :: sequence_writes t (s + step)%Qc step end.
Definition set_sequence (M : mat Qc) (start step : Qc) : res (mat Qc) := mwrites M (sequence_writes (zrange 0 (mlength M)) start step).
(** matrix.cpp:965-989 SetValueDiag (two versions), SetValueOffDiag *)
Definition set_value_diag {A} (M : mat A) (v : A) : res (mat A) :=
  if negb (nrows M =? ncols M) then Throw else mwrites M (map (fun i => (pos M i i, Ok v)) (zrange 0 (nrows M))).
Definition set_value_diag2 {A} (M : mat A) (v w : A) : res (mat A) :=
  if negb (nrows M =? ncols M) then Throw else do M' <- set_value M w; set_value_diag M' v.
Definition set_value_off_diag {A} (M : mat A) (v : A) : res (mat A) :=
  if negb (nrows M =? ncols M) then Throw
  else mwrites M (flat_map (fun i => flat_map (fun j => if i =? j then [] else [(pos M i j, Ok v)]) (zrange 0 (nrows M))) (zrange 0 (nrows M))).
(** matrix.cpp:777-837 IndicesOfVector, Any, All; [same] is the comparison with the value (isnan for NaN) *)
Fixpoint indices_loop {A} (same : A -> bool) (d : list A) (ks : list Z) : res (list Z) :=
  match ks with [] => Ok [] | k :: t => do x <- rd d k; do r <- indices_loop same d t; Ok (if same x then k :: r else r) end.
Definition indices_of {A} (same : A -> bool) (M : mat A) : res (list Z) := indices_loop same (data M) (zrange 0 (mlength M)).
Fixpoint any_loop {A} (same : A -> bool) (d : list A) (ks : list Z) : res bool :=
  match ks with [] => Ok false | k :: t => do x <- rd d k; if same x then Ok true else any_loop same d t end.
Definition any_of {A} (same : A -> bool) (M : mat A) : res bool := any_loop same (data M) (zrange 0 (mlength M)).
Fixpoint all_loop {A} (same : A -> bool) (d : list A) (ks : list Z) : res bool :=
  match ks with [] => Ok true | k :: t => do x <- rd d k; if same x then all_loop same d t else Ok false end.
Definition all_of {A} (same : A -> bool) (M : mat A) : res bool := all_loop same (data M) (zrange 0 (mlength M)).

(** ** Triangles: matrix.cpp:1682-1752 MakeTriangular0, one loop; [u] and [l] are the assignments to (quot, rem) and (rem, quot);
    without the diagonal i is increased before the division, and by one more at the end of a row. div(i, 0) is UB. *)
Fixpoint tri_loop {A} (u l diag : bool) (m i : Z) (es : list A) : list (Z * res A) :=
  match es with
  | [] => []
  | d :: t =>
      let i := if diag then i else i + 1 in let q := i / m in let r := i mod m in let v := if m =? 0 then UB else Ok d in
      (if u then [(q + m * r, v)] else []) ++ (if l then [(r + m * q, v)] else []) ++
      tri_loop u l diag m ((if r =? m - 1 then i + (q + (if diag then 1 else 2)) else i) + (if diag then 1 else 0)) t
  end.
Definition make_triangular0 {A} (S : mat A) (es : list A) (up : Z) (diag byrow : bool) : res (mat A) :=
  if (up =? 0) || (up =? 1) then if byrow then mwrites S (tri_loop true (up =? 0) diag (nrows S) 0 es) else Throw
  else if byrow then Throw else mwrites S (tri_loop false true diag (nrows S) 0 es).
(** matrix.cpp:1665-1680 MakeTriangular; [elements] is the data of the matrix of elements *)
Definition make_triangular {A} (S : mat A) (E : mat A) (up : Z) (diag byrow : bool) : res (mat A) :=
  let m := nrows S in
  if negb (m =? ncols S) then Throw
  else if diag && negb (mlength E =? m * (m + 1) / 2) then Throw
  else if negb diag && negb (mlength E =? m * (m - 1) / 2) then Throw
  else make_triangular0 S (firstn (Z.to_nat (mlength E)) (data E)) up diag byrow.
