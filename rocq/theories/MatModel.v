(** Model of /repo/src/matrix/matrix.cpp (element access, sub-matrices, rows, columns, removal),
    matrix_la.cpp:227-239,391-510 (diagonal products, transposition, Kronecker products) and
    matrix_sym.cpp. A matrix has its dimensions and the storage its Data points to (column after
    column; the storage may be longer). RowsCount and ColsCount are not negative; Data is not null;
    the target of a copy is another matrix than its source. Every read or write outside the storage
    is UB. *)
From Verif Require Export Base Num.
Local Open Scope Z_scope.

Record mat (A : Type) := Mat { rows : nat; cols : nat; data : list A }.
Arguments Mat {A}. Arguments rows {A}. Arguments cols {A}. Arguments data {A}.
Definition nrows {A} (M : mat A) : Z := Z.of_nat (rows M).
Definition ncols {A} (M : mat A) : Z := Z.of_nat (cols M).
Definition with_data {A} (M : mat A) (d : list A) : mat A := Mat (rows M) (cols M) d.

(** Data[k] read and written. *)
Definition rd {A} (d : list A) (k : Z) : res A :=
  if k <? 0 then UB else match nth_error d (Z.to_nat k) with Some v => Ok v | None => UB end.
Definition wr {A} (d : list A) (k : Z) (v : A) : res (list A) :=
  if (k <? 0) || (Z.of_nat (length d) <=? k) then UB else Ok (upd (Z.to_nat k) v d).

(** A loop as the list of its assignments Data[p] = e, executed in order. [zrange a n] are the values
    a, a+1, ... of a loop variable with n iterations (none for negative n). *)
Fixpoint writes {A} (l : list (Z * res A)) (d : list A) : res (list A) :=
  match l with [] => Ok d | (p, e) :: t => do v <- e; do d' <- wr d p v; writes t d' end.
Definition zrange (a n : Z) : list Z := map (fun k => a + Z.of_nat k) (seq 0 (Z.to_nat n)).
Definition mwrites {A} (M : mat A) (l : list (Z * res A)) : res (mat A) := do d <- writes l (data M); Ok (with_data M d).

(** matrix.cpp:131-138 length, Restructure. *)
Definition mlength {A} (M : mat A) : Z := nrows M * ncols M.
Definition restructure {A} (M : mat A) (r c : nat) : res (mat A) :=
  if negb (Z.of_nat r * Z.of_nat c =? nrows M * ncols M) then Throw else Ok (Mat r c (data M)).

(** matrix.cpp:211-214 TranslateIndex (division by zero is UB). *)
Definition translate_index {A} (M : mat A) (k : Z) : res (Z * Z) :=
  if (nrows M =? 0)%Z then UB else Ok (Z.rem k (nrows M), Z.quot k (nrows M)).

(** matrix.cpp:216-263 Get, Get0, Get(i), GetVector, Set, Set0. *)
Definition pos {A} (M : mat A) (i j : Z) : Z := i + nrows M * j.
Definition get0 {A} (M : mat A) (i j : Z) : res A := rd (data M) (pos M i j).
Definition outside {A} (M : mat A) (i j : Z) : bool := (nrows M <=? i) || (ncols M <=? j) || (i <? 0) || (j <? 0).
Definition get {A} (M : mat A) (i j : Z) : res A := if outside M i j then Throw else get0 M i j.
Definition get1 {A} (M : mat A) (i : Z) : res A := if (i <? 0) || (mlength M <=? i) then Throw else rd (data M) i.
Definition get_vector {A} (M : mat A) (i : Z) : res A :=
  if negb (ncols M =? 1) then Throw else if (i <? 0) || (nrows M <=? i) then Throw else rd (data M) i.
Definition set0 {A} (M : mat A) (i j : Z) (v : A) : res (mat A) := mwrites M [(pos M i j, Ok v)].
Definition set {A} (M : mat A) (i j : Z) (v : A) : res (mat A) := if outside M i j then Throw else set0 M i j v.
(** matrix.cpp:286-301 Set(i), SetVector. *)
Definition set1 {A} (M : mat A) (i : Z) (v : A) : res (mat A) :=
  if (mlength M <=? i) || (i <? 0) then Throw else mwrites M [(i, Ok v)].
Definition set_vector {A} (M : mat A) (i : Z) (v : A) : res (mat A) :=
  if negb (ncols M =? 1) then Throw else if (i <? 0) || (nrows M <=? i) then Throw else mwrites M [(i, Ok v)].
(** matrix.cpp:774-775 Last, First. *)
Definition last_elem {A} (M : mat A) : res A := rd (data M) (mlength M).
Definition first_elem {A} (M : mat A) : res A := rd (data M) 0.

(** ** Sub-matrices *)
(** matrix.cpp:1118-1132 SetSub0, with the element [val t u] for iteration (t, u). *)
Definition grid {A} (M : mat A) (r c : Z) (nr nc : Z) (val : Z -> Z -> res A) : list (Z * res A) :=
  flat_map (fun t => map (fun u => (pos M (r + t) (c + u), val t u)) (zrange 0 nc)) (zrange 0 nr).
Definition set_sub0 {A} (M : mat A) (r c : Z) (S : mat A) (sr sc nr nc : Z) : res (mat A) :=
  mwrites M (grid M r c nr nc (fun t u => get0 S (sr + t) (sc + u))).
(** matrix.cpp:1091-1115 SetSub. *)
Definition set_sub {A} (M : mat A) (r c : Z) (S : mat A) (sr sc nr nc : Z) : res (mat A) :=
  if nrows M <? r + nr then Throw else if ncols M <? c + nc then Throw
  else if nrows S <? sr + nr then Throw else if ncols S <? sc + nc then Throw
  else set_sub0 M r c S sr sc nr nc.
(** matrix.cpp:1134-1175 SetSub_t, SetSub_t0. *)
Definition set_sub_t {A} (M : mat A) (r c : Z) (S : mat A) (sr sc nr nc : Z) : res (mat A) :=
  if nrows M <? r + nr then Throw else if ncols M <? c + nc then Throw
  else if ncols S <? sc + nr then Throw else if nrows S <? sr + nc then Throw
  else mwrites M (grid M r c nr nc (fun t u => get0 S (sr + u) (sc + t))).
(** matrix.cpp:1177-1195 SetSubVector, SetSubVector0. *)
Definition set_sub_vector {A} (M : mat A) (start : Z) (S : mat A) (sstart count : Z) : res (mat A) :=
  if nrows M <? start + count then Throw
  else mwrites M (map (fun t => (start + t, rd (data S) (sstart + t))) (zrange 0 count)).
(** matrix.cpp:1197-1226 GetSub of a contiguous block; the result is the new storage. *)
Definition get_sub {A} (M : mat A) (r c nr nc : Z) (S : mat A) (sr sc : Z) : res (mat A) :=
  if nrows M <? r + nr then Throw else if ncols M <? c + nc then Throw
  else if (nr + sr <? nrows S) || (nc + sc <? ncols S) then Throw
  else set_sub0 S sr sc M r c nr nc.

(** Loops over a vector of indexes, with the number of the iteration. *)
Definition enum {A} (l : list A) : list (Z * A) := combine (zrange 0 (Z.of_nat (length l))) l.
(** matrix.cpp:1294-1332 GetSub0 of a range and a vector of indexes. *)
Definition excluded (n : nat) (idx : list Z) : list Z := filter (fun j => negb (existsb (Z.eqb j) idx)) (zrange 0 (Z.of_nat n)).
Definition get_sub_idx0 {A} (M : mat A) (first count : Z) (idx : list Z) (first_is_row : bool) (S : mat A) (sr sc : Z) (exclude : bool) : res (mat A) :=
  let ix := if exclude then excluded (if first_is_row then cols M else rows M) idx else idx in
  mwrites S
    (if first_is_row : bool then
       flat_map (fun t => map (fun uj => (pos S (sr + t) (sc + fst uj), get0 M (first + t) (snd uj))) (enum ix)) (zrange 0 count)
     else
       flat_map (fun u => map (fun ti => (pos S (sr + fst ti) (sc + u), get0 M (snd ti) (first + u))) (enum ix)) (zrange 0 count)).
(** matrix.cpp:1228-1292 its size checks. *)
Definition get_sub_idx {A} (M : mat A) (first count : Z) (idx : list Z) (first_is_row : bool) (S : mat A) (sr sc : Z) (exclude : bool) : res (mat A) :=
  let n := if exclude then (if first_is_row then ncols M else nrows M) - Z.of_nat (length idx) else Z.of_nat (length idx) in
  let '(need_r, need_c) := if first_is_row then (count + sr, n + sc) else (n + sr, count + sc) in
  if negb (nrows S =? need_r) || negb (ncols S =? need_c) then Throw
  else get_sub_idx0 M first count idx first_is_row S sr sc exclude.
(** matrix.cpp:1334-1359 GetSub of two vectors of indexes. *)
Definition get_sub_lists {A} (M : mat A) (ri ci : list Z) (S : mat A) (sr sc : Z) : res (mat A) :=
  if negb (nrows S =? Z.of_nat (length ri) + sr) then Throw
  else if negb (ncols S =? Z.of_nat (length ci) + sc) then Throw
  else mwrites S (flat_map (fun ti => map (fun uj => (pos S (sr + fst ti) (sc + fst uj), get0 M (snd ti) (snd uj))) (enum ci)) (enum ri)).
(** matrix.cpp:1361-1379 GetSubVector, GetSubVector0. *)
Definition get_sub_vector {A} (M : mat A) (start count : Z) (S : mat A) (sstart : Z) : res (mat A) :=
  if negb (ncols M =? 1) then Throw else if negb (nrows S =? count + sstart) then Throw
  else set_sub_vector S sstart M start count.

(** ** Rows, columns, diagonals: matrix.cpp:1381-1618 *)
Definition bad (n i : Z) : bool := (n <=? i) || (i <? 0).
Definition set_row_value {A} (M : mat A) (i : Z) (v : A) : res (mat A) :=
  if bad (nrows M) i then Throw else mwrites M (map (fun j => (pos M i j, Ok v)) (zrange 0 (ncols M))).
Definition set_row {A} (M : mat A) (i : Z) (S : mat A) : res (mat A) :=
  if bad (nrows M) i then Throw else mwrites M (map (fun j => (pos M i j, rd (data S) j)) (zrange 0 (ncols M))).
Definition set_row_from_row {A} (M : mat A) (i : Z) (S : mat A) (k : Z) : res (mat A) :=
  if bad (nrows M) i then Throw else if bad (nrows S) k then Throw
  else mwrites M (map (fun j => (pos M i j, get0 S k j)) (zrange 0 (ncols M))).
Definition set_row_from_diag {A} (M : mat A) (i : Z) (S : mat A) : res (mat A) :=
  if bad (nrows M) i then Throw else if negb (ncols M =? ncols S) || negb (ncols M =? nrows S) then Throw
  else mwrites M (map (fun j => (pos M i j, rd (data S) (j * (nrows S + 1)))) (zrange 0 (ncols M))).
Definition set_sub_row {A} (M : mat A) (row cstart : Z) (S : mat A) (len : Z) : res (mat A) :=
  if bad (nrows M) row then Throw else if ncols M <? cstart + len then Throw else if mlength S <? len then Throw
  else mwrites M (map (fun t => (pos M row (cstart + t), rd (data S) t)) (zrange 0 len)).
Definition set_column_value {A} (M : mat A) (j : Z) (v : A) : res (mat A) :=
  if bad (ncols M) j then Throw else mwrites M (map (fun i => (pos M i j, Ok v)) (zrange 0 (nrows M))).
Definition set_column {A} (M : mat A) (j : Z) (S : mat A) : res (mat A) :=
  if bad (ncols M) j then Throw else mwrites M (map (fun i => (pos M i j, rd (data S) i)) (zrange 0 (nrows M))).
(** matrix.cpp:1499-1504 SetColumnFromRow0 loops over i < ColsCount. *)
Definition set_column_from_row {A} (M : mat A) (j : Z) (S : mat A) (k : Z) : res (mat A) :=
  if bad (ncols M) j then Throw else if bad (nrows S) k then Throw
  else mwrites M (map (fun i => (pos M i j, get0 S k i)) (zrange 0 (ncols M))).
(** matrix.cpp:1514-1520 SetColumnFromColumn0 takes the stride of this matrix for the source. *)
Definition set_column_from_column {A} (M : mat A) (j : Z) (S : mat A) (k : Z) : res (mat A) :=
  if bad (ncols M) j then Throw else if bad (ncols S) k then Throw
  else mwrites M (map (fun i => (pos M i j, rd (data S) (nrows M * k + i))) (zrange 0 (nrows M))).
Definition set_column_from_diag {A} (M : mat A) (j : Z) (S : mat A) : res (mat A) :=
  if bad (ncols M) j then Throw else if negb (nrows S =? nrows M) || negb (ncols S =? nrows M) then Throw
  else mwrites M (map (fun i => (pos M i j, rd (data S) (i * (nrows S + 1)))) (zrange 0 (nrows M))).
Definition get_row {A} (M : mat A) (i : Z) (S : mat A) : res (mat A) :=
  if bad (nrows M) i then Throw else if negb (mlength S =? ncols M) then Throw
  else mwrites S (map (fun j => (j, get0 M i j)) (zrange 0 (ncols M))).
Definition get_column {A} (M : mat A) (j : Z) (S : mat A) : res (mat A) :=
  if bad (ncols M) j then Throw else if negb (mlength S =? nrows M) then Throw
  else mwrites S (map (fun i => (i, get0 M i j)) (zrange 0 (nrows M))).
Definition get_diag {A} (M : mat A) (S : mat A) : res (mat A) :=
  if negb (nrows M =? ncols M) then Throw else if mlength S <? nrows M then Throw
  else mwrites S (map (fun i => (i, rd (data M) (i * (nrows M + 1)))) (zrange 0 (nrows M))).

(** ** Transposition into another matrix: matrix.cpp:2275-2279, matrix_la.cpp:391-397 *)
Definition transpose_to {A} (M S : mat A) : res (mat A) :=
  if negb (nrows S =? ncols M) || negb (ncols S =? nrows M) then Throw
  else mwrites S (flat_map (fun i => map (fun j => (pos S j i, get0 M i j)) (zrange 0 (ncols M))) (zrange 0 (nrows M))).

(** ** Transposition in place: matrix_la.cpp:399-426 *)
Definition swap {A} (d : list A) (a c : Z) : res (list A) :=
  do x <- rd d a; do y <- rd d c; do d1 <- wr d a y; wr d1 c x.
Fixpoint swaps {A} (l : list (Z * Z)) (d : list A) : res (list A) :=
  match l with [] => Ok d | (a, c) :: t => do d' <- swap d a c; swaps t d' end.
Definition int_max : Z := 2147483647.
(** One cycle. Signed overflow of ColsCount * a is UB. *)
Fixpoint cycle {A} (fuel : nat) (n N c a : Z) (vis : list bool) (d : list A) : res (list bool * list A) :=
  match fuel with
  | O => UB
  | S f =>
      if int_max <? n * a then UB
      else
        let a' := Z.rem (n * a) N in
        do vis' <- wr vis a' true;
        do d' <- swap d a' c;
        if a' =? c then Ok (vis', d') else cycle f n N c a' vis' d'
  end.
Fixpoint cycles {A} (n N : Z) (l : list Z) (vis : list bool) (d : list A) : res (list A) :=
  match l with
  | [] => Ok d
  | c :: t =>
      do v <- rd vis c;
      if v : bool then cycles n N t vis d
      else do '(vis', d') <- cycle (S (Z.to_nat N)) n N c c vis d; cycles n N t vis' d'
  end.
(** visited(N) with N = -1 throws length_error. *)
Definition transpose {A} (M : mat A) : res (mat A) :=
  if nrows M =? ncols M then
    do d <- swaps (flat_map (fun i => map (fun j => (pos M j i, pos M i j)) (zrange (i + 1) (ncols M - (i + 1)))) (zrange 0 (nrows M))) (data M);
    Ok (with_data M d)
  else
    let N := mlength M - 1 in
    if N <? 0 then Throw
    else do d <- cycles (ncols M) N (zrange 0 N) (repeat false (Z.to_nat N)) (data M); Ok (Mat (cols M) (rows M) d).

(** ** Products: matrix_la.cpp:428-510, 227-239. [outer m p] are the values of the two loop variables
    in the order of the counter that is incremented in the inner loop. *)
Definition outer (m p : Z) : list (Z * (Z * Z)) := enum (list_prod (zrange 0 m) (zrange 0 p)).
Definition kron_loop (m p n q : Z) (S : mat Qc) (val : Z * Z -> Z * Z -> res Qc) : res (mat Qc) :=
  mwrites S (flat_map (fun r => map (fun c => (pos S (fst r) (fst c), val (snd r) (snd c))) (outer n q)) (outer m p)).
Definition times (a b : res Qc) : res Qc := do x <- a; do y <- b; Ok (x * y)%Qc.
Definition delta (a b : Z) : Qc := if a =? b then 1%Qc else 0%Qc.
Definition kron (M B S : mat Qc) : res (mat Qc) :=
  if negb (ncols S =? ncols M * ncols B) || negb (nrows S =? nrows M * nrows B) then Throw
  else kron_loop (nrows M) (nrows B) (ncols M) (ncols B) S
         (fun r c => times (get0 M (fst r) (fst c)) (get0 B (snd r) (snd c))).
Definition kron_iden (M : mat Qc) (h : Z) (S : mat Qc) : res (mat Qc) :=
  if negb (ncols S =? ncols M * h) || negb (nrows S =? nrows M * h) then Throw
  else kron_loop (nrows M) h (ncols M) h S
         (fun r c => times (get0 M (fst r) (fst c)) (Ok (delta (snd r) (snd c)))).
Definition iden_kron (M : mat Qc) (h : Z) (S : mat Qc) : res (mat Qc) :=
  if negb (ncols S =? ncols M * h) || negb (nrows S =? nrows M * h) then Throw
  else kron_loop h (nrows M) h (ncols M) S
         (fun r c => times (get0 M (snd r) (snd c)) (Ok (delta (fst r) (fst c)))).
Definition tr_kron_iden (M : mat Qc) (h : Z) (S : mat Qc) : res (mat Qc) :=
  if negb (ncols S =? nrows M * h) || negb (nrows S =? ncols M * h) then Throw
  else kron_loop (ncols M) h (nrows M) h S
         (fun r c => times (get0 M (fst c) (fst r)) (Ok (delta (snd r) (snd c)))).

(** matrix.cpp:2199-2214, matrix_la.cpp:227-239: DotDiag0 loops over j < RowsCount. *)
Definition dot_diag (M B S : mat Qc) : res (mat Qc) :=
  if negb (ncols M =? mlength B) then Throw
  else if negb (nrows M =? nrows S) || negb (mlength B =? ncols S) then Throw
  else mwrites S (flat_map (fun j => map (fun i => (pos S i j, times (rd (data B) j) (get0 M i j))) (zrange 0 (nrows M))) (zrange 0 (nrows M))).
Definition diag_dot (M B S : mat Qc) : res (mat Qc) :=
  if negb (nrows B =? mlength M) then Throw
  else if negb (ncols B =? ncols S) || negb (mlength M =? nrows S) then Throw
  else mwrites S (flat_map (fun i => map (fun j => (pos S i j, times (rd (data M) i) (get0 B i j))) (zrange 0 (ncols B))) (zrange 0 (mlength M))).

(** ** In-place removal: matrix.cpp:627-733. [skip] is isnan, or isnan or isinf, as removeInf says. *)
Fixpoint compact {A} (skip : A -> bool) (l : list Z) (d : list A) (j : Z) : res (list A * Z) :=
  match l with
  | [] => Ok (d, j)
  | i :: t => do x <- rd d i;
      if skip x then compact skip t d j else do d' <- wr d j x; compact skip t d' (j + 1)
  end.
Definition remove_nan_vector {A} (skip : A -> bool) (M : mat A) : res (mat A) :=
  do '(d, j) <- compact skip (zrange 0 (mlength M)) (data M) 0;
  Ok (if 1 <? ncols M then Mat 1 (Z.to_nat j) d else Mat (Z.to_nat j) 1 d).
(** Copy of column j to column w, element by element in the same storage; with [stop] only up to the
    first NaN (the flag tells that one was found). *)
Fixpoint copy_col {A} (stop : A -> bool) (l : list Z) (r j w : Z) (d : list A) : res (list A * bool) :=
  match l with
  | [] => Ok (d, false)
  | i :: t => do x <- rd d (j * r + i);
      if stop x then Ok (d, true) else do d' <- wr d (w * r + i) x; copy_col stop t r j w d'
  end.
Fixpoint remove_cols_loop {A} (del : Z -> bool) (l : list Z) (r w : Z) (d : list A) : res (list A * Z) :=
  match l with
  | [] => Ok (d, w)
  | j :: t => if del j then remove_cols_loop del t r w d
      else do '(d', _) <- copy_col (fun _ => false) (zrange 0 r) r j w d; remove_cols_loop del t r (w + 1) d'
  end.
Definition remove_columns {A} (M : mat A) (cs : list Z) : res (mat A) :=
  match cs with
  | [] => Ok M
  | _ => do '(d, w) <- remove_cols_loop (fun j => existsb (Z.eqb j) cs) (zrange 0 (ncols M)) (nrows M) 0 (data M);
         Ok (Mat (rows M) (Z.to_nat w) d)
  end.
Fixpoint remove_nan_cols_loop {A} (skip : A -> bool) (l : list Z) (r w : Z) (d : list A) : res (list A * Z) :=
  match l with
  | [] => Ok (d, w)
  | j :: t => do '(d', broken) <- copy_col skip (zrange 0 r) r j w d;
      remove_nan_cols_loop skip t r (if broken : bool then w else w + 1) d'
  end.
Definition remove_columns_any_nan {A} (skip : A -> bool) (M : mat A) : res (mat A) :=
  do '(d, w) <- remove_nan_cols_loop skip (zrange 0 (ncols M)) (nrows M) 0 (data M);
  Ok (Mat (rows M) (Z.to_nat w) d).

(** ** MatrixSym: matrix_sym.cpp:30-104 *)
Record symmat (A : Type) := Sym { srows : nat; sdata : list A }.
Arguments Sym {A}. Arguments srows {A}. Arguments sdata {A}.
Definition sym_length (diag : bool) (n : Z) : Z := if diag then Z.quot (n * (n + 1)) 2 else Z.quot (n * (n - 1)) 2.
Definition sym_index (diag : bool) (n i j : Z) : Z :=
  if diag then (if j <? i then j * n + i - Z.quot (j * (j + 1)) 2 else i * n + j - Z.quot (i * (i + 1)) 2)
  else (if j <? i then j * n + i - Z.quot ((j + 1) * (j + 2)) 2 else i * n + j - Z.quot ((i + 1) * (i + 2)) 2).
Definition sym_get0 {A} (diag : bool) (M : symmat A) (i j : Z) : res A :=
  if negb diag && (i =? j) then Throw else rd (sdata M) (sym_index diag (Z.of_nat (srows M)) i j).
Definition sym_set0 {A} (diag : bool) (M : symmat A) (i j : Z) (v : A) : res (symmat A) :=
  if negb diag && (i =? j) then Throw
  else do d <- wr (sdata M) (sym_index diag (Z.of_nat (srows M)) i j) v; Ok (Sym (srows M) d).
Definition sym_outside (n : nat) (i j : Z) : bool := (Z.of_nat n <=? i) || (Z.of_nat n <=? j) || (i <? 0) || (j <? 0).
Definition sym_get {A} (diag : bool) (M : symmat A) (i j : Z) : res A :=
  if sym_outside (srows M) i j then Throw else sym_get0 diag M i j.
Definition sym_set {A} (diag : bool) (M : symmat A) (i j : Z) (v : A) : res (symmat A) :=
  if sym_outside (srows M) i j then Throw else sym_set0 diag M i j v.
