(** Model of the covariances of /repo/src/ldt_statistics/correlation.cpp (class Correlation, by column); correlations are
    in CorRealModel. Data are [option Qc]; [None] is NaN; arithmetic is exact. The parts of the storage array (Result, Means
    or ResultCounts) are given as separate lists. *)
From Verif Require Export ColModel StatModel.
Local Open Scope Z_scope.

(** ** Operations on matrices of numbers with NaN *)
Section Gram.
Context {T : Type} (zero : T) (add mul : T -> T -> T).
Definition column_product (C : mat T) (i j : Z) : res T :=
  do l <- rmap (fun k => do a <- rd (data C) (k + nrows C * i); do b <- rd (data C) (k + nrows C * j); Ok (mul a b)) (zrange 0 (nrows C));
  Ok (fold_left add l zero).
(** matrix_la.cpp:275-305 Dot_AtA0: dsyrk (upper triangle of C'C; the old values are not used), then the lower triangle. *)
Definition gram (C S : mat T) (lower : bool) : res (mat T) :=
  if bad_ld (nrows C) (nrows C) || bad_ld (ncols C) (ncols C) then Throw
  else do S1 <- mwrites S (map (fun ij => (fst ij + ncols C * snd ij, column_product C (fst ij) (snd ij))) (filter (fun ij => fst ij <=? snd ij) (MatDotModel.cells (ncols C) (ncols C))));
    if lower then mwrites S1 (map (fun ij => (pos S1 (fst ij) (snd ij), get0 S1 (snd ij) (fst ij))) (filter (fun ij => negb (fst ij <=? snd ij)) (MatDotModel.cells (ncols C) (ncols C))))
    else Ok S1.
(** matrix.cpp:2057-2060 Divide_in: all elements. *)
Definition map_in (f : T -> T) (S : mat T) : res (mat T) :=
  mwrites S (map (fun k => (k, do x <- rd (data S) k; Ok (f x))) (zrange 0 (mlength S))).
(** matrix.cpp:3081-3121 the loops of ColumnsStandard: the new element from the column number and the old element. *)
Definition columnwise (M : mat (option Qc)) (f : Z -> option Qc -> res T) : res (mat T) :=
  do d <- rmap (fun ji => do x <- rd (data M) (fst ji * nrows M + snd ji); f (fst ji) x) (list_prod (zrange 0 (ncols M)) (zrange 0 (nrows M)));
  Ok (Mat (rows M) (cols M) d).
End Gram.

(** ** Pearson *)
(** correlation.cpp:113-137, covariances: Result and Means. A work array which is too short is UB. *)
Definition pearson_cov (M : mat (option Qc)) (sR sM : list (option Qc)) (work : Z) (adjust lower : bool) : res (mat (option Qc) * mat (option Qc)) :=
  if work <? mlength M then UB else
  do Me <- columns_means M (Mat (cols M) 1 sM) false;
  do C <- columnwise (T := option Qc) M (fun j x => do m <- rd (data Me) j; Ok (x -f m));
  do S <- gram (T := option Qc) (Some 0%Qc) fadd fmul C (Mat (cols M) (cols M) sR) lower;
  do S <- map_in (T := option Qc) (fun x => x /f Some (qz (if adjust then nrows M - 1 else nrows M))) S;
  Ok (S, Me).
(** correlation.cpp:74-111, NaNs left out: the writes to Result and ResultCounts for the pairs i < j. *)
Definition pair_writes {T} (S : mat T) (lower : bool) (val : Z -> Z -> res T) (n i : Z) : list (Z * res T) :=
  flat_map (fun j => if i <? j then (pos S i j, val i j) :: (if lower then [(pos S j i, val i j)] else []) else []) (zrange 0 n).
Definition pearson_cov_nan (M : mat (option Qc)) (sR : list (option Qc)) (sC : list Z) (adjust lower : bool) : res (mat (option Qc) * symmat Z) :=
  let n := ncols M in let S := Mat (cols M) (cols M) sR in
  do S' <- mwrites S (flat_map (fun i => (pos S i i, do r <- variance_column M i adjust true; Ok (snd r)) ::
             pair_writes S lower (fun i j => do r <- covariance_column M i j adjust true; Ok (snd r)) n i) (zrange 0 n));
  do c <- writes (flat_map (fun i => (sym_index true n i i, do r <- variance_column M i adjust true; Ok (snd (fst r))) ::
             flat_map (fun j => if i <? j then [(sym_index true n i j, do r <- covariance_column M i j adjust true; Ok (snd (fst r)))] else []) (zrange 0 n)) (zrange 0 n)) sC;
  Ok (S', Sym (cols M) c).
(** ** Spearman *)
Definition with_nan (M : mat Qc) : mat (option Qc) := Mat (rows M) (cols M) (map Some (data M)).
(** The numbers of a matrix without NaN. *)
Definition numbers (M : mat (option Qc)) : mat Qc := Mat (rows M) (cols M) (map (fun x => match x with Some q => q | None => 0%Qc end) (data M)).
(** correlation.cpp:191-201: the ranks (in the first part of the work array), then Pearson with the rest. *)
Definition spearman_cov (M : mat Qc) (sR sM : list (option Qc)) (work : list Qc) (adjust lower : bool) : res (mat (option Qc) * mat (option Qc)) :=
  do K <- rank (nrows M) (ncols M) M (from (mlength M) work) work false;
  pearson_cov (with_nan K) sR sM (Z.of_nat (length work) - mlength M) adjust lower.
(** correlation.cpp:153-189: the complete rows of columns i and j, their ranks, the element (0, 1) of their matrix. The
    four parts of the work array have the sizes of the objects (r = rows of the matrix). *)
Definition is_none (x : option Qc) : bool := match x with None => true | _ => false end.
Definition pair_ranks (M : mat (option Qc)) (i j : Z) : res (mat Qc) :=
  let r := nrows M in let junk := repeat 0%Qc (2 * rows M) in
  do D <- dataset_calculate is_none true true M (Some [i; j]) (repeat None (2 * rows M));
  rank r 2 (numbers D) junk junk false.
Definition spearman_cov_pair (M : mat (option Qc)) (adjust : bool) (i j : Z) : res (option Qc) :=
  do K <- pair_ranks M i j;
  do c <- pearson_cov (with_nan K) (repeat None 4) (repeat None 2) (2 * nrows M) adjust false; rd (data (fst c)) 2.
(** correlation.cpp:172-188 the loops over i <= j. *)
Definition spearman_nan {T} (M : mat (option Qc)) (val : Z -> Z -> res T) (sR : list T) (sC : list Z) (lower : bool) : res (mat T * symmat Z) :=
  let n := ncols M in let S := Mat (cols M) (cols M) sR in
  do S' <- mwrites S (flat_map (fun i => flat_map (fun j => if i <=? j then (pos S i j, val i j) :: (if lower then [(pos S j i, val i j)] else []) else []) (zrange 0 n)) (zrange 0 n));
  do c <- writes (flat_map (fun i => flat_map (fun j => if i <=? j then
             [(sym_index true n i j, do K <- pair_ranks M i j; Ok (nrows K))] else []) (zrange 0 n)) (zrange 0 n)) sC;
  Ok (S', Sym (cols M) c).

(** ** Sizes and arguments: correlation.cpp:14-67, 210-226 *)
Record cor_kind := CK { check_nan : bool; is_cor : bool; is_spearman : bool }.
(** WorkSize and StorageSize for a matrix with r rows and c columns. *)
Definition pearson_sizes (cor : bool) (r c : Z) : Z * Z := (c * r, c * c + c + c + (if cor then c else 0)).
Definition cor_sizes (k : cor_kind) (r c : Z) : Z * Z :=
  if check_nan k then
    ((if is_spearman k then Z.max (2 * r) (fst (pearson_sizes (is_cor k) r 2)) + (r * 2 + r * 2 + snd (pearson_sizes (is_cor k) r 2)) else 0),
     c * c + Z.quot (c * (c + 1)) 2 + Z.quot (c * (c + 1)) 2)
  else ((if is_spearman k then Z.max (r * c) (c * r) + r * c else c * r), snd (pearson_sizes (is_cor k) r c)).
(** The check of Calculate: Throw if the matrix needs more than the declared size. *)
Definition cor_checked (k : cor_kind) (drows dcols r c : Z) : bool :=
  (fst (cor_sizes k r c) <=? fst (cor_sizes k drows dcols)) && (snd (cor_sizes k r c) <=? snd (cor_sizes k drows dcols)).
