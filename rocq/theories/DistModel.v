(** Model of /repo/src/ldt_statistics/clustering/distance.cpp:126-215 (class Distance). Data are [option Qc]; [None] is NaN;
    arithmetic and square roots are exact. *)
From Verif Require Export CorRealModel.
Local Open Scope Z_scope.

(** A result: NaN, a number or -INFINITY. *)
Inductive rval := RNaN | RNum (r : R) | RNegInf.
(** clustering.h DistanceMethod *)
Inductive dmethod := Euclidean | Manhattan | Maximum | CorrelationD | AbsCorrelation.
Definition qabs (x : Qc) : Qc := if qltb x 0 then (- x)%Qc else x.
(** distance.cpp:171, 183: col1[k] - col2[k] *)
Definition gap (p : option Qc * option Qc) : option Qc := fst p -f snd p.
(** distance.cpp:169-190: the sums of the Euclidean and Manhattan distances. *)
Definition sum_loop (check : bool) (f : Qc -> Qc) (l : list (option Qc * option Qc)) : option Qc :=
  fold_left (fun s p => match gap p with
                        | None => if check then s else None
                        | Some d => s +f Some (f d)
                        end) l (Some 0%Qc).
(** distance.cpp:191-203; [None] is -INFINITY. max < d is false for a NaN, so the check changes nothing. *)
Definition max_loop (l : list (option Qc * option Qc)) : option Qc :=
  fold_left (fun m p => match gap p with
                        | None => m
                        | Some d => match m with None => Some (qabs d) | Some v => if qltb v (qabs d) then Some (qabs d) else m end
                        end) l None.
(** distance.cpp:165-206: the distance of two columns. *)
Definition column_distance (m : dmethod) (check : bool) (l : list (option Qc * option Qc)) : rval :=
  match m with
  | Euclidean => match sum_loop check (fun d => d * d)%Qc l with Some s => RNum (sqrt (real s)) | None => RNaN end
  | Manhattan => match sum_loop check qabs l with Some s => RNum (real s) | None => RNaN end
  | _ => match max_loop l with Some s => RNum (real s) | None => RNegInf end
  end.
(** distance.cpp:149-158: from the correlation. *)
Definition cor_distance (m : dmethod) (r : option R) : rval :=
  match r with
  | None => RNaN
  | Some r => RNum (match m with CorrelationD => sqrt ((1 - r) / 2) | _ => sqrt (1 - r * r) end)%R
  end.
(** The parts of the storage and of the work array of the correlation: Result, Means, Variances, ResultCounts, work. *)
Record parts := Parts { p_result : list (option R); p_means : list (option Qc); p_vars : list (option Qc); p_counts : list Z; p_work : list Qc }.
(** distance.cpp:145-147. Ranks of NaNs (std::sort without a strict weak order) are UB. *)
Definition cor_matrix (check spearman : bool) (M : mat (option Qc)) (w : parts) : res (mat (option R)) :=
  match check, spearman with
  | false, false => do r <- pearson_cor M (p_result w) (p_means w) (p_vars w) (Z.of_nat (length (p_work w))) true; Ok (fst (fst r))
  | false, true => if existsb is_none (firstn (rows M * cols M) (data M)) then UB
                   else do r <- spearman_cor (numbers M) (p_result w) (p_means w) (p_vars w) (p_work w) true; Ok (fst (fst r))
  | true, false => do r <- pearson_cor_nan M (p_result w) (p_counts w) false true; Ok (fst r)
  | true, true => do r <- spearman_nan M (spearman_cor_pair M) (p_result w) (p_counts w) true; Ok (fst r)
  end.
Definition is_cor_method (m : dmethod) : bool := match m with CorrelationD | AbsCorrelation => true | _ => false end.
(** distance.cpp:126-138: StorageSize and WorkSize. *)
Definition dist_storage (c : Z) : Z := Z.quot (c * (c - 1)) 2.
Definition dist_work (m : dmethod) (check spearman : bool) (r c : Z) : Z :=
  if is_cor_method m then snd (cor_sizes (CK check true spearman) r c) + fst (cor_sizes (CK check true spearman) r c) else 0.
(** distance.cpp:148-160, 165-210: the writes for i < j. The number of rows of Result is that given to the constructor. *)
Definition pair_loop (n c0 : Z) (val : Z -> Z -> res rval) (storage : list rval) : res (list rval) :=
  writes (flat_map (fun i => flat_map (fun j => if i <? j then [(sym_index false c0 i j, val i j)] else []) (zrange 0 n)) (zrange 0 n)) storage.
(** distance.cpp:140-215 Calculate of an object made for r0 rows and c0 columns. *)
Definition distance (m : dmethod) (check spearman : bool) (r0 c0 : nat) (M : mat (option Qc)) (storage : list rval) (w : parts) : res (symmat rval) :=
  if (dist_storage (Z.of_nat c0) <? dist_storage (ncols M)) || (dist_work m check spearman (Z.of_nat r0) (Z.of_nat c0) <? dist_work m check spearman (nrows M) (ncols M)) then Throw
  else do d <- (if is_cor_method m then
                  do C <- cor_matrix check spearman M w;
                  pair_loop (ncols M) (Z.of_nat c0) (fun i j => do r <- get0 C i j; Ok (cor_distance m r)) storage
                else pair_loop (ncols M) (Z.of_nat c0) (fun i j => do l <- two_columns M i j; Ok (column_distance m check l)) storage);
       Ok (Sym c0 d).
