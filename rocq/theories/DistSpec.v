(** Specification of the distances of columns. *)
From Verif Require Export CorRealSpec DistModel.
Local Open Scope R_scope.

(** Distances of two columns, given by the pairs of their elements. *)
Definition euclid (P : list (Qc * Qc)) : R := sqrt (real (qsum (map (fun p => (fst p - snd p) * (fst p - snd p))%Qc P))).
Definition manhattan (P : list (Qc * Qc)) : R := real (qsum (map (fun p => qabs (fst p - snd p)) P)).
(** v is the largest absolute difference. *)
Definition largest (P : list (Qc * Qc)) (v : Qc) : Prop := (exists p, In p P /\ v = qabs (fst p - snd p)) /\ forall p, In p P -> (qabs (fst p - snd p) <= v)%Qc.
(** What the distance of the columns i and j has to be. *)
Definition has_nans (M : mat (option Qc)) (i j : Z) : bool := existsb is_nan (col_values M i) || existsb is_nan (col_values M j).
Definition distance_is (m : dmethod) (M : mat (option Qc)) (i j : Z) (d : rval) : Prop :=
  let P := complete_pairs M i j in
  match m with
  | Euclidean => d = RNum (euclid P)
  | Manhattan => d = RNum (manhattan P)
  | Maximum => exists v, largest P v /\ d = RNum (real v)
  | _ => True
  end.
(** The distances made from a correlation. *)
Definition from_correlation (m : dmethod) (c : option R) (d : rval) : Prop :=
  match c with
  | None => d = RNaN
  | Some r => d = RNum (match m with CorrelationD => sqrt ((1 - r) / 2) | _ => sqrt (1 - r * r) end)
  end.
(** The correlation used: Pearson's or that of the ranks. *)
Definition correlation_of (check spearman : bool) (M : mat (option Qc)) (i j : Z) : option R :=
  match check, spearman with
  | false, false => cor_no_nan M i j
  | true, false => cor_or_one (complete_pairs M i j)
  | _, true => cor_spec (rank_pairs (complete_pairs M i j))
  end.
(** There is room for the parts of the correlation object. *)
Definition parts_ok (M : mat (option Qc)) (w : parts) : Prop :=
  (cols M * cols M <= length (p_result w) /\ cols M <= length (p_means w) /\ cols M <= length (p_vars w) /\
   Z.to_nat (sym_length true (ncols M)) <= length (p_counts w) /\ 2 * (rows M * cols M) <= length (p_work w))%nat.
(** The matrix has no NaN. *)
Definition no_nan (M : mat (option Qc)) : Prop := forall i j, inside M i j -> opel M i j <> None.
(** The object was made for a matrix of at least this size and the arrays have the declared sizes. *)
Local Open Scope Z_scope.
Definition room (r0 c0 : nat) (M : mat (option Qc)) (st : list rval) (w : parts) : Prop :=
  nrows M <= Z.of_nat r0 /\ ncols M <= Z.of_nat c0 /\ dist_storage (Z.of_nat c0) <= Z.of_nat (length st) /\ parts_ok M w.
(** Data for which every distance is a number: no NaN, a row; for correlations no constant column. *)
Definition good_data (m : dmethod) (M : mat (option Qc)) : Prop :=
  mat_ok M /\ no_nan M /\ 0 < nrows M /\ (is_cor_method m = true -> forall j, 0 <= j < ncols M -> varies (present (col_values M j))).
