(** Properties C126-C129: comparisons, queries and fills of matrices; sorting of rows and columns; ranges and interpolation of
    columns with NaN; triangular matrices. *)
From Verif Require Import MqSpec MqModel MqProofs MqProofs2 MqProofs3 MqProofs4 ArrSpec ArrProofs.
From Coq Require Import Lia.
Local Open Scope Z_scope.

(** ** C126: comparisons, queries, fills *)
Theorem c126_equals_value (M : mat (option Qc)) b eps nans ignore : mat_ok M -> exists r, equals_value M b eps nans ignore = Ok r /\
  (r = true <-> forall i j v, entry M i j = Some v -> close b eps nans ignore v).
Proof. exact (equals_value_ok M b eps nans ignore). Qed.
Print Assumptions c126_equals_value.
Theorem c126_equals_value_column (M : mat (option Qc)) j b eps nans ignore : mat_ok M -> 0 <= j < ncols M ->
  exists r, equals_value_column M j b eps nans ignore = Ok r /\ (r = true <-> forall i v, entry M i j = Some v -> close b eps nans ignore v).
Proof. exact (equals_value_column_ok M j b eps nans ignore). Qed.
Print Assumptions c126_equals_value_column.
Theorem c126_equals (M N : mat (option Qc)) diff eps throw nans : mat_ok M -> mat_ok N ->
  (nrows N = nrows M /\ ncols N = ncols M -> exists r diff', equals false M N diff eps throw nans = Ok (r, diff') /\
     (r = true <-> forall i j a b, entry M i j = Some a -> entry N i j = Some b -> close b eps nans false a)) /\
  (nrows N <> nrows M \/ ncols N <> ncols M -> equals false M N diff eps throw nans = if throw then Throw else Ok (false, diff)).
Proof. intros H1 H2. split; [intros (E1 & E2); exact (equals_ok M N diff eps throw nans H1 H2 E1 E2)|exact (equals_size M N diff eps throw nans)]. Qed.
Print Assumptions c126_equals.
(** The difference that is returned is that of the last elements, not the largest one. *)
Theorem c126_abs_diff_refuted : exists (M N : mat (option Qc)) eps d, mat_ok M /\ mat_ok N /\ equals false M N None eps false false = Ok (true, Some d) /\
  exists x y, entry M 0 0 = Some (Some x) /\ entry N 0 0 = Some (Some y) /\ (d < y - x)%Qc.
Proof.
  exists (Mat 2 1 [Some 0%Qc; Some 0%Qc]), (Mat 2 1 [Some (qz 2); Some 1%Qc]), (qz 5), 1%Qc. split; [vm_compute; auto|]. split; [vm_compute; auto|].
  split; [vm_compute; repeat first [apply Qc_is_canon; reflexivity | f_equal]|]. exists 0%Qc, (qz 2). split; [reflexivity|]. split; [reflexivity|]. vm_compute. reflexivity.
Qed.
Print Assumptions c126_abs_diff_refuted.
(** The number of the column is not checked. *)
Theorem c126_column_refuted : exists (M : mat (option Qc)) j, mat_ok M /\ equals_value_column M j (Some 0%Qc) 0%Qc false false = UB.
Proof. exists (Mat 1 1 [Some 0%Qc]), 1. split; [vm_compute; auto|]. vm_compute. reflexivity. Qed.
Print Assumptions c126_column_refuted.
Theorem c126_indices {A} (same : A -> bool) (M : mat A) : mat_ok M -> exists l, indices_of same M = Ok l /\ Sorted.StronglySorted Z.lt l /\
  forall k, In k l <-> exists i j v, entry M i j = Some v /\ same v = true /\ k = j * nrows M + i.
Proof. exact (indices_ok same M). Qed.
Print Assumptions c126_indices.
Theorem c126_any_all {A} (same : A -> bool) (M : mat A) : mat_ok M ->
  (exists r, any_of same M = Ok r /\ (r = true <-> exists i j v, entry M i j = Some v /\ same v = true)) /\
  (exists r, all_of same M = Ok r /\ (r = true <-> forall i j v, entry M i j = Some v -> same v = true)).
Proof. intros W. split; [exact (any_ok same M W)|exact (all_ok same M W)]. Qed.
Print Assumptions c126_any_all.
Theorem c126_set_value {A} (M : mat A) v : mat_ok M -> exists M', set_value M v = Ok M' /\ becomes M (fun _ _ => Some v) M'.
Proof. exact (set_value_ok M v). Qed.
Print Assumptions c126_set_value.
Theorem c126_set_sequence (M : mat Qc) start step : mat_ok M -> exists M', set_sequence M start step = Ok M' /\
  becomes M (fun i j => Some (start + qz (j * nrows M + i) * step)%Qc) M'.
Proof. exact (set_sequence_ok M start step). Qed.
Print Assumptions c126_set_sequence.
Theorem c126_diagonal {A} (M : mat A) v w : mat_ok M -> nrows M = ncols M ->
  (exists M', set_value_diag M v = Ok M' /\ becomes M (fun i j => if i =? j then Some v else entry M i j) M') /\
  (exists M', set_value_diag2 M v w = Ok M' /\ becomes M (fun i j => Some (if i =? j then v else w)) M') /\
  (exists M', set_value_off_diag M v = Ok M' /\ becomes M (fun i j => if i =? j then entry M i j else Some v) M').
Proof. intros W H. split; [exact (set_value_diag_ok M v W H)|]. split; [exact (set_value_diag2_ok M v w W H)|exact (set_value_off_diag_ok M v W H)]. Qed.
Print Assumptions c126_diagonal.
Theorem c126_not_square {A} (M : mat A) v w : nrows M <> ncols M -> set_value_diag M v = Throw /\ set_value_diag2 M v w = Throw /\ set_value_off_diag M v = Throw.
Proof. exact (diag_not_square M v w). Qed.
Print Assumptions c126_not_square.
Example c126_case : mat_ok (Mat 2 2 [1; 2; 3; 1]) /\ indices_of (Z.eqb 1) (Mat 2 2 [1; 2; 3; 1]) = Ok [0; 3] /\
  set_value_off_diag (Mat 2 2 [1; 2; 3; 1]) 7 = Ok (Mat 2 2 [1; 7; 7; 1]) /\
  equals_value (Mat 1 2 [Some 1%Qc; None]) (Some (qz 2)) 1%Qc false true = Ok true /\
  equals_value (Mat 1 2 [Some 1%Qc; None]) (Some (qz 2)) 1%Qc true false = Ok false.
Proof. vm_compute. auto 10. Qed.

(** ** C127: sorting of rows and columns *)
Theorem c127_sort_rows {A} (M S : mat A) idx : mat_ok M -> mat_ok S -> nrows S = nrows M -> ncols S = ncols M -> Z.of_nat (length idx) = nrows M -> 0 < nrows M ->
  Forall (fun i => 0 <= i < nrows M) idx -> exists S', sort_rows_by M S idx = Ok S' /\ becomes S (rows_by M idx) S'.
Proof. intros W. exact (sort_rows_by_ok M W S idx). Qed.
Print Assumptions c127_sort_rows.
Theorem c127_sort_columns {A} (M S : mat A) idx : mat_ok M -> mat_ok S -> nrows S = nrows M -> ncols S = ncols M -> Z.of_nat (length idx) = ncols M -> 0 < ncols M ->
  Forall (fun i => 0 <= i < ncols M) idx -> exists S', sort_columns_by M S idx = Ok S' /\ becomes S (columns_by M idx) S'.
Proof. intros W. exact (sort_columns_by_ok M W S idx). Qed.
Print Assumptions c127_sort_columns.
Theorem c127_rejected {A} (M S : mat A) idx : mat_ok M -> mat_ok S -> idx <> [] ->
  (~ (nrows S = nrows M /\ ncols S = ncols M /\ Z.of_nat (length idx) = nrows M /\ Forall (fun i => 0 <= i < nrows M) idx) -> sort_rows_by M S idx = Throw) /\
  (~ (nrows S = nrows M /\ ncols S = ncols M /\ Z.of_nat (length idx) = ncols M /\ Forall (fun i => 0 <= i < ncols M) idx) -> sort_columns_by M S idx = Throw).
Proof. intros W WS NE. split; [exact (sort_rows_by_bad M S idx W WS NE)|exact (sort_columns_by_bad M S idx W WS NE)]. Qed.
Print Assumptions c127_rejected.
(** A matrix without rows: the largest of no indexes is taken. *)
Theorem c127_empty_refuted : sort_rows_by (Mat 0 2 (@nil Z)) (Mat 0 2 []) [] = UB /\ sort_columns_by (Mat 2 0 (@nil Z)) (Mat 2 0 []) [] = UB.
Proof. vm_compute. auto. Qed.
Print Assumptions c127_empty_refuted.
Example c127_case : mat_ok (Mat 3 2 [1; 2; 3; 4; 5; 6]) /\ sort_rows_by (Mat 3 2 [1; 2; 3; 4; 5; 6]) (Mat 3 2 [0; 0; 0; 0; 0; 0]) [2; 0; 1] = Ok (Mat 3 2 [3; 1; 2; 6; 4; 5]) /\
  sort_columns_by (Mat 3 2 [1; 2; 3; 4; 5; 6]) (Mat 3 2 [0; 0; 0; 0; 0; 0]) [1; 0] = Ok (Mat 3 2 [4; 5; 6; 1; 2; 3]) /\
  sort_rows_by (Mat 3 2 [1; 2; 3; 4; 5; 6]) (Mat 3 2 [0; 0; 0; 0; 0; 0]) [2; 0; -1] = Throw.
Proof. vm_compute. auto 10. Qed.

(** ** C128: common range of the columns, interpolation of a row or column *)
Theorem c128_range (M : mat (option Qc)) : mat_ok M -> 0 < nrows M <= 2147483648 -> exists r m, get_range_all M = Ok (r, m) /\
  (0 < ncols M -> forall t, i_start r <= t <= i_end r <-> forall j, 0 <= j < ncols M -> covered false M j t) /\
  (m = true -> exists j, 0 <= j < ncols M /\ has_gap false M j) /\
  (is_not_valid r = false -> (exists j, 0 <= j < ncols M /\ has_gap false M j) -> m = true).
Proof. intros W (H1 & H2). exact (get_range_all_ok M W H1 H2). Qed.
Print Assumptions c128_range.
Theorem c128_no_columns_refuted : exists (M : mat (option Qc)) r m, mat_ok M /\ nrows M = 3 /\ get_range_all M = Ok (r, m) /\ i_end r = 2147483647.
Proof. exists (Mat 3 0 []). eexists. eexists. split; [vm_compute; auto|]. split; [reflexivity|]. split; vm_compute; reflexivity. Qed.
Print Assumptions c128_no_columns_refuted.
(** No common time: a gap of a later column is not reported. *)
Theorem c128_missing_refuted : exists (M : mat (option Qc)) r, mat_ok M /\ get_range_all M = Ok (r, false) /\ has_gap false M 1.
Proof.
  exists (Mat 3 2 [None; None; None; Some 1%Qc; None; Some 1%Qc]). eexists. split; [vm_compute; auto|]. split; [vm_compute; reflexivity|].
  exists 1. split. { exists 0, 2. split; [lia|]. split; eexists; vm_compute; reflexivity. } intros (v & H). vm_compute in H. discriminate H.
Qed.
Print Assumptions c128_missing_refuted.
Theorem c128_interpolate by_row (M : mat (option Qc)) i : mat_ok M -> 0 <= i < n_vars by_row M -> 0 < n_times by_row M ->
  exists r M' c d d', interpolate_line by_row M i = Ok (r, M', c) /\ line_of by_row M i d /\ interpolated d d' /\
    becomes M (with_line by_row M i d') M' /\ Z.of_nat (num_known d') = Z.of_nat (num_known d) + c.
Proof. exact (interpolate_line_ok by_row M i). Qed.
Print Assumptions c128_interpolate.
Theorem c128_empty_refuted : interpolate_line false (Mat 0 1 []) 0 = UB /\ interpolate_line true (Mat 1 0 []) 0 = UB /\ get_range_all (Mat 0 1 []) = UB.
Proof. vm_compute. auto. Qed.
Print Assumptions c128_empty_refuted.
Example c128_case : exists r M' c, interpolate_line true (Mat 2 3 [Some 1%Qc; None; None; None; Some (qz 3); None]) 0 = Ok (r, M', c) /\
  entry M' 0 1 = Some (Some (qz 2)) /\ entry M' 1 1 = Some None /\ c = 1.
Proof.
  eexists. eexists. eexists. split; [vm_compute; reflexivity|]. split; [|vm_compute; auto]. vm_compute. repeat first [apply Qc_is_canon; reflexivity | f_equal].
Qed.

(** ** C129: triangular matrices *)
Theorem c129_triangular {A} (S E : mat A) up (diag byrow : bool) : mat_ok S -> mat_ok E -> nrows S = ncols S ->
  mlength E = (if diag then nrows S * (nrows S + 1) / 2 else nrows S * (nrows S - 1) / 2) -> byrow = upper_part up ->
  exists S', make_triangular S E up diag byrow = Ok S' /\
    becomes S (with_triangle S (upper_part up) (lower_part up) diag (firstn (rows E * cols E) (data E))) S'.
Proof. exact (make_triangular_ok S E up diag byrow). Qed.
Print Assumptions c129_triangular.
Theorem c129_rejected {A} (S E : mat A) up (diag byrow : bool) :
  nrows S <> ncols S \/ mlength E <> (if diag then nrows S * (nrows S + 1) / 2 else nrows S * (nrows S - 1) / 2) \/ byrow <> upper_part up ->
  make_triangular S E up diag byrow = Throw.
Proof. exact (make_triangular_bad S E up diag byrow). Qed.
Print Assumptions c129_rejected.
(** A triangle has an element for every pair of a row and a column not before (after) it. *)
Theorem c129_triangle diag n : NoDup (triangle diag n) /\ (forall i j, In (i, j) (triangle diag n) <-> (j < n)%nat /\ if diag then (i <= j)%nat else (i < j)%nat) /\
  Z.of_nat (length (triangle diag n)) = (if diag then Z.of_nat n * (Z.of_nat n + 1) / 2 else Z.of_nat n * (Z.of_nat n - 1) / 2).
Proof.
  split; [exact (triangle_nodup diag n)|]. split; [|exact (triangle_length diag n)]. intros i j. rewrite triangle_in. unfold off. destruct diag; lia.
Qed.
Print Assumptions c129_triangle.
(** A symmetric matrix cannot be given column by column, nor a lower triangle row by row. *)
Theorem c129_order_refuted : exists S E : mat Z, mat_ok S /\ mat_ok E /\ nrows S = ncols S /\ mlength E = nrows S * (nrows S + 1) / 2 /\
  make_triangular S E 0 true false = Throw /\ make_triangular S E 2 true true = Throw.
Proof. exists (Mat 2 2 [0; 0; 0; 0]), (Mat 3 1 [1; 2; 3]). vm_compute. auto 10. Qed.
Print Assumptions c129_order_refuted.
Example c129_case : make_triangular (Mat 3 3 [0; 0; 0; 0; 0; 0; 0; 0; 0]) (Mat 6 1 [1; 2; 3; 4; 5; 6]) 0 true true = Ok (Mat 3 3 [1; 2; 3; 2; 4; 5; 3; 5; 6]) /\
  make_triangular (Mat 3 3 [0; 0; 0; 0; 0; 0; 0; 0; 0]) (Mat 3 1 [1; 2; 3]) 2 false false = Ok (Mat 3 3 [0; 1; 2; 0; 0; 3; 0; 0; 0]) /\
  with_triangle (Mat 3 3 [0; 0; 0; 0; 0; 0; 0; 0; 0]) false true false [1; 2; 3] 2 1 = Some 3.
Proof. vm_compute. auto. Qed.
