(** Properties C30 (complete-case data sets) and C73 (common window of time series). *)
From Verif Require Import DataSpec DataModel DataProofs DataProofs2 DataProofs3 MatProofs.
From Coq Require Import Lia.
Local Open Scope Z_scope.

Inductive num := Fin (z : Z) | Inf | NaN.
Definition isnan (x : num) : bool := match x with NaN => true | _ => false end.
Definition isnan_or_inf (x : num) : bool := match x with Fin _ => false | _ => true end.
(** Rows: 1 NaN 5 / 2 4 inf / 3 4 NaN. *)
Definition dm : mat num := Mat 3 3 [Fin 1; Fin 2; Fin 3; NaN; Fin 4; Fin 4; Fin 5; Inf; NaN].

(** ** C30 *)
(** Calculate returns exactly the asked columns (all of them without selection) of exactly the rows
    that have no NaN in these columns (all rows if NaN is not expected), in their order. *)
Theorem c30_dataset {A} (isnan : A -> bool) (has_nan select : bool) (M : mat A) (columns : option (list Z)) (storage : list A) : mat_ok M ->
  (select = true -> exists cs, columns = Some cs) ->
  let cs := if select then match columns with Some l => l | None => [] end else upto (ncols M) in
  let rs := if has_nan then complete_rows isnan M cs else upto (nrows M) in
  Forall (fun j => 0 <= j < ncols M) cs -> (length rs * length cs <= length storage)%nat ->
  exists R, dataset_calculate isnan has_nan select M columns storage = Ok R /\ picks M rs cs R.
Proof. exact (dataset_ok isnan has_nan select M columns storage). Qed.
Print Assumptions c30_dataset.
(** GetAnyNanRow lists exactly the complete rows; [skip] is isnan, or isnan or isinf. *)
Theorem c30_rows {A} (skip : A -> bool) (M : mat A) (columns : option (list Z)) : mat_ok M ->
  match columns with Some l => Forall (fun j => 0 <= j < ncols M) l | None => True end ->
  get_any_nan_row skip M columns = Ok (complete_rows skip M (match columns with Some l => l | None => upto (ncols M) end)).
Proof. exact (get_any_nan_row_ok skip M columns). Qed.
Print Assumptions c30_rows.
(** A row is complete iff none of its elements in the columns is excluded; they come in increasing order. *)
Theorem c30_complete {A} (skip : A -> bool) (M : mat A) cs i : mat_ok M -> Forall (fun j => 0 <= j < ncols M) cs ->
  (In i (complete_rows skip M cs) <-> 0 <= i < nrows M /\ forall j v, In j cs -> entry M i j = Some v -> skip v = false).
Proof.
  intros W F. unfold complete_rows. rewrite filter_In, forallb_forall. split.
  - intros (Hi & H). apply (in_zrange 0) in Hi. split; [lia|]. intros j v Hj E. specialize (H j Hj). rewrite E in H. destruct (skip v); auto; discriminate.
  - intros (Hi & H). split; [apply (in_zrange 0); lia|]. intros j Hj. rewrite Forall_forall in F. destruct (entry_some M i j W (conj Hi (F j Hj))) as (v & E).
    rewrite E, (H j v Hj E). auto.
Qed.
Print Assumptions c30_complete.
Theorem c30_missing_list {A} (isnan : A -> bool) (has_nan : bool) (M : mat A) storage : dataset_calculate isnan has_nan true M None storage = Throw.
Proof. reflexivity. Qed.
Print Assumptions c30_missing_list.
(** The size of the storage; an empty size is an error. *)
Theorem c30_size r c : dataset_new r c = if (0 <? r) && (0 <? c) then Ok (r * c) else Throw.
Proof. unfold dataset_new. destruct (0 <? r) eqn:E1, (0 <? c) eqn:E2, (c <=? 0) eqn:E3, (r <=? 0) eqn:E4; auto; lia. Qed.
Print Assumptions c30_size.
(** Column numbers are not checked. *)
Theorem c30_column_not_checked_refuted : exists storage : list num, mat_ok dm /\ (9 <= length storage)%nat /\ dataset_calculate isnan true true dm (Some [7]) storage = UB.
Proof. exists (repeat NaN 9). vm_compute. auto 10. Qed.
Print Assumptions c30_column_not_checked_refuted.
Example c30_nonvacuous :
  dataset_calculate isnan true true dm (Some [2; 0]) (repeat NaN 9) = Ok (Mat 2 2 ([Fin 5; Inf; Fin 1; Fin 2] ++ repeat NaN 5)) /\
  complete_rows isnan dm [2; 0] = [0; 1] /\ complete_rows isnan_or_inf dm [2; 0] = [0] /\
  get_any_nan_row isnan dm None = Ok [1] /\ get_any_nan_row isnan_or_inf dm None = Ok [] /\
  Forall (fun j => 0 <= j < ncols dm) [2; 0] /\ mat_ok dm.
Proof. vm_compute. repeat split; auto; repeat constructor; discriminate. Qed.

(** ** C73 *)
(** Two variables in the rows: NaN 1 2 NaN 4 / 5 6 7 8 NaN; the second has no gap. *)
Definition ts2 : mat (option Z) := Mat 2 5 [None; Some 5; Some 1; Some 6; Some 2; Some 7; None; Some 8; Some 4; None].
Definition ts_fresh : ts_state := {| ts_has_missing := false; ts_missing := []; ts_ranges := [] |}.
(** Data records the variables with a NaN between known values and raises an error for a variable
    without a known value. *)
Theorem c73_data {A} (by_row : bool) (M : mat (option A)) : mat_ok M -> 0 < n_times by_row M ->
  ((forall i, 0 <= i < n_vars by_row M -> exists t, known_at by_row M i t) ->
     exists st, ts_data by_row true M ts_fresh = Ok st /\ (forall i, In i (ts_missing st) <-> 0 <= i < n_vars by_row M /\ has_gap by_row M i) /\
       (ts_has_missing st = true <-> exists i, 0 <= i < n_vars by_row M /\ has_gap by_row M i)) /\
  ((exists i, 0 <= i < n_vars by_row M /\ forall t, ~ known_at by_row M i t) -> forall st, ts_data by_row true M st = Throw).
Proof.
  intros W HT. split.
  - intros K. destruct (data_ok by_row M W HT ts_fresh K) as (st & ms & E & _ & Em & G & Hm). cbn in Em, Hm. exists st. split; auto. rewrite Em. split; auto.
    rewrite Hm. split.
    + destruct ms as [|i ms]; [discriminate|]. intros _. exists i. apply G. left. auto.
    + intros (i & Hi). apply G in Hi. destruct ms; [destruct Hi|auto].
  - intros (i & Hi & N) st. apply (data_throw by_row M W HT st i Hi N).
Qed.
Print Assumptions c73_data.
(** After Data, Update with indexes (or of all variables) gives the window of exactly the times at
    which no selected variable is before its first or after its last known value (all times if NaN is
    not expected), and copies the selected variables in this window, in the order asked for. *)
Theorem c73_update {A} (by_row has_nan select : bool) (M : mat (option A)) st0 st indexes storage ix :
  mat_ok M -> 0 < n_times by_row M <= int_max ->
  ts_data by_row has_nan M st0 = Ok st ->
  (if select then indexes = Some ix else ix = upto (n_vars by_row M)) ->
  Forall (fun i => 0 <= i < n_vars by_row M) ix -> ix <> [] -> has_nan || select = true ->
  (Z.to_nat (n_times by_row M) * length ix <= length storage)%nat ->
  exists T d, ts_update by_row has_nan select M st indexes (Some storage) = Ok T /\ t_store T = Some d /\
    (forall t, t_start T <= t <= t_end T <-> if has_nan then (forall i, In i ix -> covered by_row M i t) else 0 <= t < n_times by_row M) /\
    (if by_row then t_rows T else t_cols T) = Z.of_nat (length ix) /\ (if by_row then t_cols T else t_rows T) = t_end T - t_start T + 1 /\
    0 <= t_start T < n_times by_row M /\ 0 <= t_end T < n_times by_row M /\
    forall k t, 0 <= k < Z.of_nat (length ix) -> t_start T <= t <= t_end T ->
      obs by_row (Mat (Z.to_nat (t_rows T)) (Z.to_nat (t_cols T)) d) k (t - t_start T) = obs by_row M (at_index ix k) t.
Proof.
  intros W (HT & HI) ED Hsel F Ne Hor Hst. apply update_ok; auto.
  intros ->. unfold ts_data in ED.
  destruct (data_loop_ok by_row M W HT (zrange 0 (n_vars by_row M)) {| ts_ranges := []; ts_has_missing := ts_has_missing st0; ts_missing := ts_missing st0 |} (zrange_Forall _)) as (st' & rs & ms & E & R & F2 & _).
  unfold n_vars in E at 1. rewrite E in ED. cbn [bind] in ED. cbn in R.
  destruct (existsb is_not_valid (ts_ranges st')) eqn:V; [discriminate|]. injection ED as ->. rewrite R in *.
  clear - F2 V. induction F2 as [|i r is rs H F2 IH]; constructor.
  - cbn in V. apply orb_false_iff in V. destruct V as (V & _). destruct H as [H|(H & _)]; [auto|congruence].
  - apply IH. cbn in V. apply orb_false_iff in V. tauto.
Qed.
Print Assumptions c73_update.
(** A variable without gaps is known at every time of the window. *)
Theorem c73_no_nan {A} (by_row : bool) (M : mat (option A)) i t : ~ has_gap by_row M i -> covered by_row M i t -> known_at by_row M i t.
Proof.
  intros G C. destruct (obs by_row M i t) as [[v|]|] eqn:E; [exists v; auto| |]; exfalso; apply G; exists t; (split; [auto|intros (v & H); congruence]).
Qed.
Print Assumptions c73_no_nan.
Theorem c73_index_checked {A} (by_row : bool) (M : mat (option A)) st ix storage : Exists (fun i => ~ 0 <= i < Z.of_nat (length (ts_ranges st))) ix ->
  ts_update by_row true true M st (Some ix) storage = Throw.
Proof.
  intros H. unfold ts_update, biggest. cbv iota beta. assert (G : rmap (at_range (ts_ranges st)) ix = Throw).
  { assert (P : forall i, at_range (ts_ranges st) i = Throw \/ exists r, at_range (ts_ranges st) i = Ok r).
    { intros i. unfold at_range. destruct (i <? 0); auto. destruct (nth_error _ _); eauto. }
    induction H as [i l Hi|i l Hl IH]; cbn [rmap].
    - assert (E : at_range (ts_ranges st) i = Throw). { unfold at_range. destruct (i <? 0) eqn:N; auto. destruct (nth_error (ts_ranges st) (Z.to_nat i)) eqn:E; auto.
        assert (Z.to_nat i < length (ts_ranges st))%nat by (apply nth_error_Some; congruence). lia. }
      rewrite E. auto.
    - destruct (P i) as [-> |(r & ->)]; auto. cbn [bind]. rewrite IH. auto. }
  rewrite G. auto.
Qed.
Print Assumptions c73_index_checked.
(** Windows that do not overlap give a result with a negative number of observations instead of an error. *)
Definition apart : mat (option Z) := Mat 2 4 [Some 1; None; None; None; None; None; None; Some 2].
Theorem c73_disjoint_refuted : exists st T, ts_data true true apart ts_fresh = Ok st /\
  ts_update true true true apart st (Some [0; 1]) (Some (repeat None 8)) = Ok T /\ t_start T = 3 /\ t_end T = 0 /\ t_cols T = -2.
Proof. eexists. eexists. split; [vm_compute; reflexivity|]. split; [vm_compute; reflexivity|]. vm_compute. auto. Qed.
Print Assumptions c73_disjoint_refuted.
(** Without selected variables the number of observations overflows. *)
Theorem c73_empty_selection_refuted {A} (by_row : bool) (M : mat (option A)) st storage : ts_update by_row true true M st (Some []) storage = UB.
Proof. unfold ts_update. reflexivity. Qed.
Print Assumptions c73_empty_selection_refuted.
(** For a plain copy End does not tell the last observation. *)
Theorem c73_plain_copy_end_refuted : exists T, ts_update true false false ts2 ts_fresh None (Some (repeat None 10)) = Ok T /\ t_cols T = 5 /\ t_end T = 0 /\ t_store T = Some (data ts2).
Proof. eexists. split; [vm_compute; reflexivity|]. vm_compute. auto. Qed.
Print Assumptions c73_plain_copy_end_refuted.
(** The marks of missing data of earlier data are kept when Data is called again. *)
Theorem c73_reuse_refuted {A} (by_row : bool) (M : mat (option A)) st st' : ts_has_missing st = true -> mat_ok M -> 0 < n_times by_row M ->
  ts_data by_row true M st = Ok st' -> ts_has_missing st' = true /\ (forall i, In i (ts_missing st) -> In i (ts_missing st')).
Proof.
  intros H W HT ED. unfold ts_data in ED.
  destruct (data_loop_ok by_row M W HT (zrange 0 (n_vars by_row M)) {| ts_ranges := []; ts_has_missing := ts_has_missing st; ts_missing := ts_missing st |} (zrange_Forall _)) as (st1 & rs & ms & E & R & F2 & Em & _ & Hm).
  unfold n_vars in E at 1. rewrite E in ED. cbn [bind] in ED. destruct (existsb is_not_valid (ts_ranges st1)); [discriminate|]. injection ED as ->.
  cbn in Em, Hm. rewrite Hm, H, Em. split; auto. intros i Hi. apply in_or_app. auto.
Qed.
Print Assumptions c73_reuse_refuted.
Example c73_nonvacuous : mat_ok ts2 /\ n_vars true ts2 = 2 /\ n_times true ts2 = 5 /\
  (exists st, ts_data true true ts2 ts_fresh = Ok st /\ ts_missing st = [0] /\
    (exists T, ts_update true true true ts2 st (Some [1; 0]) (Some (repeat None 10)) = Ok T /\ t_start T = 1 /\ t_end T = 3 /\ t_rows T = 2 /\ t_cols T = 3 /\
       exists d, t_store T = Some d /\ firstn 6 d = [Some 6; Some 1; Some 7; Some 2; Some 8; None]) /\
    (exists T, ts_update true true true ts2 st (Some [1]) (Some (repeat None 10)) = Ok T /\ t_start T = 0 /\ t_end T = 3)).
Proof.
  split; [vm_compute; auto|]. split; [reflexivity|]. split; [reflexivity|]. eexists. split; [vm_compute; reflexivity|]. split; [reflexivity|]. split.
  - eexists. split; [vm_compute; reflexivity|]. repeat (split; [reflexivity|]). eexists. split; reflexivity.
  - eexists. split; [vm_compute; reflexivity|]. vm_compute. auto.
Qed.
