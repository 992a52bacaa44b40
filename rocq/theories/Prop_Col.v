(** Extremes and statistics of matrices and their columns (C85, C86). *)
From Verif Require Import ColModel ColSpec MatProofs MatDotProofs DataProofs DescProofs DescProofs2 HistProofs2 ColProofs ColProofs2 ColProofs3.
Local Open Scope Z_scope.
Ltac qeq := vm_compute; repeat first [apply Qc_is_canon; reflexivity | f_equal].

Definition matrix_no_number (M : mat (option Qc)) : Prop := forall i j, opel M i j = None.

(** Maximum (Minimum) of a matrix: the largest (smallest) number, NaN left out; infinite if there is none. *)
Theorem c85_extreme bigger (M : mat (option Qc)) : mat_ok M -> exists v, mat_extreme bigger M = Ok v /\
  (matrix_no_number M /\ v = (if bigger then DNInf else DPInf) \/ exists m i j, first_best_at bigger M m i j /\ v = DFin m).
Proof.
  intros OM. unfold mat_extreme. rewrite values_all by auto. cbn [bind]. destruct (ext_ok bigger (elements M) 0 None) as [[N E]|(v & k & F & E)]; rewrite E; cbn [fst].
  - eexists. split; [reflexivity|]. left. split; [|destruct bigger; reflexivity]. intros i j. destruct (opel M i j) eqn:O; auto. exfalso.
    pose proof (opel_inside _ _ _ _ O) as [Hi Hj]. assert (HI : In (Some q) (elements M)).
    { unfold elements. apply in_map_iff. exists (j * nrows M + i). split.
      - rewrite Z.add_comm, Z.mod_add, Z.div_add, Z.mod_small, Z.div_small by lia. rewrite Z.add_0_l. auto.
      - apply (proj2 (in_zrange 0 _ _)). nia. }
    apply N in HI. discriminate.
  - eexists. split; [reflexivity|]. right. exists v. do 2 eexists. split; [apply first_best_matrix; exact F|reflexivity].
Qed.
Print Assumptions c85_extreme.
(** max (min) with the place: the first place in column order. *)
Theorem c85_place bigger (M : mat (option Qc)) : mat_ok M -> 0 < nrows M -> exists v i j, mat_extreme_at bigger M = Ok (v, (i, j)) /\
  (matrix_no_number M /\ v = (if bigger then DNInf else DPInf) /\ i = 0 /\ j = 0 \/ exists m, first_best_at bigger M m i j /\ v = DFin m).
Proof.
  intros OM R. unfold mat_extreme_at. rewrite values_all by auto. cbn [bind]. destruct (ext_ok bigger (elements M) 0 (Some 0)) as [[N E]|(v & k & F & E)]; rewrite E; unfold translate_index; destruct (Z.eqb_spec (nrows M) 0); try lia; cbn [bind].
  - do 3 eexists. split; [reflexivity|]. left. split; [|split; [destruct bigger; reflexivity|split; [apply Z.rem_0_l; lia|apply Z.quot_0_l; lia]]]. intros i j. destruct (opel M i j) eqn:O; auto. exfalso.
    pose proof (opel_inside _ _ _ _ O) as [Hi Hj]. assert (HI : In (Some q) (elements M)).
    { unfold elements. apply in_map_iff. exists (j * nrows M + i). split.
      - rewrite Z.add_comm, Z.mod_add, Z.div_add, Z.mod_small, Z.div_small by lia. rewrite Z.add_0_l. auto.
      - apply (proj2 (in_zrange 0 _ _)). nia. }
    apply N in HI. discriminate.
  - do 3 eexists. split; [reflexivity|]. right. exists v. split; [|reflexivity].
    assert (0 <= k) by (destruct F as [F _ _]; unfold oat in F; destruct (Z.ltb_spec k 0); [discriminate|auto]).
    rewrite Z.add_0_l, Z.rem_mod_nonneg, Z.quot_div_nonneg by lia. apply first_best_matrix. exact F.
Qed.
Print Assumptions c85_place.
Example c85_place_ex : exists M : mat (option Qc), mat_ok M /\ mat_extreme_at true M = Ok (DFin (qz 5), (1, 0)) /\ mat_extreme_at false M = Ok (DFin (qz (-2)), (0, 1)).
Proof.
  exists (Mat 2 3 [Some (qz 1); Some (qz 5); Some (qz (-2)); None; Some (qz 5); Some (qz (-2))]). split; [vm_compute; lia|]. split; reflexivity.
Qed.
(** A matrix without rows: the place is found with a division by zero. *)
Theorem c85_empty_refuted : exists M : mat (option Qc), mat_ok M /\ mat_extreme_at true M = UB.
Proof. exists (Mat 0 2 []). split; [vm_compute; lia|reflexivity]. Qed.
Print Assumptions c85_empty_refuted.

Lemma line_extreme bigger l : exists v k, ext_loop bigger l 0 (start_of bigger) None = (v, k) /\
  (no_number l /\ v = (if bigger then DNInf else DPInf) /\ k = None \/ exists m n, first_best bigger l m n /\ v = DFin m /\ k = Some n).
Proof.
  destruct (ext_ok bigger l 0 None) as [[N E]|(v & k & F & E)]; rewrite E; do 2 eexists; (split; [reflexivity|]).
  - left. split; [exact N|]. split; [destruct bigger; reflexivity|reflexivity].
  - right. exists v, k. auto.
Qed.
(** In a row or a column: the place is the first one; it is not set if there is no number. *)
Theorem c85_row bigger (M : mat (option Qc)) i : mat_ok M -> 0 <= i < nrows M -> exists v k, row_extreme bigger M i = Ok (v, k) /\
  (no_number (row_values M i) /\ v = (if bigger then DNInf else DPInf) /\ k = None \/ exists m n, first_best bigger (row_values M i) m n /\ v = DFin m /\ k = Some n).
Proof.
  intros OM Hi. unfold row_extreme. pose proof (read_row_ok M i OM Hi) as E. unfold get0, pos in E. rewrite E. cbn [bind].
  destruct (line_extreme bigger (row_values M i)) as (v & k & -> & H). eauto.
Qed.
Print Assumptions c85_row.
Theorem c85_column bigger (M : mat (option Qc)) j : mat_ok M -> 0 <= j < ncols M -> exists v k, col_extreme bigger M j = Ok (v, k) /\
  (no_number (col_values M j) /\ v = (if bigger then DNInf else DPInf) /\ k = None \/ exists m n, first_best bigger (col_values M j) m n /\ v = DFin m /\ k = Some n).
Proof.
  intros OM Hj. unfold col_extreme.
  assert (E : rmap (fun i => rd (data M) (nrows M * j + i)) (zrange 0 (nrows M)) = Ok (col_values M j)).
  { rewrite <- (read_col_ok M j OM Hj). unfold get0, pos. induction (zrange 0 (nrows M)) as [|a t IH]; [reflexivity|]. cbn [rmap]. rewrite IH. replace (nrows M * j + a) with (a + nrows M * j) by lia. reflexivity. }
  rewrite E. cbn [bind]. destruct (line_extreme bigger (col_values M j)) as (v & k & -> & H). eauto.
Qed.
Print Assumptions c85_column.
Example c85_row_ex : exists M : mat (option Qc), mat_ok M /\ row_extreme false M 1 = Ok (DFin (qz 5), Some 0) /\ col_extreme true M 2 = Ok (DFin (qz 5), Some 0) /\ col_extreme true M 1 = Ok (DFin (qz 7), Some 0).
Proof.
  exists (Mat 2 3 [Some (qz 1); Some (qz 5); Some (qz 7); None; Some (qz 5); Some (qz 5)]). split; [vm_compute; lia|]. repeat split; reflexivity.
Qed.

(** ** Sums and means *)
Theorem c86_sum (M : mat (option Qc)) : mat_ok M ->
  mat_sum M = Ok (if_no_nan (elements M) (fun p => Some (qsum p))) /\
  (nrows M = ncols M -> trace M = Ok (if_no_nan (map (fun i => opel M i i) (upto (nrows M))) (fun p => Some (qsum p)))) /\
  (nrows M <> ncols M -> trace M = Throw).
Proof.
  intros OM. split; [unfold mat_sum; rewrite values_all by auto; cbn [bind]; rewrite fsum_spec; auto|]. unfold trace. split; intros H; destruct (Z.eqb_spec (nrows M) (ncols M)); try contradiction; cbn [negb]; auto.
  assert (E : rmap (fun i => get0 M i i) (zrange 0 (nrows M)) = Ok (map (fun i => opel M i i) (upto (nrows M)))).
  { change (zrange 0 ?n) with (upto n). unfold get0, pos.
    assert (F : Forall (fun i => 0 <= i < nrows M) (upto (nrows M))) by (apply Forall_forall; intros i Hi; apply (proj1 (in_zrange 0 _ i)) in Hi; lia).
    induction (upto (nrows M)) as [|i t IH]; [reflexivity|]. apply Forall_cons_iff in F. destruct F as [Hi F]. cbn [map rmap].
    rewrite (IH F). replace (i + nrows M * i) with (i * nrows M + i) by lia. rewrite opel_rd; [reflexivity|auto|split; lia]. }
  rewrite E. cbn [bind]. rewrite fsum_spec. auto.
Qed.
Print Assumptions c86_sum.
(** Mean without a check for NaN; with one, right if no NaN comes before a number. *)
Theorem c86_mean (M : mat (option Qc)) : mat_ok M -> mat_mean false M = Ok (if_no_nan (elements M) mean_spec).
Proof. intros OM. unfold mat_mean. rewrite values_all by auto. cbn [bind]. rewrite mean_all_spec. auto. Qed.
Print Assumptions c86_mean.
Theorem c86_mean_nan_partial (M : mat (option Qc)) (l : list Qc) (n : nat) : mat_ok M -> elements M = map Some l ++ repeat None n -> (0 < length l)%nat ->
  mat_mean true M = Ok (mean_spec l).
Proof.
  intros OM E L. unfold mat_mean. rewrite values_all by auto. cbn [bind]. rewrite E. f_equal. rewrite mean_spec_ok by (intros ->; cbn in L; lia).
  pose proof (mean_nan_ok l n []) as H. change (Z.of_nat (length [])) with 0 in H. change (avg []) with 0%Qc in H. cbn [app] in H.
  destruct l as [|a t]; [cbn in L; lia|]. cbn [map app] in *. unfold mean_of. destruct (map Some t ++ repeat None n) as [|b r] eqn:EL; [|f_equal; exact H].
  destruct t; [|discriminate]. f_equal. symmetry. apply avg1.
Qed.
Print Assumptions c86_mean_nan_partial.
Example c86_mean_ex : exists M : mat (option Qc), mat_ok M /\ elements M = map Some [qz 1; qz 5] ++ repeat None 2 /\ mat_mean true M = Ok (Some (qz 3)) /\ mat_mean false M = Ok None.
Proof. exists (Mat 2 2 [Some (qz 1); Some (qz 5); None; None]). split; [vm_compute; lia|]. repeat split; qeq. Qed.
(** The NaNs which are left out are still counted: the mean of NaN and 6 is said to be 3, that of two NaNs 0. *)
Theorem c86_mean_nan_refuted :
  (exists M : mat (option Qc), mat_ok M /\ present (elements M) = [qz 6] /\ mat_mean true M = Ok (Some (qz 3))) /\
  (exists M : mat (option Qc), mat_ok M /\ present (elements M) = [] /\ mat_mean true M = Ok (Some 0%Qc)).
Proof.
  split; [exists (Mat 2 1 [None; Some (qz 6)])|exists (Mat 2 1 [None; None])]; (split; [vm_compute; lia|]); split; qeq.
Qed.
Print Assumptions c86_mean_nan_refuted.

(** ** Variances *)
Theorem c86_variance (sample : bool) (M : mat (option Qc)) : mat_ok M -> (2 <= length (elements M))%nat ->
  mat_variance sample false M = Ok (if_no_nan (elements M) mean_spec, if_no_nan (elements M) (variance_spec sample)) /\
  (present (elements M) <> [] -> mat_variance sample true M = Ok (mean_spec (present (elements M)), variance_spec sample (present (elements M)))).
Proof.
  intros OM L. unfold mat_variance. rewrite values_all by auto. cbn [bind]. split; [rewrite variance_all_spec by auto; auto|]. intros N. rewrite variance_check by auto. auto.
Qed.
Print Assumptions c86_variance.
(** One column: mean, number of values and variance. *)
Theorem c86_variance_column (M : mat (option Qc)) j (sample : bool) : mat_ok M -> 0 <= j < ncols M -> 2 <= nrows M ->
  let l := col_values M j in
  variance_column M j sample false = Ok (if_no_nan l mean_spec, nrows M, if_no_nan l (variance_spec sample)) /\
  (present l <> [] -> variance_column M j sample true = Ok (mean_spec (present l), Z.of_nat (length (present l)), variance_spec sample (present l))).
Proof.
  intros OM Hj R l. split.
  - destruct (variance_column_ok M j sample false OM Hj) as (me & n & v & E & _ & _ & H & _). destruct (H R eq_refl) as (-> & -> & ->). exact E.
  - intros N. destruct (variance_column_ok M j sample true OM Hj) as (me & n & v & E & _ & _ & _ & H). destruct (H R eq_refl) as (-> & H1 & _).
    destruct H1 as (-> & ->); [fold l; destruct (present l); [contradiction|cbn [length]; lia]|]. exact E.
Qed.
Print Assumptions c86_variance_column.
Example c86_variance_ex : exists M : mat (option Qc), mat_ok M /\ variance_column M 0 true true = Ok (Some (qz 3), 3, Some (qz 4)) /\ variance_column M 1 true true = Ok (Some (qz 2), 4, Some (qz 4))
  /\ mat_variance false true (Mat 4 1 (data M)) = Ok (Some (qz 3), Some (qz 8 / qz 3)%Qc).
Proof.
  exists (Mat 4 2 [Some (qz 1); None; Some (qz 3); Some (qz 5); Some (qz 1); Some (qz 1); Some (qz 1); Some (qz 5)]). split; [vm_compute; lia|].
  repeat split; qeq.
Qed.
(** Variances are not negative, and zero only for equal values. *)
Theorem c86_variance_sign (sample : bool) (l : list Qc) v : variance_spec sample l = Some v -> (0 <= v)%Qc /\ (v = 0%Qc <-> forall x, In x l -> x = avg l).
Proof.
  assert (G : forall l (n : Z), 0 < n -> (0 <= dev 2 l / qz n)%Qc /\ ((dev 2 l / qz n = 0)%Qc <-> forall x, In x l -> x = avg l)).
  { intros p n Hn. assert (P : (0 < qz n)%Qc) by (apply (qz_lt 0); auto). assert (I : (0 < / qz n)%Qc) by (apply Qc_inv_pos; auto).
    split.
    - unfold Qcdiv. pose proof (dev2_nonneg p) as D. pose proof (Qcmult_le_compat_r 0 (dev 2 p) (/ qz n) D (Qclt_le_weak _ _ I)) as Q. rewrite Qcmult_0_l in Q. auto.
    - split.
      + intros E. assert (D : dev 2 p = 0%Qc). { unfold Qcdiv in E. destruct (Qcmult_integral _ _ E) as [H|H]; auto. exfalso. rewrite H in I. apply (Qclt_not_eq _ _ I). auto. }
        rewrite dev2_sum in D. set (a := avg p) in *. clearbody a. clear E. intros x Hx. revert D Hx. induction p as [|y t IH]; [contradiction|]. cbn [map]. change (qsum (?u :: ?w)) with (u + qsum w)%Qc. intros D Hx.
        assert (T : (0 <= qsum (map (fun x => (x - a) * (x - a)) t))%Qc) by (apply qsum_nonneg, Forall_map, Forall_forall; intros; apply sq_nonneg).
        assert (Y := sq_nonneg (y - a)%Qc). destruct Hx as [<-|Hx].
        * assert (Z0 : (y - a = 0)%Qc) by (apply sq_zero; qlra). qlra.
        * apply IH; auto. apply Qcle_antisym; qlra.
      + intros H. assert (D : dev 2 p = 0%Qc).
        { rewrite dev2_sum. assert (E : forall q, (forall x, In x q -> In x p) -> qsum (map (fun x => (x - avg p) * (x - avg p))%Qc q) = 0%Qc).
          { induction q as [|y t IH]; intros S; [reflexivity|]. cbn [map]. change (qsum (?u :: ?w)) with (u + qsum w)%Qc. rewrite IH by (intros; apply S; right; auto). rewrite (H y) at 1 2 by (apply S; left; auto). ring. }
          apply E. auto. }
        rewrite D. unfold Qcdiv. ring. }
  unfold variance_spec, var_sample, var_pop. destruct sample, l as [|a [|b t]]; try discriminate; intros HV; match type of HV with Some ?x = Some v => assert (v = x) as -> by congruence end; apply G; cbn [length]; lia.
Qed.
Print Assumptions c86_variance_sign.
(** Columns without any number: the mean and the sample variance are said to be 0. *)
Theorem c86_all_nan_refuted : exists M : mat (option Qc), mat_ok M /\ present (col_values M 0) = [] /\ variance_column M 0 true true = Ok (Some 0%Qc, 0, Some 0%Qc) /\
  covariance_column M 0 1 true true = Ok (Some 0%Qc, Some 0%Qc, 0, Some 0%Qc).
Proof. exists (Mat 2 2 [None; None; Some (qz 1); Some (qz 5)]). split; [vm_compute; lia|]. repeat split; qeq. Qed.
Print Assumptions c86_all_nan_refuted.
(** The variance of the population {1}: not known from a matrix with one row, 0 from one with a NaN in addition; a single
    NaN is counted. *)
Theorem c86_one_row_refuted : exists M N : mat (option Qc), mat_ok M /\ mat_ok N /\ present (col_values M 0) = present (col_values N 0) /\
  variance_column M 0 false true = Ok (Some 1%Qc, 1, None) /\ variance_column N 0 false true = Ok (Some 1%Qc, 1, Some 0%Qc) /\
  variance_column (Mat 1 1 [None]) 0 false true = Ok (None, 1, None).
Proof. exists (Mat 1 1 [Some 1%Qc]), (Mat 2 1 [Some 1%Qc; None]). split; [vm_compute; lia|]. split; [vm_compute; lia|]. repeat split; qeq. Qed.
Print Assumptions c86_one_row_refuted.

(** ** Covariances *)
Theorem c86_covariance_column (M : mat (option Qc)) j k (sample : bool) : mat_ok M -> 0 <= j < ncols M -> 0 <= k < ncols M -> 2 <= nrows M ->
  let P := complete_pairs M j k in
  (P <> [] -> covariance_column M j k sample true = Ok (mean_spec (xs P), mean_spec (ys P), Z.of_nat (length P), covariance_spec sample P)) /\
  (exists a b, covariance_column M j k sample false = Ok (a, b, nrows M, cov_no_nan sample M j k) /\
     (~ has_nan (col_values M j) -> ~ has_nan (col_values M k) -> a = mean_spec (present (col_values M j)) /\ b = mean_spec (present (col_values M k)))).
Proof.
  intros OM Hj Hk R P. split.
  - intros N. destruct (covariance_column_ok M j k sample true OM Hj Hk) as (a & b & n & v & E & _ & _ & _ & H). destruct (H R eq_refl) as (-> & H1 & _). fold P in H1, E |- *.
    destruct H1 as (-> & -> & ->); [destruct P; [contradiction|cbn [length]; lia]|]. exact E.
  - destruct (covariance_column_ok M j k sample false OM Hj Hk) as (a & b & n & v & E & _ & _ & H & _). destruct (H R eq_refl) as (-> & -> & H1). eauto.
Qed.
Print Assumptions c86_covariance_column.
Theorem c86_covariance_columns_checked (M : mat (option Qc)) j k sample check : ~ (0 <= j < ncols M /\ 0 <= k < ncols M) -> covariance_column M j k sample check = Throw.
Proof. apply covariance_column_bad. Qed.
Print Assumptions c86_covariance_columns_checked.
(** Symmetric; with itself the variance; the square is at most the product of the variances. *)
Theorem c86_covariance_laws (sample : bool) (P : list (Qc * Qc)) c : covariance_spec sample P = Some c ->
  covariance_spec sample (map (fun p => (snd p, fst p)) P) = Some c /\
  (exists v w, variance_spec sample (xs P) = Some v /\ variance_spec sample (ys P) = Some w /\ (c * c <= v * w)%Qc) /\
  (forall l, P = map (fun x => (x, x)) l -> variance_spec sample l = Some c).
Proof.
  intros E. split; [rewrite cov_swap; auto|].
  assert (G : exists n, 0 < n /\ c = (codev P / qz n)%Qc /\ variance_spec sample (xs P) = Some (dev 2 (xs P) / qz n)%Qc /\ variance_spec sample (ys P) = Some (dev 2 (ys P) / qz n)%Qc).
  { unfold covariance_spec in E. destruct sample.
    - destruct P as [|a [|b t]]; try discriminate. injection E as <-. exists (Z.of_nat (length (a :: b :: t)) - 1). split; [cbn [length]; lia|]. split; auto.
      unfold variance_spec, var_sample. rewrite xs_len, ys_len. split; reflexivity.
    - destruct P as [|a t]; try discriminate. injection E as <-. exists (Z.of_nat (length (a :: t))). split; [cbn [length]; lia|]. split; auto.
      unfold variance_spec, var_pop. rewrite xs_len, ys_len. split; reflexivity. }
  destruct G as (n & Hn & -> & EX & EY). split.
  - exists (dev 2 (xs P) / qz n)%Qc, (dev 2 (ys P) / qz n)%Qc. split; auto. split; auto.
    assert (I : (0 <= / qz n)%Qc) by (apply Qclt_le_weak, Qc_inv_pos; apply (qz_lt 0); auto).
    unfold Qcdiv. replace (codev P * / qz n * (codev P * / qz n))%Qc with (codev P * codev P * (/ qz n * / qz n))%Qc by ring.
    replace (dev 2 (xs P) * / qz n * (dev 2 (ys P) * / qz n))%Qc with (dev 2 (xs P) * dev 2 (ys P) * (/ qz n * / qz n))%Qc by ring.
    apply Qcmult_le_compat_r; [apply codev_cs|apply sq_nonneg].
  - intros l ->. assert (XS : xs (map (fun x => (x, x)) l) = l) by (unfold xs; rewrite map_map; apply map_id).
    assert (YS : ys (map (fun x => (x, x)) l) = l) by (unfold ys; rewrite map_map; apply map_id).
    rewrite XS in EX. rewrite EX. do 2 f_equal. rewrite dev2_sum. unfold codev. rewrite XS, YS, map_map. reflexivity.
Qed.
Print Assumptions c86_covariance_laws.
Example c86_covariance_ex : exists M : mat (option Qc), mat_ok M /\ covariance_column M 0 1 true true = Ok (Some (qz 3), Some (qz 4), 3, Some (qz 6)) /\ covariance_column M 0 1 true false = Ok (None, Some (qz 5), 4, None).
Proof.
  exists (Mat 4 2 [Some (qz 1); None; Some (qz 3); Some (qz 5); Some (qz 1); Some (qz 8); Some (qz 4); Some (qz 7)]). split; [vm_compute; lia|].
  split; qeq.
Qed.

(** ** All or the listed rows and columns; an empty list asks for all, and is filled in *)
Theorem c86_rows_sum (M S : mat (option Qc)) idx : mat_ok M -> mat_ok S -> Forall (fun i => 0 <= i < nrows M) idx ->
  let ix := or_all idx (nrows M) in mlength S = Z.of_nat (length ix) ->
  exists S', rows_sum M S idx = Ok (S', ix) /\ rows S' = rows S /\ cols S' = cols S /\
    filled (data S) (data S') 0 (Z.of_nat (length ix)) (fun k => Some (if_no_nan (row_values M (at_index ix k)) (fun p => Some (qsum p)))).
Proof. intros OM OS. apply rows_sum_ok; auto. Qed.
Print Assumptions c86_rows_sum.
Theorem c86_columns_sum (M S : mat (option Qc)) idx : mat_ok M -> mat_ok S -> Forall (fun i => 0 <= i < ncols M) idx ->
  let ix := or_all idx (ncols M) in mlength S = Z.of_nat (length ix) ->
  exists S', columns_sum M S idx = Ok (S', ix) /\ rows S' = rows S /\ cols S' = cols S /\
    filled (data S) (data S') 0 (Z.of_nat (length ix)) (fun k => Some (if_no_nan (col_values M (at_index ix k)) (fun p => Some (qsum p)))).
Proof. intros OM OS. apply columns_sum_ok; auto. Qed.
Print Assumptions c86_columns_sum.
Theorem c86_columns_mean (M S : mat (option Qc)) idx : mat_ok M -> mat_ok S -> Forall (fun i => 0 <= i < ncols M) idx ->
  let ix := or_all idx (ncols M) in mlength S = Z.of_nat (length ix) ->
  exists S', columns_mean M S idx = Ok (S', ix) /\ rows S' = rows S /\ cols S' = cols S /\
    filled (data S) (data S') 0 (Z.of_nat (length ix)) (fun k => Some (if_no_nan (col_values M (at_index ix k)) mean_spec)).
Proof. intros OM OS. apply columns_mean_ok; auto. Qed.
Print Assumptions c86_columns_mean.
(** The covariance matrix of the listed columns. *)
Theorem c86_columns_variance (M S : mat (option Qc)) idx (sample : bool) : mat_ok M -> mat_ok S -> Forall (fun i => 0 <= i < ncols M) idx -> (0 < nrows M \/ sample = false) ->
  let ix := or_all idx (ncols M) in nrows S = Z.of_nat (length ix) -> ncols S = Z.of_nat (length ix) ->
  exists S', columns_variance M S idx sample = Ok (S', ix) /\ becomes S (fun p q => Some (cov_no_nan sample M (at_index ix p) (at_index ix q))) S'.
Proof. intros OM OS. apply columns_variance_ok; auto. Qed.
Print Assumptions c86_columns_variance.
Theorem c86_columns_sizes (M S : mat (option Qc)) idx sample :
  (mlength S <> Z.of_nat (length (or_all idx (nrows M))) -> rows_sum M S idx = Throw) /\
  (mlength S <> Z.of_nat (length (or_all idx (ncols M))) -> columns_sum M S idx = Throw /\ columns_mean M S idx = Throw) /\
  (nrows S <> Z.of_nat (length (or_all idx (ncols M))) \/ ncols S <> Z.of_nat (length (or_all idx (ncols M))) -> columns_variance M S idx sample = Throw).
Proof.
  unfold rows_sum, columns_sum, columns_mean, columns_variance. cbv zeta. rewrite (used_all idx (nrows M)), (used_all idx (ncols M)). split; [|split].
  - intros H. destruct (Z.eqb_spec (mlength S) (Z.of_nat (length (or_all idx (nrows M))))); [contradiction|auto].
  - intros H. destruct (Z.eqb_spec (mlength S) (Z.of_nat (length (or_all idx (ncols M))))); [contradiction|auto].
  - intros [H|H]; [destruct (Z.eqb_spec (nrows S) (Z.of_nat (length (or_all idx (ncols M))))); [contradiction|auto]|].
    destruct (Z.eqb_spec (ncols S) (Z.of_nat (length (or_all idx (ncols M))))); [contradiction|]. rewrite orb_true_r. auto.
Qed.
Print Assumptions c86_columns_sizes.
Example c86_columns_ex : exists M S S2 : mat (option Qc), mat_ok M /\ mat_ok S /\ mat_ok S2 /\
  columns_variance M S [1; 0] true = Ok (Mat 2 2 [Some (qz 4); Some (qz 6); Some (qz 6); Some (qz 9)], [1; 0]) /\
  columns_mean M S2 [] = Ok (Mat 2 1 [Some (qz 4); Some (qz 3)], [0; 1]).
Proof.
  exists (Mat 3 2 [Some (qz 1); Some (qz 4); Some (qz 7); Some (qz 1); Some (qz 3); Some (qz 5)]), (Mat 2 2 (repeat None 4)), (Mat 2 1 (repeat None 2)).
  split; [vm_compute; lia|]. split; [vm_compute; lia|]. split; [vm_compute; lia|]. split; qeq.
Qed.
(** The sample covariances of no observations are said to be 0. *)
Theorem c86_no_rows_refuted : exists M S : mat (option Qc), mat_ok M /\ mat_ok S /\ columns_variance M S [] true = Ok (Mat 1 1 [Some 0%Qc], [0]).
Proof. exists (Mat 0 1 []), (Mat 1 1 [None]). split; [vm_compute; lia|]. split; [vm_compute; lia|]. qeq. Qed.
Print Assumptions c86_no_rows_refuted.

(** Means and variances of all columns (at least two rows). *)
Theorem c86_columns_means (M S : mat (option Qc)) : mat_ok M -> mat_ok S -> mlength S = ncols M ->
  exists S', columns_means M S false = Ok S' /\ rows S' = rows S /\ cols S' = cols S /\ filled (data S) (data S') 0 (ncols M) (fun k => Some (if_no_nan (col_values M k) mean_spec)).
Proof.
  intros OM OS L. unfold columns_means. rewrite L, Z.eqb_refl. cbn [negb].
  destruct (col_writes M OM S (mean_of false) OS L) as (S' & -> & R & C & F1 & F2). exists S'. split; auto. split; auto. split; auto. split; auto.
  intros k. rewrite F2. destruct (_ && _); auto. rewrite mean_all_spec. auto.
Qed.
Print Assumptions c86_columns_means.
Theorem c86_columns_variances (M Sm Sv : mat (option Qc)) (sample : bool) : mat_ok M -> mat_ok Sm -> mat_ok Sv -> mlength Sm = ncols M -> mlength Sv = ncols M -> 2 <= nrows M ->
  exists Sm' Sv', columns_means_variances M Sm Sv sample false = Ok (Sm', Sv') /\ columns_variances M Sv sample false = Ok Sv' /\
    filled (data Sm) (data Sm') 0 (ncols M) (fun k => Some (if_no_nan (col_values M k) mean_spec)) /\
    filled (data Sv) (data Sv') 0 (ncols M) (fun k => Some (if_no_nan (col_values M k) (variance_spec sample))).
Proof.
  intros OM OSm OSv Lm Lv R. unfold columns_means_variances, columns_variances. rewrite Lm, Lv, Z.eqb_refl. cbn [negb orb].
  destruct (col_writes M OM Sm (fun l => fst (variance_of sample false l)) OSm Lm) as (Sm' & -> & _ & _ & F1 & F2). cbn [bind].
  destruct (col_writes M OM Sv (fun l => snd (variance_of sample false l)) OSv Lv) as (Sv' & -> & _ & _ & G1 & G2). cbn [bind].
  exists Sm', Sv'. split; auto. split; auto. split; (split; [auto|]); intros k; [rewrite F2|rewrite G2]; (destruct (_ && _); [|reflexivity]);
    rewrite variance_all_spec by (rewrite col_length; unfold nrows in R; lia); reflexivity.
Qed.
Print Assumptions c86_columns_variances.
(** The same with a check for NaN. *)
Theorem c86_columns_variances_nan (M Sm Sv : mat (option Qc)) (sample : bool) : mat_ok M -> mat_ok Sm -> mat_ok Sv -> mlength Sm = ncols M -> mlength Sv = ncols M -> 2 <= nrows M ->
  (forall j, 0 <= j < ncols M -> present (col_values M j) <> []) ->
  exists Sm' Sv', columns_means_variances M Sm Sv sample true = Ok (Sm', Sv') /\ columns_variances M Sv sample true = Ok Sv' /\
    filled (data Sm) (data Sm') 0 (ncols M) (fun k => Some (mean_spec (present (col_values M k)))) /\
    filled (data Sv) (data Sv') 0 (ncols M) (fun k => Some (variance_spec sample (present (col_values M k)))).
Proof.
  intros OM OSm OSv Lm Lv R N. unfold columns_means_variances, columns_variances. rewrite Lm, Lv, Z.eqb_refl. cbn [negb orb].
  destruct (col_writes M OM Sm (fun l => fst (variance_of sample true l)) OSm Lm) as (Sm' & -> & _ & _ & F1 & F2). cbn [bind].
  destruct (col_writes M OM Sv (fun l => snd (variance_of sample true l)) OSv Lv) as (Sv' & -> & _ & _ & G1 & G2). cbn [bind].
  exists Sm', Sv'. split; auto. split; auto. split; (split; [auto|]); intros k; [rewrite F2|rewrite G2]; (destruct ((0 <=? Z.of_nat k) && (Z.of_nat k <? 0 + ncols M)) eqn:B; [|reflexivity]);
    rewrite variance_check; auto; try (rewrite col_length; unfold nrows in R; lia); apply N; lia.
Qed.
Print Assumptions c86_columns_variances_nan.
Example c86_columns_means_ex : exists M S S2 : mat (option Qc), mat_ok M /\ mat_ok S /\ mat_ok S2 /\
  columns_means_variances M S S2 false true = Ok (Mat 2 1 [Some (qz 4); Some (qz 3)], Mat 2 1 [Some (qz 6); Some (qz 4)]).
Proof.
  exists (Mat 3 2 [Some (qz 1); Some (qz 4); Some (qz 7); Some (qz 1); None; Some (qz 5)]), (Mat 2 1 (repeat None 2)), (Mat 2 1 (repeat None 2)).
  split; [vm_compute; lia|]. split; [vm_compute; lia|]. split; [vm_compute; lia|]. qeq.
Qed.
