(** Correlations (C88). *)
From Verif Require Import CorRealModel CorRealSpec MatProofs MatDotProofs MatProofs5 DataProofs DescProofs DescProofs2 HistProofs2 ColProofs ColProofs2 ColProofs3 CorProofs CorProofs2 CorProofs3 CorRealProofs CorRealProofs2 CorRealProofs3 CorRealProofs4.
From Coq Require Import Lra.
Local Open Scope Z_scope.

(** Pearson: the correlations of the columns, NaN if one of the two has a NaN or is constant; means and variances. *)
Theorem c88_pearson (M : mat (option Qc)) sR sM sV work (lower : bool) : mat_ok M -> 2 <= nrows M -> 0 < ncols M ->
  (cols M * cols M <= length sR)%nat -> (cols M <= length sM)%nat -> (cols M <= length sV)%nat -> mlength M <= work ->
  exists S Me Va, pearson_cor M sR sM sV work lower = Ok (S, Me, Va) /\ square_of (ncols M) lower (cor_no_nan M) S /\
    filled sM (data Me) 0 (ncols M) (fun j => Some (if_no_nan (col_values M j) mean_spec)) /\
    filled sV (data Va) 0 (ncols M) (fun j => Some (if_no_nan (col_values M j) (variance_spec false))).
Proof. intros W HR HC L1 L2 L3 HW. destruct (pearson_cor_ok M sR sM sV work lower W HR HC L1 L2 L3 HW) as (S & Me & Va & E & _ & Q & F1 & F2). exists S, Me, Va. auto. Qed.
Print Assumptions c88_pearson.
(** CorrelationColumn for two columns. *)
Theorem c88_column (M : mat (option Qc)) j k (sample : bool) : mat_ok M -> 0 <= j < ncols M -> 0 <= k < ncols M -> 2 <= nrows M ->
  let P := complete_pairs M j k in
  (exists r, correlation_column M j k sample true = Ok r /\ k_count r = Some (Z.of_nat (length P)) /\ k_cor r = cor_or_one P /\ (P <> [] -> k_mean1 r = mean_spec (xs P) /\ k_mean2 r = mean_spec (ys P))) /\
  (exists r, correlation_column M j k sample false = Ok r /\ k_count r = Some (nrows M) /\
    k_cor r = if existsb is_nan (col_values M j) || existsb is_nan (col_values M k) then None else cor_or_one P).
Proof.
  intros W Hj Hk HR P. split.
  - eexists. split; [apply correlation_column_nan_ok; auto|]. cbn [k_count k_cor k_mean1 k_mean2]. split; auto. split; auto. intros N. fold P. rewrite !mean_spec_ok; auto; destruct P; try contradiction; discriminate.
  - destruct (correlation_column_ok M j k sample W Hj Hk HR) as (r & E & C & H1 & H2). exists r. split; auto. split; auto. destruct (existsb is_nan (col_values M j) || existsb is_nan (col_values M k)); [apply H1; auto|apply H2; auto].
Qed.
Print Assumptions c88_column.
(** The matrix with NaNs left out: correlations from the common rows, ones on the diagonal. *)
Theorem c88_pearson_nan (M : mat (option Qc)) sR sC (adjust lower : bool) : mat_ok M -> 2 <= nrows M ->
  (cols M * cols M <= length sR)%nat -> sym_length true (ncols M) <= Z.of_nat (length sC) ->
  exists S C, pearson_cor_nan M sR sC adjust lower = Ok (S, C) /\ square_of (ncols M) lower (fun i j => if i =? j then Some 1%R else cor_or_one (complete_pairs M i j)) S /\
    forall i j, 0 <= i < ncols M -> 0 <= j < ncols M -> i <> j -> sym_get0 true C i j = Ok (Z.of_nat (length (complete_pairs M i j))).
Proof.
  intros W HR L1 L2. destruct (pearson_cor_nan_ok M adjust sR sC lower W HR L1 L2) as (S & C & E & _ & _ & _ & Q & F). exists S, C. split; auto. split; auto. intros i j Hi Hj N. rewrite F by auto. destruct (Z.eqb_spec i j); [contradiction|auto].
Qed.
Print Assumptions c88_pearson_nan.
(** Spearman: the correlations of the ranks. *)
Theorem c88_spearman (M : mat Qc) sR sM sV work (lower : bool) : mat_ok M -> 2 <= nrows M -> 0 < ncols M ->
  (cols M * cols M <= length sR)%nat -> (cols M <= length sM)%nat -> (cols M <= length sV)%nat -> 2 * mlength M <= Z.of_nat (length work) ->
  exists S Me Va, spearman_cor M sR sM sV work lower = Ok (S, Me, Va) /\ square_of (ncols M) lower (fun i j => cor_spec (rank_pairs (col_pairs M i j))) S.
Proof. intros W HR HC L1 L2 L3 HW. destruct (spearman_cor_ok M sR sM sV work lower W HR HC L1 L2 L3 HW) as (S & Me & Va & E & _ & Q). exists S, Me, Va. auto. Qed.
Print Assumptions c88_spearman.
Theorem c88_spearman_nan (M : mat (option Qc)) sR sC (lower : bool) : mat_ok M ->
  (forall i j, 0 <= i < ncols M -> 0 <= j < ncols M -> (2 <= length (complete_pairs M i j))%nat) ->
  (cols M * cols M <= length sR)%nat -> sym_length true (ncols M) <= Z.of_nat (length sC) ->
  exists S C, spearman_nan M (spearman_cor_pair M) sR sC lower = Ok (S, C) /\ square_of (ncols M) lower (fun i j => cor_spec (rank_pairs (complete_pairs M i j))) S /\
    forall i j, 0 <= i < ncols M -> 0 <= j < ncols M -> sym_get0 true C i j = Ok (Z.of_nat (length (complete_pairs M i j))).
Proof.
  intros W HE L1 L2. destruct (spearman_nan_ok M (spearman_cor_pair M) (spearman_rho M) sR sC lower W L1 L2) as (S & C & E & _ & _ & _ & Q & F); eauto.
  - intros i j Hi Hj. apply spearman_cor_pair_ok; auto.
  - intros. apply spearman_rho_swap.
Qed.
Print Assumptions c88_spearman_nan.
(** A matrix for which the hypotheses hold, with defined correlations. *)
Example c88_ex : exists M : mat (option Qc), mat_ok M /\ 2 <= nrows M /\ (forall i j, 0 <= i < ncols M -> 0 <= j < ncols M -> (2 <= length (complete_pairs M i j))%nat) /\
  cor_no_nan M 0 0 <> None /\ cor_no_nan M 0 1 = None /\ cor_spec (complete_pairs M 0 1) <> None /\ cor_spec (rank_pairs (complete_pairs M 0 1)) <> None.
Proof.
  exists (Mat 3 2 [Some (qz 1); Some (qz 3); Some (qz 4); None; Some (qz 1); Some (qz 5)]). split; [vm_compute; lia|]. split; [vm_compute; discriminate|]. split.
  - intros i j Hi Hj. change (ncols _) with 2 in *. assert (A : i = 0 \/ i = 1) by lia. assert (B : j = 0 \/ j = 1) by lia. destruct A as [-> | ->], B as [-> | ->]; vm_compute; lia.
  - unfold cor_no_nan, cor_spec. repeat split; match goal with |- context [if ?b then _ else _] => let v := eval vm_compute in b in change b with v end; cbv iota; try discriminate; try reflexivity;
    match goal with |- context [if ?b then _ else _] => let v := eval vm_compute in b in change b with v end; cbv iota; discriminate.
Qed.

(** ** Laws of the correlation coefficient *)
Section Laws.
Local Open Scope R_scope.
Theorem c88_range P : varies (xs P) -> varies (ys P) -> -1 <= rho P <= 1.
Proof. apply rho_range. Qed.
Print Assumptions c88_range.
(** It is 1 or -1 exactly for points on an increasing or a decreasing line. *)
Theorem c88_extreme P : varies (xs P) -> varies (ys P) ->
  (rho P = 1 <-> exists a b, (0 < b)%Qc /\ forall p, In p P -> snd p = (a + b * fst p)%Qc) /\
  (rho P = -1 <-> exists a b, (b < 0)%Qc /\ forall p, In p P -> snd p = (a + b * fst p)%Qc).
Proof. apply rho_extreme. Qed.
Print Assumptions c88_extreme.
(** It does not depend on the units; a change of sign of one variable changes its sign. *)
Theorem c88_affine a b c d P : varies (xs P) -> varies (ys P) -> (0 < b)%Qc -> (d <> 0)%Qc ->
  cor_spec P = Some (rho P) /\
  cor_spec (map (fun p => (a + b * fst p, c + d * snd p)%Qc) P) = Some (if qltb 0 d then rho P else - rho P).
Proof.
  intros VX VY HB HD. unfold cor_spec. rewrite !(proj2 (varies_b _)); auto. 2,3: unfold xs, ys; rewrite map_map; cbn [fst snd].
  - split; auto. cbn [andb]. f_equal. apply (rho_affine a b c d P); auto.
  - unfold ys in VY. rewrite <- (map_map snd (fun y => c + d * y)%Qc). apply varies_affine; auto.
  - unfold xs in VX. rewrite <- (map_map fst (fun y => a + b * y)%Qc). apply varies_affine; auto. apply Qc_lt_ne; auto.
Qed.
Print Assumptions c88_affine.
Theorem c88_symmetric P : cor_spec (map (fun ab => (snd ab, fst ab)) P) = cor_spec P.
Proof. apply cor_swap. Qed.
Print Assumptions c88_symmetric.
(** The diagonal: 1 for a column without NaN which is not constant. *)
Theorem c88_diagonal (M : mat (option Qc)) j : mat_ok M -> (0 <= j < ncols M)%Z -> cor_no_nan M j j = if existsb is_nan (col_values M j) then None else if variesb (present (col_values M j)) then Some 1 else None.
Proof.
  intros W Hj. unfold cor_no_nan. destruct (existsb is_nan (col_values M j)) eqn:N; auto. cbn [orb]. unfold cor_spec.
  rewrite complete_self by auto. assert (E1 : forall l : list Qc, xs (map (fun x => (x, x)) l) = l) by (intros; unfold xs; rewrite map_map; apply map_id). assert (E2 : forall l : list Qc, ys (map (fun x => (x, x)) l) = l) by (intros; unfold ys; rewrite map_map; apply map_id).
  rewrite E1, E2. destruct (variesb (present (col_values M j))) eqn:V; auto. cbn [andb]. f_equal. apply rho_self, varies_b; auto.
Qed.
Print Assumptions c88_diagonal.
(** Spearman's correlation does not change under increasing transformations. *)
Theorem c88_monotone (P : list (Qc * Qc)) (f g : Qc -> Qc) : (forall x y, (x < y)%Qc -> (f x < f y)%Qc) -> (forall x y, (x < y)%Qc -> (g x < g y)%Qc) ->
  cor_spec (rank_pairs (map (fun p => (f (fst p), g (snd p))) P)) = cor_spec (rank_pairs P).
Proof. intros F G. rewrite rank_pairs_mono; auto. Qed.
Print Assumptions c88_monotone.
End Laws.
Example c88_laws_ex : let P := [(qz 1, qz 1); (qz 2, qz 3); (qz 4, qz 2)] in varies (xs P) /\ varies (ys P) /\ (Q2Qc 0 < qz 3)%Qc /\ (qz (-2) <> 0)%Qc /\ cor_spec P <> None.
Proof. cbv zeta. assert (V : varies (xs [(qz 1, qz 1); (qz 2, qz 3); (qz 4, qz 2)]) /\ varies (ys [(qz 1, qz 1); (qz 2, qz 3); (qz 4, qz 2)])) by (split; apply varies_b; vm_compute; reflexivity). destruct V as [V1 V2].
  split; auto. split; auto. split; [reflexivity|]. split; [discriminate|]. unfold cor_spec. rewrite (proj2 (varies_b _) V1), (proj2 (varies_b _) V2). discriminate. Qed.

(** ** What does not hold *)
(** A constant column: NaN without a check for NaNs; with one the diagonal is 1, and so are the correlations of two constant columns. *)
Theorem c88_constant_refuted : exists M : mat (option Qc), mat_ok M /\ forallb (fun x => negb (is_nan x)) (data M) = true /\
  (exists S Me Va, pearson_cor M (repeat None 4) (repeat None 2) (repeat None 2) 4 true = Ok (S, Me, Va) /\ entry S 0 0 = Some None /\ entry S 0 1 = Some None) /\
  (exists S C, pearson_cor_nan M (repeat None 4) (repeat 0 3) false true = Ok (S, C) /\ entry S 0 0 = Some (Some 1%R) /\ entry S 0 1 = Some (Some 1%R)).
Proof.
  exists (Mat 2 2 [Some (qz 3); Some (qz 3); Some (qz 5); Some (qz 5)]). set (M := Mat 2 2 _ : mat (option Qc)). assert (W : mat_ok M) by (vm_compute; lia). split; auto. split; [reflexivity|]. split.
  - destruct (pearson_cor_ok M (repeat None 4) (repeat None 2) (repeat None 2) 4 true) as (S & Me & Va & E & _ & (_ & _ & Q) & _); auto; try (vm_compute; intuition (discriminate || lia)).
    exists S, Me, Va. split; auto. rewrite !Q by (vm_compute; intuition discriminate). split; reflexivity.
  - destruct (pearson_cor_nan_ok M false (repeat None 4) (repeat 0 3) true) as (S & C & E & _ & _ & _ & (_ & _ & Q) & _); auto; try (vm_compute; intuition (discriminate || lia)).
    exists S, C. split; auto. rewrite !Q by (vm_compute; intuition discriminate). split; reflexivity.
Qed.
Print Assumptions c88_constant_refuted.
(** The counts of the diagonal are never written, and one row leaves every count as it was. *)
Theorem c88_counts_refuted :
  (forall (M : mat (option Qc)) sR sC (adjust lower : bool), mat_ok M -> 2 <= nrows M -> (cols M * cols M <= length sR)%nat -> sym_length true (ncols M) <= Z.of_nat (length sC) ->
     exists S C, pearson_cor_nan M sR sC adjust lower = Ok (S, C) /\ forall i, 0 <= i < ncols M -> sym_get0 true C i i = sym_get0 true (Sym (cols M) sC) i i) /\
  (exists (M : mat (option Qc)) r, mat_ok M /\ nrows M = 1 /\ correlation_column M 0 1 false true = Ok r /\ k_count r = None).
Proof.
  split.
  - intros M sR sC adjust lower W HR L1 L2. destruct (pearson_cor_nan_ok M adjust sR sC lower W HR L1 L2) as (S & C & E & _ & _ & _ & Q & F). exists S, C. split; auto. intros i Hi. rewrite F by auto. rewrite Z.eqb_refl. reflexivity.
  - exists (Mat 1 2 [Some (qz 3); Some (qz 4)]). eexists. split; [vm_compute; lia|]. split; [reflexivity|]. split; reflexivity.
Qed.
Print Assumptions c88_counts_refuted.
(** With NaNs left out, the variances of CorrelationColumn are divided by the number of rows, not by the number of observations used. *)
Theorem c88_column_variances_refuted : exists (M : mat (option Qc)) r, mat_ok M /\ correlation_column M 0 1 false true = Ok r /\ k_count r = Some 2 /\
  xs (complete_pairs M 0 1) = [qz 1; qz 3] /\ k_var1 r = Some (qz 2 / qz 3)%Qc /\ variance_spec false (xs (complete_pairs M 0 1)) = Some 1%Qc.
Proof.
  exists (Mat 3 2 [Some (qz 1); Some (qz 3); Some (qz 4); Some (qz 1); Some (qz 5); None]). set (M := Mat 3 2 _ : mat (option Qc)). eexists. assert (W : mat_ok M) by (vm_compute; lia). split; auto.
  split; [apply correlation_column_nan_ok; auto; vm_compute; intuition discriminate|]. cbn [k_count k_var1]. assert (E : complete_pairs M 0 1 = [(qz 1, qz 1); (qz 3, qz 5)]) by reflexivity. rewrite E.
  split; [reflexivity|]. split; [reflexivity|]. split; vm_compute; repeat first [apply Qc_is_canon; reflexivity | f_equal].
Qed.
Print Assumptions c88_column_variances_refuted.
