(** Covariance matrices (C87). *)
From Verif Require Import CorModel CorSpec MatProofs MatDotProofs MatProofs5 DataProofs DescProofs DescProofs2 HistProofs2 LsProofs ColProofs ColProofs2 ColProofs3 CorProofs CorProofs2 CorProofs3.
Local Open Scope Z_scope.
Ltac qeq := vm_compute; repeat first [apply Qc_is_canon; reflexivity | f_equal].

(** Pearson: the matrix of the covariances of the columns (NaN if one of the two columns has a NaN) and the means; the
    part below the diagonal is set only on demand. *)
Theorem c87_pearson (M : mat (option Qc)) sR sM work (adjust lower : bool) : mat_ok M -> 0 < nrows M -> 0 < ncols M ->
  (cols M * cols M <= length sR)%nat -> (cols M <= length sM)%nat -> mlength M <= work ->
  exists S Me, pearson_cov M sR sM work adjust lower = Ok (S, Me) /\ square_of (ncols M) lower (cov_no_nan adjust M) S /\
    filled sM (data Me) 0 (ncols M) (fun j => Some (if_no_nan (col_values M j) mean_spec)).
Proof. intros W HR HC L1 L2 HW. destruct (pearson_cov_ok M sR sM work adjust lower W HR HC L1 L2 HW) as (S & Me & E & _ & Q & _ & _ & F). eauto. Qed.
Print Assumptions c87_pearson.
Example c87_pearson_ex : exists M : mat (option Qc), mat_ok M /\ exists S Me, pearson_cov M (repeat None 4) (repeat None 2) 6 true true = Ok (S, Me) /\
  S = Mat 2 2 [Some (qz 4); Some (qz (-2)); Some (qz (-2)); Some (qz 1)] /\ Me = Mat 2 1 [Some (qz 3); Some (qz 7)].
Proof.
  exists (Mat 3 2 (map (fun z => Some (qz z)) [1; 3; 5; 8; 7; 6])). split; [vm_compute; lia|]. do 2 eexists. split; [vm_compute; reflexivity|]. split; qeq.
Qed.
(** NaNs left out: each covariance from the rows in which both columns have numbers, and their number. *)
Theorem c87_pearson_nan (M : mat (option Qc)) sR sC (adjust lower : bool) : mat_ok M -> 2 <= nrows M -> enough M ->
  (cols M * cols M <= length sR)%nat -> sym_length true (ncols M) <= Z.of_nat (length sC) ->
  exists S C, pearson_cov_nan M sR sC adjust lower = Ok (S, C) /\ square_of (ncols M) lower (fun i j => covariance_spec adjust (complete_pairs M i j)) S /\
    forall i j, 0 <= i < ncols M -> 0 <= j < ncols M -> sym_get0 true C i j = Ok (Z.of_nat (length (complete_pairs M i j))).
Proof. intros W HR HE L1 L2. destruct (pearson_cov_nan_ok M adjust W HR HE sR sC lower L1 L2) as (S & C & E & _ & _ & _ & Q & F). eauto. Qed.
Print Assumptions c87_pearson_nan.
Example c87_pearson_nan_ex : exists M : mat (option Qc), mat_ok M /\ enough M /\ exists S C, pearson_cov_nan M (repeat None 4) (repeat 0 3) true true = Ok (S, C) /\
  S = Mat 2 2 [Some (qz 4); Some (qz 2); Some (qz 2); Some (qz 4)] /\ sdata C = [3; 2; 3].
Proof.
  exists (Mat 4 2 [Some (qz 1); Some (qz 3); Some (qz 5); None; None; Some (qz 1); Some (qz 3); Some (qz 5)]). split; [vm_compute; lia|]. split.
  - intros i j Hi Hj. change (ncols _) with 2 in *. assert (A : i = 0 \/ i = 1) by lia. assert (B : j = 0 \/ j = 1) by lia. destruct A as [-> | ->], B as [-> | ->]; vm_compute; discriminate.
  - do 2 eexists. split; [vm_compute; reflexivity|]. split; qeq.
Qed.
(** Spearman: the covariances of the ranks. *)
Theorem c87_spearman (M : mat Qc) sR sM work (adjust lower : bool) : mat_ok M -> 0 < nrows M -> 0 < ncols M ->
  (cols M * cols M <= length sR)%nat -> (cols M <= length sM)%nat -> 2 * mlength M <= Z.of_nat (length work) ->
  exists S Me, spearman_cov M sR sM work adjust lower = Ok (S, Me) /\ square_of (ncols M) lower (fun i j => covariance_spec adjust (rank_pairs (col_pairs M i j))) S /\
    filled sM (data Me) 0 (ncols M) (fun j => Some (mean_spec (ranks (col_of M j)))).
Proof. intros W HR HC L1 L2 HW. destruct (spearman_cov_ok M sR sM work adjust lower W HR HC L1 L2 HW) as (S & Me & E & _ & Q & _ & _ & F). eauto. Qed.
Print Assumptions c87_spearman.
Theorem c87_spearman_nan (M : mat (option Qc)) sR sC (adjust lower : bool) : mat_ok M -> enough M ->
  (cols M * cols M <= length sR)%nat -> sym_length true (ncols M) <= Z.of_nat (length sC) ->
  exists S C, spearman_nan M (spearman_cov_pair M adjust) sR sC lower = Ok (S, C) /\ square_of (ncols M) lower (fun i j => covariance_spec adjust (rank_pairs (complete_pairs M i j))) S /\
    forall i j, 0 <= i < ncols M -> 0 <= j < ncols M -> sym_get0 true C i j = Ok (Z.of_nat (length (complete_pairs M i j))).
Proof.
  intros W HE L1 L2. destruct (spearman_nan_ok M (spearman_cov_pair M adjust) (spearman_value M adjust) sR sC lower W L1 L2) as (S & C & E & _ & _ & _ & Q & F); eauto.
  - intros i j Hi Hj. apply spearman_pair_ok; auto.
  - intros. apply spearman_value_swap.
Qed.
Print Assumptions c87_spearman_nan.
Example c87_spearman_ex : exists M : mat Qc, mat_ok M /\ exists S Me, spearman_cov M (repeat None 4) (repeat None 2) (repeat 0%Qc 12) true true = Ok (S, Me) /\
  S = Mat 2 2 [Some (qz 1); Some (qz (-1)); Some (qz (-1)); Some (qz 1)] /\ Me = Mat 2 1 [Some (qz 1); Some (qz 1)].
Proof.
  exists (Mat 3 2 (map qz [1; 30; 500; 8; 7; 3])). split; [vm_compute; lia|]. do 2 eexists. split; [vm_compute; reflexivity|]. split; qeq.
Qed.
Example c87_spearman_nan_ex : exists M : mat (option Qc), mat_ok M /\ enough M /\ exists S C, spearman_nan M (spearman_cov_pair M true) (repeat None 4) (repeat 0 3) true = Ok (S, C) /\
  S = Mat 2 2 [Some (qz 1); Some (qz 1 / qz 2)%Qc; Some (qz 1 / qz 2)%Qc; Some (qz 1)] /\ sdata C = [3; 2; 3].
Proof.
  exists (Mat 4 2 [Some (qz 1); Some (qz 3); Some (qz 5); None; None; Some (qz 1); Some (qz 3); Some (qz 5)]). split; [vm_compute; lia|]. split.
  - intros i j Hi Hj. change (ncols _) with 2 in *. assert (A : i = 0 \/ i = 1) by lia. assert (B : j = 0 \/ j = 1) by lia. destruct A as [-> | ->], B as [-> | ->]; vm_compute; discriminate.
  - do 2 eexists. split; [vm_compute; reflexivity|]. split; qeq.
Qed.
(** Ranks, and so these covariances, do not change under increasing transformations of the variables. *)
Theorem c87_monotone (P : list (Qc * Qc)) (f g : Qc -> Qc) : (forall x y, (x < y)%Qc -> (f x < f y)%Qc) -> (forall x y, (x < y)%Qc -> (g x < g y)%Qc) ->
  rank_pairs (map (fun p => (f (fst p), g (snd p))) P) = rank_pairs P.
Proof. apply rank_pairs_mono. Qed.
Print Assumptions c87_monotone.
Example c87_monotone_ex : rank_pairs (map (fun p => (qz 2 * fst p, snd p + qz 3)%Qc) [(qz 1, qz 4); (qz 5, qz 4)]) = [(qz 1, qz 0); (qz 0, qz 0)].
Proof. qeq. Qed.
(** The covariance matrix is symmetric and positive semidefinite. *)
Theorem c87_psd (M : mat Qc) (adjust : bool) (c : Z -> Z -> Qc) : mat_ok M -> 0 < (if adjust then nrows M - 1 else nrows M) ->
  (forall i j, 0 <= i < ncols M -> 0 <= j < ncols M -> cov_no_nan adjust (with_nan M) i j = Some (c i j)) ->
  StatSpec.symmetric (ncols M) c /\ psd (ncols M) c.
Proof.
  intros W N H. assert (LP : forall i j, Z.of_nat (length (col_pairs M i j)) = nrows M) by (intros; unfold col_pairs; rewrite map_length, upto_length; unfold nrows; lia).
  set (n := if adjust then nrows M - 1 else nrows M) in *.
  set (d := fun k i => (el M k i - avg (col_of M i))%Qc).
  assert (C : forall i j, 0 <= i < ncols M -> 0 <= j < ncols M -> c i j = (sum_to (nrows M) (fun k => d k i * d k j) / qz n)%Qc).
  { intros i j Hi Hj. specialize (H i j Hi Hj). rewrite with_nan_cov in H by auto.
    assert (NE : col_pairs M i j <> []) by (intros E; pose proof (LP i j) as L; rewrite E in L; cbn [length] in L; unfold n in N; destruct adjust; lia).
    rewrite <- cov_ratio in H by auto. unfold nan_or_ratio in H. rewrite LP in H. fold n in H. rewrite fdiv_ok in H by (apply Qc_lt_ne, (qz_lt 0); auto).
    match type of H with Some ?x = Some _ => assert (c i j = x) as -> by congruence end. f_equal. unfold codev. destruct (col_xs M i j) as [-> ->]. unfold col_pairs, sum_to. rewrite map_map. reflexivity. }
  split.
  - intros i j Hi Hj. rewrite !C by auto. f_equal. apply st_ext. intros. ring.
  - intros v. assert (E : sum_to (ncols M) (fun i => sum_to (ncols M) (fun j => v i * c i j * v j))%Qc = (sum_to (nrows M) (fun k => sum_to (ncols M) (fun i => v i * d k i) * sum_to (ncols M) (fun i => v i * d k i)) / qz n)%Qc).
    { transitivity (sum_to (ncols M) (fun i => sum_to (ncols M) (fun j => sum_to (nrows M) (fun k => (v i * d k i) * (v j * d k j)) * / qz n)))%Qc.
      { apply st_ext. intros i Hi. apply st_ext. intros j Hj. rewrite C by auto. unfold Qcdiv.
        replace (v i * (sum_to (nrows M) (fun k => d k i * d k j) * / qz n) * v j)%Qc with (v i * v j * sum_to (nrows M) (fun k => d k i * d k j) * / qz n)%Qc by ring. rewrite <- st_mul. f_equal. apply st_ext. intros. ring. }
      unfold Qcdiv. rewrite <- st_mul_r.
      transitivity (sum_to (ncols M) (fun i => sum_to (nrows M) (fun k => sum_to (ncols M) (fun j => (v i * d k i) * (v j * d k j) * / qz n))))%Qc.
      { apply st_ext. intros i Hi. rewrite st_swap. apply st_ext. intros j Hj. rewrite st_mul_r. reflexivity. }
      rewrite st_swap. apply st_ext. intros k Hk. set (b := sum_to (ncols M) (fun i => v i * d k i)%Qc). rewrite <- Qcmult_assoc. unfold b at 1. rewrite <- st_mul_r. apply st_ext. intros i Hi.
      rewrite Qcmult_assoc. rewrite st_mul_r. f_equal. rewrite st_mul. reflexivity. }
    rewrite E. unfold Qcdiv. pose proof (st_nonneg (nrows M) (fun k => sum_to (ncols M) (fun i => v i * d k i) * sum_to (ncols M) (fun i => v i * d k i))%Qc (fun k _ => sq_nn _)) as Q.
    assert (P : (0 < qz n)%Qc) by (apply (qz_lt 0); auto). pose proof (Qcmult_le_compat_r _ _ _ Q (Qclt_le_weak _ _ (Qc_inv_pos _ P))) as Q2. rewrite Qcmult_0_l in Q2. exact Q2.
Qed.
Print Assumptions c87_psd.
Example c87_psd_ex : exists M : mat Qc, mat_ok M /\ cov_no_nan true (with_nan M) 0 1 = Some (qz (-2)).
Proof. exists (Mat 3 2 (map qz [1; 3; 5; 8; 7; 6])). split; [vm_compute; lia|]. qeq. Qed.

(** A matrix which passes the check of the sizes finds enough room in arrays of the declared sizes. *)
Definition storage_needed (k : cor_kind) (c : Z) : Z := c * c + (if check_nan k then sym_length true c else c + (if is_cor k then c else 0)).
(** The data set of two columns, its ranks, the matrix of the pair and its work array; ranks and work array; or a copy. *)
Definition work_needed (k : cor_kind) (r c : Z) : Z :=
  if check_nan k then (if is_spearman k then 2 * r + 2 * r + (4 + 2 + (if is_cor k then 2 else 0)) + 2 * r else 0)
  else if is_spearman k then r * c + r * c else r * c.
Theorem c87_sizes k dr dc r c : 0 <= r -> 0 <= c -> cor_checked k dr dc r c = true ->
  work_needed k r c <= fst (cor_sizes k dr dc) /\ storage_needed k c <= snd (cor_sizes k dr dc).
Proof.
  intros Hr Hc H. unfold cor_checked in H. assert (A : work_needed k r c <= fst (cor_sizes k r c) /\ storage_needed k c <= snd (cor_sizes k r c)); [|lia]. clear H.
  unfold work_needed, storage_needed, cor_sizes, sym_length, pearson_sizes. destruct k as [[|] [|] [|]]; cbn [check_nan is_cor is_spearman fst snd]; assert (0 <= Z.quot (c * (c + 1)) 2) by (apply Z.quot_pos; nia); split; nia.
Qed.
Print Assumptions c87_sizes.
Example c87_sizes_ex : cor_checked (CK false true true) 5 3 4 3 = true /\ cor_checked (CK false true true) 5 3 4 4 = false /\ fst (cor_sizes (CK true true true) 5 3) = 40.
Proof. repeat split. Qed.

(** A matrix without rows, and a pair without a common row under ranks, stop at the BLAS routine instead of giving NaN. *)
Theorem c87_no_rows_refuted :
  (exists M : mat (option Qc), mat_ok M /\ nrows M = 0 /\ pearson_cov M (repeat None 1) (repeat None 1) 0 false true = Throw) /\
  (exists M : mat (option Qc), mat_ok M /\ 0 < nrows M /\ complete_pairs M 0 1 = [] /\ spearman_nan M (spearman_cov_pair M false) (repeat None 4) (repeat 0 3) true = Throw).
Proof.
  split.
  - exists (Mat 0 1 []). split; [vm_compute; lia|]. split; reflexivity.
  - exists (Mat 2 2 [Some (qz 1); None; None; Some (qz 1)]). split; [vm_compute; lia|]. split; [reflexivity|]. split; [reflexivity|]. vm_compute. reflexivity.
Qed.
Print Assumptions c87_no_rows_refuted.
(** In the same case the sample covariance without ranks is 0, not NaN; and the variances of a single row are not the same
    in the two variants. *)
Theorem c87_no_pairs_refuted :
  (exists M : mat (option Qc), mat_ok M /\ complete_pairs M 0 1 = [] /\ exists S C, pearson_cov_nan M (repeat None 4) (repeat 0 3) true true = Ok (S, C) /\ entry S 0 1 = Some (Some 0%Qc)) /\
  (exists M : mat (option Qc), mat_ok M /\ (exists S Me, pearson_cov M [None] [None] 1 false true = Ok (S, Me) /\ entry S 0 0 = Some (Some 0%Qc)) /\
     exists S C, pearson_cov_nan M [None] [0] false true = Ok (S, C) /\ entry S 0 0 = Some None).
Proof.
  split.
  - exists (Mat 2 2 [Some (qz 1); None; None; Some (qz 1)]). split; [vm_compute; lia|]. split; [reflexivity|]. do 2 eexists. split; [vm_compute; reflexivity|]. qeq.
  - exists (Mat 1 1 [Some (qz 5)]). split; [vm_compute; lia|]. split; do 2 eexists; (split; [vm_compute; reflexivity|]); qeq.
Qed.
Print Assumptions c87_no_pairs_refuted.

