(** Properties C32 (train/test split) and C33 (stratified split). *)
From Verif Require Import SplitSpec SplitModel MatProofs DataProofs SplitProofs SplitProofs2 SplitProofs3 SplitProofs4 SplitProofs5 SplitProofs6.
From Coq Require Import Lia ZifyBool Qround.
Local Open Scope Z_scope.

(** ** C32 *)
(** The size of the training sample is the given one or the rounded fraction; it must leave rows on both sides. *)
Theorem c32_size (M : mat Qc) (ratio : Qc) (fix_size : Z) : (0 <= ratio)%Qc ->
  let n0 := if 0 <? fix_size then fix_size else half_up (qz (nrows M) * ratio)%Qc in
  split_calculate M ratio fix_size = if (0 <? n0) && (n0 <? nrows M) then Ok (n0, nrows M - n0) else Throw.
Proof.
  intros Hr n0. assert (E : train_size (nrows M) ratio fix_size = n0).
  { unfold train_size, n0. destruct (0 <? fix_size); auto. apply qround_half_up. replace 0%Qc with (0 * ratio)%Qc by ring. apply Qcmult_le_compat_r; auto. apply qz_nonneg. unfold nrows. lia. }
  unfold split_calculate. rewrite E. cbv zeta. destruct (n0 <=? 0) eqn:E1, (nrows M <=? n0) eqn:E2; cbn [orb]; replace (0 <? n0) with (negb (n0 <=? 0)) by lia; replace (n0 <? nrows M) with (negb (nrows M <=? n0)) by lia; rewrite E1, E2; reflexivity.
Qed.
Print Assumptions c32_size.
(** half_up is rounding to the nearest integer. *)
Theorem c32_rounding (q : Qc) : (qz (half_up q) <= q + Q2Qc (1 # 2) /\ q + Q2Qc (1 # 2) < qz (half_up q + 1))%Qc.
Proof.
  unfold half_up. set (x := (q + Q2Qc (1 # 2))%Qc). unfold Qcle, Qclt, qz. cbn [this Q2Qc]. rewrite !Qred_correct. split; [apply Qfloor_le|apply Qlt_floor].
Qed.
Print Assumptions c32_rounding.
(** For every outcome [w] of the shuffle: both samples together have exactly the rows of the data;
    the storage beyond them is kept. *)
Theorem c32_partition (M : mat Qc) (ratio : Qc) (fix_size : Z) (w : list Z) (storage : list Qc) n0 n1 : mat_ok M ->
  split_calculate M ratio fix_size = Ok (n0, n1) -> Permutation w (upto (nrows M)) -> nrows M * ncols M <= Z.of_nat (length storage) ->
  exists d, split_shuffle M n0 n1 w storage = Ok d /\ length d = length storage /\
    nrows (train M n0 d) = n0 /\ nrows (test M n0 n1 d) = nrows M - n0 /\ 0 < n0 < nrows M /\
    Permutation (rows_of (train M n0 d) ++ rows_of (test M n0 n1 d)) (rows_of M).
Proof.
  intros WM E P HS. unfold split_calculate in E. destruct (_ || _) eqn:B in E; [discriminate|]. injection E as E0 E1. rewrite E0 in B, E1. subst n1.
  assert (HN : 0 < n0 < nrows M) by lia. destruct (split_ok M n0 w storage WM HN P HS) as (d & Ed & Ld & R0 & R1). exists d. split; auto. split; auto.
  unfold train, test. rewrite !nrows_mk, R0, R1. split; [lia|]. split; [lia|]. split; [lia|]. rewrite <- map_app, firstn_skipn. apply Permutation_map. exact P.
Qed.
Print Assumptions c32_partition.
(** The training sample is the first n0 shuffled rows, the test sample the others, in shuffled order: so
    that every partition is possible. *)
Theorem c32_order (M : mat Qc) n0 (w : list Z) (storage : list Qc) : mat_ok M -> 0 < n0 < nrows M ->
  Permutation w (upto (nrows M)) -> nrows M * ncols M <= Z.of_nat (length storage) ->
  exists d, split_shuffle M n0 (nrows M - n0) w storage = Ok d /\
    rows_of (train M n0 d) = map (row_of M) (firstn (Z.to_nat n0) w) /\ rows_of (test M n0 (nrows M - n0) d) = map (row_of M) (skipn (Z.to_nat n0) w).
Proof. intros WM HN P HS. destruct (split_ok M n0 w storage WM HN P HS) as (d & Ed & Ld & R0 & R1). eauto. Qed.
Print Assumptions c32_order.
Definition sm : mat Qc := Mat 4 2 (map qz [0; 1; 1; 0; 10; 11; 12; 13]).
Example c32_case : mat_ok sm /\ split_calculate sm (Q2Qc (5 # 8)) 0 = Ok (3, 1) /\ Permutation [2; 0; 3; 1] (upto (nrows sm)) /\
  split_shuffle sm 3 1 [2; 0; 3; 1] (repeat 0%Qc 8) = Ok (map qz [1; 0; 0; 12; 10; 13; 1; 11]).
Proof.
  split; [vm_compute; lia|]. split; [vm_compute; reflexivity|]. split.
  - apply NoDup_Permutation; [repeat constructor; cbn; lia|vm_compute; repeat constructor; cbn; lia|]. intros x. vm_compute upto. cbn. tauto.
  - vm_compute. repeat first [apply Qc_is_canon; reflexivity | f_equal].
Qed.
Example c32_too_big : split_calculate sm (Q2Qc (7 # 8)) 0 = Throw /\ split_calculate sm 0 0 = Throw /\ split_calculate sm 0 4 = Throw.
Proof. repeat split; vm_compute; reflexivity. Qed.

(** ** C33 *)
(** A class label that is not in 0..k-1, or a class without rows, is rejected; otherwise Calculate succeeds. *)
Theorem c33_labels (M : mat Qc) (k : nat) (ratio : Qc) (fix_size : Z) : mat_ok M -> 0 < ncols M -> 0 < nrows M ->
  let valid := (forall r, In r (rows_of M) -> exists c, class_of_row r = Some c /\ 0 <= c < Z.of_nat k) /\ (forall c, 0 <= c < Z.of_nat k -> 0 < class_count c M) in
  (valid -> exists st, ds_calculate M k ratio fix_size = Ok st /\ d_n0 st = train_size (nrows M) ratio fix_size) /\ (~ valid -> ds_calculate M k ratio fix_size = Throw).
Proof.
  intros WM HC HR valid.
  assert (RC : forall i, 0 <= i < nrows M -> In (row_of M i) (rows_of M)) by (intros i Hi; apply in_map; apply (in_zrange 0); lia).
  destruct (ds_calc M WM HC k ratio fix_size HR) as [(L & C & st & E & G)|(D & E)].
  - split.
    + intros _. exists st. split; auto. apply (g_n0 _ _ _ _ _ G).
    + intros NV. exfalso. apply NV. split; auto. intros r Hr. apply in_map_iff in Hr. destruct Hr as (i & <- & Hi). apply (in_zrange 0) in Hi. exists (cls M i). split; [apply row_class; auto; lia|]. apply L. lia.
  - split; auto. intros (V1 & V2). exfalso. destruct D as [(i & Hi & Ni)|(c & Hc & Zc)].
    + destruct (V1 _ (RC i Hi)) as (c & Ec & Hc). rewrite (row_class M WM HC i Hi) in Ec. injection Ec as <-. auto.
    + specialize (V2 c Hc). lia.
Qed.
Print Assumptions c33_labels.
(** Whenever the split succeeds, for every outcome of the shuffles: the samples together have exactly the
    rows of the data, the training sample has its n0 rows; every class but a largest one gives its rounded
    fraction (at least one row, not all if it has two), the largest one the rest. *)
Theorem c33_partition (M : mat Qc) (k : nat) (ratio : Qc) (fix_size : Z) st perm storage d : mat_ok M -> 0 < ncols M -> 0 < nrows M -> (0 <= ratio)%Qc ->
  ds_calculate M k ratio fix_size = Ok st ->
  (forall b a, nth_error (d_order st) b = Some a -> Permutation (perm b) (upto (class_count (Z.of_nat a) M))) ->
  nrows M * ncols M <= Z.of_nat (length storage) -> ds_shuffle M st perm storage = Ok d ->
  let n0 := d_n0 st in let S0 := train M n0 d in let S1 := test M n0 (d_n1 st) d in
  Permutation (rows_of S0 ++ rows_of S1) (rows_of M) /\ nrows S0 = n0 /\ nrows S1 = nrows M - n0 /\
  (forall c, class_count c S0 + class_count c S1 = class_count c M) /\
  exists big, largest_class (Z.of_nat k) big M /\ class_count big S0 = n0 - other_shares ratio (Z.of_nat k) big M /\ 1 <= class_count big S0 /\
    forall c, 0 <= c < Z.of_nat k -> c <> big -> class_count c S0 = fair_share ratio (class_count c M) /\ 1 <= class_count c S0 /\ (2 <= class_count c M -> 1 <= class_count c S1).
Proof.
  intros WM HC HR Hr HS SH HSt Ed. destruct (six M WM HC HR k ratio fix_size st HS Hr perm SH) as (big & LC & A1 & A2 & _). pose proof (A2 storage d Ed) as HB.
  destruct (A1 storage HSt HB) as (d2 & Ed2 & P & N0 & N1 & CB & CO & CA). assert (d2 = d) by congruence. subst d2. cbv zeta in *. split; auto. split; auto. split; auto. split; auto.
  exists big. split; auto. split; auto. split; [lia|]. intros c Hc Nc. pose proof (CO c Hc Nc) as F. split; auto.
  pose proof (g_all _ _ _ _ _ (good M WM HC HR k ratio fix_size st HS) c Hc) as Pc. pose proof (fair_share_range ratio (class_count c M) ltac:(lia)). specialize (CA c). lia.
Qed.
Print Assumptions c33_partition.
(** It succeeds exactly when the largest class can give the rest; if nothing is left for it, an exception is thrown. *)
Theorem c33_succeeds (M : mat Qc) (k : nat) (ratio : Qc) (fix_size : Z) st perm : mat_ok M -> 0 < ncols M -> 0 < nrows M -> (0 <= ratio)%Qc ->
  ds_calculate M k ratio fix_size = Ok st ->
  (forall b a, nth_error (d_order st) b = Some a -> Permutation (perm b) (upto (class_count (Z.of_nat a) M))) ->
  exists big, largest_class (Z.of_nat k) big M /\ forall storage, nrows M * ncols M <= Z.of_nat (length storage) ->
    let rest := d_n0 st - other_shares ratio (Z.of_nat k) big M in
    ((exists d, ds_shuffle M st perm storage = Ok d) <-> 0 < rest <= class_count big M) /\
    (rest <= 0 -> d_n0 st <= nrows M -> ds_shuffle M st perm storage = Throw).
Proof.
  intros WM HC HR Hr HS SH. destruct (six M WM HC HR k ratio fix_size st HS Hr perm SH) as (big & LC & A1 & A2 & A3 & _). exists big. split; auto. intros storage HSt rest. unfold rest. split; [split|].
  - intros (d & Ed). eauto.
  - intros H. destruct (A1 storage HSt H) as (d & Ed & _). eauto.
  - intros H HN. apply A3; auto. lia.
Qed.
Print Assumptions c33_succeeds.
(** Refuted: if the largest class cannot give the rest, no exception is thrown: rows of the test sample
    are written beyond the documented storage before the check. *)
Theorem c33_overflow_refuted (M : mat Qc) (k : nat) (ratio : Qc) (fix_size : Z) st perm : mat_ok M -> 0 < ncols M -> 0 < nrows M -> (0 <= ratio)%Qc ->
  ds_calculate M k ratio fix_size = Ok st ->
  (forall b a, nth_error (d_order st) b = Some a -> Permutation (perm b) (upto (class_count (Z.of_nat a) M))) ->
  exists big, largest_class (Z.of_nat k) big M /\ forall storage, Z.of_nat (length storage) = nrows M * ncols M -> d_n0 st <= nrows M ->
    class_count big M < d_n0 st - other_shares ratio (Z.of_nat k) big M -> ds_shuffle M st perm storage = UB.
Proof.
  intros WM HC HR Hr HS SH. destruct (six M WM HC HR k ratio fix_size st HS Hr perm SH) as (big & LC & _ & _ & _ & A4). exists big. split; auto.
Qed.
Print Assumptions c33_overflow_refuted.
(** Classes of 3 rows each. *)
Definition labels (k : nat) : mat Qc := Mat (3 * k) 1 (map qz (flat_map (fun c => repeat c 3) (upto (Z.of_nat k)))).
Example c33_overflow_case : exists st, ds_calculate (labels 6) 6 (Q2Qc (49 # 100)) 0 = Ok st /\ d_n0 st = 9 /\
  ds_shuffle (labels 6) st (fun _ => [2; 0; 1]) (repeat 0%Qc 18) = UB.
Proof. eexists. split; [vm_compute; reflexivity|]. split; vm_compute; reflexivity. Qed.
(** Refuted: the largest class may be without test rows although it has more than one row. *)
Theorem c33_both_sides_refuted : exists M k ratio st perm d big, mat_ok M /\ ds_calculate M k ratio 0 = Ok st /\
  (forall b a, nth_error (d_order st) b = Some a -> Permutation (perm b) (upto (class_count (Z.of_nat a) M))) /\
  ds_shuffle M st perm (repeat 0%Qc (rows M * cols M)) = Ok d /\ class_count big M = 3 /\ class_count big (test M (d_n0 st) (d_n1 st) d) = 0.
Proof.
  eexists (labels 5), 5%nat, (Q2Qc (49 # 100)), _, (fun _ => [0; 1; 2]), _, 4. split; [vm_compute; lia|]. split; [vm_compute; reflexivity|]. split.
  - intros b a H. do 5 (destruct b as [|b]; [vm_compute in H; injection H as <-; vm_compute; apply Permutation_refl|]). vm_compute in H. destruct b; discriminate H.
  - split; [vm_compute; reflexivity|]. split; vm_compute; reflexivity.
Qed.
Print Assumptions c33_both_sides_refuted.
(** Classes 0 (1 row), 1 (2 rows), 2 (3 rows). *)
Definition lm : mat Qc := Mat 6 2 (map qz [2; 1; 2; 0; 1; 2; 20; 10; 21; 0; 11; 22]).
Example c33_case : exists st, mat_ok lm /\ ds_calculate lm 3 (Q2Qc (1 # 2)) 4 = Ok st /\ d_order st = [0; 1; 2]%nat /\
  (forall b a, nth_error (d_order st) b = Some a -> Permutation (match b with 0%nat => [0] | 1%nat => [1; 0] | _ => [2; 0; 1] end) (upto (class_count (Z.of_nat a) lm))) /\
  ds_shuffle lm st (fun b => match b with 0%nat => [0] | 1%nat => [1; 0] | _ => [2; 0; 1] end) (repeat 0%Qc 12) =
    Ok (map qz [0; 1; 2; 2; 0; 11; 22; 20; 1; 2; 10; 21]).
Proof.
  eexists. split; [vm_compute; lia|]. split; [vm_compute; reflexivity|]. split; [vm_compute; reflexivity|]. split.
  - intros b a H. destruct b as [|[|[|b]]]; vm_compute in H; try (injection H as <-); vm_compute; [constructor; constructor|apply perm_swap| |destruct b; discriminate H].
    apply perm_trans with [0; 2; 1]; [apply perm_swap|apply perm_skip, perm_swap].
  - vm_compute. repeat first [apply Qc_is_canon; reflexivity | f_equal].
Qed.
Example c33_bad_label : ds_calculate lm 2 (Q2Qc (1 # 2)) 0 = Throw /\ ds_calculate lm 4 (Q2Qc (1 # 2)) 0 = Throw.
Proof. split; vm_compute; reflexivity. Qed.
