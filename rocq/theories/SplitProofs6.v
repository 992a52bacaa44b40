From Verif Require Import SplitSpec SplitModel SortSpec SortProofs MatProofs MatProofs2 MatProofs3 MatProofs4 MatProofs5 MatProofs6 DataProofs DataProofs2 SplitProofs SplitProofs2 SplitProofs3 SplitProofs4 SplitProofs5.
From Coq Require Import Lia ZifyBool.
Local Open Scope Z_scope.

Section Six.
Variable M : mat Qc.
Hypothesis W : mat_ok M.
Hypothesis HC : 0 < ncols M.
Hypothesis HR : 0 < nrows M.
Variable k : nat.
Variable ratio : Qc.
Variable fs : Z.
Variable st : ds_state.
Hypothesis HS : ds_calculate M k ratio fs = Ok st.
Hypothesis Hr : (0 <= ratio)%Qc.
Variable perm : nat -> list Z.
Hypothesis SH : forall b a, nth_error (d_order st) b = Some a -> Permutation (perm b) (upto (class_count (Z.of_nat a) M)).

Lemma good : ds_good M k ratio fs st.
Proof. destruct (ds_calc M W HC k ratio fs HR) as [(_ & _ & s & E & G)|(_ & E)]; congruence. Qed.
Lemma cc_rows S c l : rows_of S = map (row_of M) l -> Forall (fun i => 0 <= i < nrows M) l -> class_count c S = Z.of_nat (length (filter (fun v => c =? cls M v) l)).
Proof. intros E F. unfold class_count. rewrite E, (count_rows M W HC c l F). auto. Qed.

Definition good_split (big : Z) (d : list Qc) : Prop :=
  let n0 := d_n0 st in let n1 := d_n1 st in let S0 := train M n0 d in let S1 := test M n0 n1 d in
  Permutation (rows_of S0 ++ rows_of S1) (rows_of M) /\ nrows S0 = n0 /\ nrows S1 = nrows M - n0 /\
  class_count big S0 = n0 - other_shares ratio (Z.of_nat k) big M /\
  (forall c, 0 <= c < Z.of_nat k -> c <> big -> class_count c S0 = fair_share ratio (class_count c M)) /\
  (forall c, class_count c S0 + class_count c S1 = class_count c M).

Lemma six : exists big, largest_class (Z.of_nat k) big M /\
  (forall storage, nrows M * ncols M <= Z.of_nat (length storage) -> 0 < d_n0 st - other_shares ratio (Z.of_nat k) big M <= class_count big M ->
     exists d, ds_shuffle M st perm storage = Ok d /\ good_split big d) /\
  (forall storage d, ds_shuffle M st perm storage = Ok d -> 0 < d_n0 st - other_shares ratio (Z.of_nat k) big M <= class_count big M) /\
  (forall storage, nrows M * ncols M <= Z.of_nat (length storage) -> d_n0 st <= nrows M -> d_n0 st <= other_shares ratio (Z.of_nat k) big M -> ds_shuffle M st perm storage = Throw) /\
  (forall storage, nrows M * ncols M = Z.of_nat (length storage) -> d_n0 st <= nrows M -> class_count big M < d_n0 st - other_shares ratio (Z.of_nat k) big M -> ds_shuffle M st perm storage = UB).
Proof.
  pose proof good as G. destruct (order_split M k ratio fs st G HR) as (pre & big & E & L & LC & P). exists (Z.of_nat big). split; auto. pose proof (others M k ratio pre big P) as O. rewrite O.
  split; [|split; [|split]].
  - intros storage HSt HF. destruct (ds_ok M W HC k ratio fs st G Hr HR perm pre big storage E L SH HSt HF) as (d & tr & te & Ed & Ld & N1 & R0 & R1 & PM & LT & CO & CB).
    exists d. split; auto. pose proof (n01 M k ratio fs st G) as N01. pose proof (n0_nonneg M k ratio fs st G Hr HR) as N0.
    assert (FA : Forall (fun i => 0 <= i < nrows M) (tr ++ te)). { rewrite Forall_forall. intros v Hv. apply (Permutation_in _ PM) in Hv. apply in_zrange in Hv. lia. }
    apply Forall_app in FA. destruct FA as (FA & FB).
    unfold good_split, train, test. cbv zeta. rewrite R0, R1. rewrite <- map_app. split; [apply Permutation_map; exact PM|]. rewrite !nrows_mk. split; [lia|]. split; [lia|].
    rewrite (cc_rows _ _ tr R0 FA). split; [rewrite CB, O; auto|]. split.
    + intros c Hc Nc. rewrite (cc_rows _ _ tr R0 FA). specialize (CO (Z.to_nat c)). rewrite Z2Nat.id in CO by lia. apply CO.
      assert (Hin : In c (map Z.of_nat pre)). { apply (Permutation_in _ (Permutation_sym P)). apply filter_In. split; [apply (in_zrange 0); lia|lia]. }
      apply in_map_iff in Hin. destruct Hin as (a & <- & Ha). rewrite Nat2Z.id. auto.
    + intros c. rewrite (cc_rows _ _ tr R0 FA), (cc_rows _ _ te R1 FB). rewrite (class_count_of M W HC). unfold of_class. rewrite <- (count_perm _ _ _ PM), filter_app, app_length. lia.
  - intros storage d Ed. unfold ds_shuffle in Ed. pose proof (k_pos M k ratio fs st G HR).
    pose proof (loop_fits M k ratio fs st G Hr perm _ 0 0 0 0 storage d ltac:(rewrite (order_len M k ratio fs st G); lia) (order_lt M k ratio fs st G) Ed) as FI. rewrite E in FI.
    apply (fits_split M k ratio st pre big 0 0) in FI; try lia.
  - intros storage HSt HN HF. apply (ds_small M W HC k ratio fs st G Hr HR perm pre big storage E L SH HSt HN HF).
  - intros storage HSt HN HF. apply (ds_large M W HC k ratio fs st G Hr HR perm pre big storage E L SH HSt HN HF).
Qed.
End Six.
