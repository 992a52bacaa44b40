From Verif Require Import SplitSpec SplitModel SortSpec SortProofs MatProofs MatProofs2 MatProofs3 MatProofs4 MatProofs5 MatProofs6 DataProofs DataProofs2 SplitProofs SplitProofs2 SplitProofs3 SplitProofs4.
From Coq Require Import Lia ZifyBool Sorting.Sorted.
Local Open Scope Z_scope.

Lemma sorted_last {A} (R : A -> A -> Prop) : forall l x, StronglySorted R (l ++ [x]) -> forall y, In y l -> R y x.
Proof.
  induction l as [|z l IH]; intros x H y Hy; [destruct Hy|]. cbn [app] in H. apply StronglySorted_inv in H. destruct H as (H1 & H2). destruct Hy as [->|Hy].
  - rewrite Forall_forall in H2. apply H2. apply in_or_app. right. left. auto.
  - apply (IH x H1 y Hy).
Qed.
Lemma writes_total {A} : forall l (d : list A), (forall p e, In (p, e) l -> 0 <= p < Z.of_nat (length d) /\ exists v, e = Ok v) -> exists d', writes l d = Ok d' /\ length d' = length d.
Proof.
  induction l as [|[p e] l IH]; intros d H; [exists d; split; auto|]. destruct (H p e (or_introl eq_refl)) as (Hp & v & ->). cbn [writes bind]. rewrite wr_ok by lia. cbn [bind].
  destruct (IH (upd (Z.to_nat p) v d)) as (d' & E & L). { intros q f Hq. rewrite upd_length. apply H. right. auto. } exists d'. rewrite upd_length in L. auto.
Qed.

Section Fin5.
Variable M : mat Qc.
Hypothesis W : mat_ok M.
Hypothesis HC : 0 < ncols M.
Variable k : nat.
Variable ratio : Qc.
Variable fs : Z.
Variable st : ds_state.
Hypothesis G : ds_good M k ratio fs st.
Hypothesis Hr : (0 <= ratio)%Qc.
Hypothesis HR : 0 < nrows M.
Variable perm : nat -> list Z.
Notation n0 := (d_n0 st).
Notation n1 := (d_n1 st).
Notation m_ a := (class_count (Z.of_nat a) M).
Notation rowi a := (of_class M (Z.of_nat a)).
Notation parts := (parts M k ratio st perm).
Notation fits := (fits M k ratio st).
Notation perms_ok := (perms_ok M perm).
Notation fair a := (fair_share ratio (m_ a)).

Lemma n01 : n0 + n1 = nrows M.
Proof. rewrite (g_n0 _ _ _ _ _ G), (g_n1 _ _ _ _ _ G). lia. Qed.
Lemma n0_nonneg : 0 <= n0.
Proof.
  rewrite (g_n0 _ _ _ _ _ G). unfold train_size. destruct (0 <? fs) eqn:E; [lia|]. assert (NN : (0 <= qz (nrows M) * ratio)%Qc).
  { replace 0%Qc with (0 * ratio)%Qc by ring. apply Qcmult_le_compat_r; auto. apply qz_nonneg. lia. }
  rewrite qround_half_up by auto. apply half_up_nonneg; auto.
Qed.
Lemma k_pos : (0 < k)%nat.
Proof. pose proof (g_lab _ _ _ _ _ G 0 ltac:(lia)). lia. Qed.
Lemma order_perm : Permutation (d_order st) (seq 0 k).
Proof. rewrite (g_order _ _ _ _ _ G). destruct (sort_indexes_spec true (map qz (d_counts st))) as (P & _). rewrite map_length, (len_counts M k ratio fs st G) in P. exact P. Qed.
Lemma order_nodup : NoDup (d_order st).
Proof. apply (Permutation_NoDup (Permutation_sym order_perm)), seq_NoDup. Qed.
Lemma order_lt : Forall (fun a => (a < k)%nat) (d_order st).
Proof. rewrite Forall_forall. intros a Ha. apply (Permutation_in _ order_perm) in Ha. apply in_seq in Ha. lia. Qed.
Lemma order_len : length (d_order st) = k.
Proof. rewrite (Permutation_length order_perm). apply seq_length. Qed.
Lemma order_split : exists pre big, d_order st = pre ++ [big] /\ (length pre = k - 1)%nat /\ largest_class (Z.of_nat k) (Z.of_nat big) M /\
  Permutation (map Z.of_nat pre) (filter (fun c => negb (c =? Z.of_nat big)) (upto (Z.of_nat k))).
Proof.
  pose proof order_len as L. pose proof k_pos. destruct (exists_last (l := d_order st)) as (pre & big & E). { intros E. rewrite E in L. cbn in L. lia. }
  exists pre, big. split; auto. rewrite E, app_length in L. cbn [length] in L. split; [lia|].
  pose proof order_lt as F. pose proof order_perm as P. rewrite E in F, P. split.
  - apply Forall_app in F. destruct F as (F1 & F2). apply Forall_cons_iff in F2. destruct F2 as (Fb & _). split; [lia|]. intros c Hc.
    assert (Hin : In (Z.to_nat c) (pre ++ [big])). { apply (Permutation_in _ (Permutation_sym P)). apply in_seq. lia. }
    apply in_app_or in Hin. destruct Hin as [Hin|[Hin|[]]]; [|subst big; rewrite Z2Nat.id by lia; lia].
    destruct (sort_indexes_spec true (map qz (d_counts st))) as (_ & S). rewrite <- (g_order _ _ _ _ _ G), E in S. pose proof (sorted_last _ _ _ S _ Hin) as B. unfold comes_before in B.
    assert (V : forall a, (a < k)%nat -> nth a (map qz (d_counts st)) 0%Qc = qz (m_ a)).
    { intros a Ha. rewrite (nth_indep _ _ (qz 0)) by (rewrite map_length, (len_counts M k ratio fs st G); auto). rewrite map_nth. f_equal. rewrite (g_counts _ _ _ _ _ G). rewrite <- (Nat2Z.id a) at 1. apply (upto_map_nth (fun c => class_count c M)). lia. }
    rewrite !V in B by lia. rewrite Z2Nat.id in B by lia. destruct B as [B|(B & _)].
    + destruct (Z_le_dec (class_count c M) (m_ big)) as [|NL]; auto. exfalso. apply (Qclt_not_le _ _ B). apply qz_le. lia.
    + apply qz_inj in B. lia.
  - pose proof order_nodup as ND. rewrite E in ND. apply NoDup_Permutation.
    + apply FinFun.Injective_map_NoDup; [intros x y Hxy; lia|]. apply NoDup_remove_1 in ND. rewrite app_nil_r in ND. auto.
    + apply NoDup_filter. apply (zrange_nodup 0).
    + intros c. rewrite in_map_iff, filter_In. split.
      * intros (a & <- & Ha). apply Forall_app in F. destruct F as (F1 & _). rewrite Forall_forall in F1. specialize (F1 a Ha). split; [apply (in_zrange 0); lia|].
        apply NoDup_remove_2 in ND. rewrite app_nil_r in ND. assert (a <> big) by (intros ->; auto). lia.
      * intros (H1 & H2). apply (in_zrange 0) in H1. exists (Z.to_nat c). split; [lia|]. assert (Hin : In (Z.to_nat c) (pre ++ [big])). { apply (Permutation_in _ (Permutation_sym P)). apply in_seq. lia. }
        apply in_app_or in Hin. destruct Hin as [Hin|[Hin|[]]]; auto. lia.
Qed.
Lemma others pre big : Permutation (map Z.of_nat pre) (filter (fun c => negb (c =? Z.of_nat big)) (upto (Z.of_nat k))) ->
  other_shares ratio (Z.of_nat k) (Z.of_nat big) M = zsum (map (fun a => fair a) pre).
Proof. intros P. unfold other_shares. rewrite <- (zsum_perm _ _ (Permutation_map _ P)). rewrite map_map. auto. Qed.
Lemma cover : Permutation (flat_map (fun a => rowi a) (d_order st)) (zrange 0 (nrows M)).
Proof.
  rewrite (flat_map_perm _ _ _ order_perm). eapply perm_trans; [|apply (classes_cover (fun v => Z.to_nat (cls M v)) k (zrange 0 (nrows M)))].
  - erewrite flat_map_ext_in; [reflexivity|]. intros a Ha. unfold of_class. apply filter_ext_in. intros v Hv. apply in_zrange in Hv. pose proof (g_lab _ _ _ _ _ G v ltac:(lia)). lia.
  - rewrite Forall_forall. intros v Hv. apply in_zrange in Hv. pose proof (g_lab _ _ _ _ _ G v ltac:(lia)). lia.
Qed.
Lemma flat_len : forall l, Z.of_nat (length (flat_map (fun a => rowi a) l)) = zsum (map (fun a => m_ a) l).
Proof. induction l as [|a l IH]; [reflexivity|]. cbn [flat_map map zsum fold_right]. rewrite app_length, Nat2Z.inj_add, IH, (m_len M W HC a). reflexivity. Qed.
Lemma total : zsum (map (fun a => m_ a) (d_order st)) = nrows M.
Proof. rewrite <- flat_len. rewrite (Permutation_length cover), zrange_length. lia. Qed.
Definition shuffles_ok : Prop := forall b a, nth_error (d_order st) b = Some a -> Permutation (perm b) (zrange 0 (m_ a)).
Lemma shuffles_perms : shuffles_ok -> perms_ok (d_order st) 0.
Proof.
  intros H. assert (E : forall l b, (forall i a, nth_error l i = Some a -> Permutation (perm (b + i)) (zrange 0 (m_ a))) -> perms_ok l b).
  { induction l as [|a l IH]; intros b Hl; [exact I|]. split. - specialize (Hl 0%nat a eq_refl). rewrite Nat.add_0_r in Hl. auto. - apply IH. intros i x Hx. specialize (Hl (S i) x Hx). replace (S b + i)%nat with (b + S i)%nat by lia. auto. }
  apply E. auto.
Qed.
Lemma perms_app : forall pre rest b, perms_ok (pre ++ rest) b -> perms_ok pre b.
Proof. induction pre; intros rest b H; [exact I|]. cbn [app SplitProofs3.perms_ok] in *. destruct H as (H1 & H2). split; auto. eapply IHpre; eauto. Qed.
Lemma perms_app2 : forall pre rest b, perms_ok (pre ++ rest) b -> perms_ok rest (b + length pre).
Proof. induction pre; intros rest b H; cbn [app SplitProofs3.perms_ok length] in *; [rewrite Nat.add_0_r; auto|]. destruct H as (H1 & H2). replace (b + S (length pre))%nat with (S b + length pre)%nat by lia. auto. Qed.

(** When the size of the largest class suffices. *)
Lemma ds_ok pre big storage : d_order st = pre ++ [big] -> (length pre = k - 1)%nat -> shuffles_ok -> nrows M * ncols M <= Z.of_nat (length storage) ->
  0 < n0 - zsum (map (fun a => fair a) pre) <= m_ big ->
  exists d tr te, ds_shuffle M st perm storage = Ok d /\ length d = length storage /\ n1 >= 0 /\
    rows_of (Mat (Z.to_nat n0) (cols M) d) = map (row_of M) tr /\
    rows_of (Mat (Z.to_nat n1) (cols M) (skipn (Z.to_nat (n0 * ncols M)) d)) = map (row_of M) te /\
    Permutation (tr ++ te) (zrange 0 (nrows M)) /\ Z.of_nat (length tr) = n0 /\
    (forall a, In a pre -> Z.of_nat (length (filter (fun v => Z.of_nat a =? cls M v) tr)) = fair a) /\
    Z.of_nat (length (filter (fun v => Z.of_nat big =? cls M v) tr)) = n0 - zsum (map (fun a => fair a) pre).
Proof.
  intros E L SH HS HF. pose proof order_lt as F. pose proof order_nodup as ND. pose proof (shuffles_perms SH) as P. pose proof k_pos as Hk. pose proof cover as CV. rewrite E in F, ND, P, CV.
  assert (FI : fits (pre ++ [big]) 0 0) by (apply (fits_split M k ratio st pre big 0 0); lia).
  set (tr := concat (map fst (parts (pre ++ [big]) 0 0))). set (te := concat (map snd (parts (pre ++ [big]) 0 0))).
  assert (PM : Permutation (tr ++ te) (zrange 0 (nrows M))) by (rewrite <- CV; apply (parts_perm M W HC k ratio st perm); auto).
  assert (LT : Z.of_nat (length tr) = n0). { unfold tr. rewrite (parts_len M W HC k ratio fs st G perm) by (auto; lia). lia. }
  assert (LE : Z.of_nat (length te) = n1). { pose proof (Permutation_length PM) as PL. rewrite app_length, zrange_length in PL. pose proof n01. lia. }
  destruct (core M W (AL 0 0 (parts (pre ++ [big]) 0 0)) tr te n0 n1 storage) as (d & Ed & Ld & R0 & R1 & _).
  - apply AL_assigns.
  - auto.
  - auto.
  - lia.
  - lia.
  - rewrite Forall_forall. intros v Hv. apply (Permutation_in _ PM) in Hv. apply in_zrange in Hv. lia.
  - rewrite n01. auto.
  - assert (ED : ds_shuffle M st perm storage = Ok d).
    { unfold ds_shuffle. rewrite E. rewrite (loop_ok M W HC k ratio fs st G Hr perm); auto. rewrite app_length. cbn [length]. lia. }
    assert (CO : forall a, In a pre -> Z.of_nat (length (filter (fun v => Z.of_nat a =? cls M v) tr)) = fair a).
    { intros a Ha. unfold tr. apply (parts_count M W HC k ratio fs st G perm); auto; lia. }
    exists d, tr, te. split; [exact ED|]. split; [auto|]. split; [lia|]. split; [auto|]. split; [auto|]. split; [exact PM|]. split; [auto|]. split; [exact CO|].
    (* the rest of the training rows *)
    assert (SPL : forall l, (forall v, In v l -> In (Z.to_nat (cls M v)) (pre ++ [big]) /\ 0 <= cls M v) ->
       Z.of_nat (length l) = zsum (map (fun a => Z.of_nat (length (filter (fun v => Z.of_nat a =? cls M v) l))) (pre ++ [big]))).
    { induction l as [|v l IH]; intros Hl. { clear. induction (pre ++ [big]); cbn [map zsum fold_right filter length]; auto. }
      cbn [length]. rewrite Nat2Z.inj_succ, IH by (intros; apply Hl; right; auto). destruct (Hl v (or_introl eq_refl)) as (Hv & Hv0). clear -Hv Hv0 ND. set (o := pre ++ [big]) in *. clearbody o. clear pre big.
      induction o as [|a o IHo]; [destruct Hv|]. apply NoDup_cons_iff in ND. destruct ND as (Na & ND). cbn [map zsum fold_right filter]. destruct (Z.of_nat a =? cls M v) eqn:Ea.
      - cbn [length]. assert (EQ : forall o', ~ In a o' -> map (fun a0 => Z.of_nat (length (if Z.of_nat a0 =? cls M v then v :: filter (fun v0 => Z.of_nat a0 =? cls M v0) l else filter (fun v0 => Z.of_nat a0 =? cls M v0) l))) o' = map (fun a0 => Z.of_nat (length (filter (fun v0 => Z.of_nat a0 =? cls M v0) l))) o').
        { intros o' Ho. apply map_ext_in. intros x Hx. assert (x <> a) by (intros ->; auto). replace (Z.of_nat x =? cls M v) with false by lia. auto. }
        rewrite EQ by auto. lia.
      - destruct Hv as [Hv|Hv]; [lia|]. specialize (IHo ND Hv). unfold zsum in IHo. cbn [filter] in IHo. lia. }
    specialize (SPL tr). rewrite map_app, zsum_app in SPL. rewrite (map_ext_in _ (fun a => fair a) pre CO) in SPL. cbn [map zsum fold_right] in SPL. rewrite LT in SPL.
    assert (H1 : forall v, In v tr -> In (Z.to_nat (cls M v)) (pre ++ [big]) /\ 0 <= cls M v).
    { intros v Hv. destruct (parts_class M W HC k ratio st perm _ 0 0 P v (or_introl Hv)) as (a & Ha & Ea). rewrite Ea, Nat2Z.id. split; auto. lia. }
    specialize (SPL H1). lia.
Qed.
(** Too few training rows are asked for. *)
Lemma ds_small pre big storage : d_order st = pre ++ [big] -> (length pre = k - 1)%nat -> shuffles_ok -> nrows M * ncols M <= Z.of_nat (length storage) -> n0 <= nrows M ->
  n0 <= zsum (map (fun a => fair a) pre) -> ds_shuffle M st perm storage = Throw.
Proof.
  intros E L SH HS HN HF. pose proof order_lt as F. pose proof (shuffles_perms SH) as P. pose proof k_pos as Hk. pose proof total as T. pose proof n01 as N01. pose proof n0_nonneg as N0. rewrite E in F, P, T.
  assert (F1 := proj1 (proj1 (Forall_app _ _ _) F)). assert (F2 := proj2 (proj1 (Forall_app _ _ _) F)). apply Forall_cons_iff in F2. destruct F2 as (Fb & _).
  pose proof (perms_app _ _ _ P) as P1. unfold ds_shuffle. rewrite E. rewrite (loop_prefix M W HC k ratio fs st G Hr perm) by (auto; lia).
  destruct (rest_shares M W HC k ratio fs st G perm pre 0 0 ltac:(lia) F1 P1) as (R0 & R1).
  rewrite map_app, zsum_app in T. cbn [map zsum fold_right] in T. pose proof (m_pos M k ratio fs st G big Fb) as Mb.
  assert (D : zsum (map (fun a => m_ a - fair a) pre) = zsum (map (fun a => m_ a) pre) - zsum (map (fun a => fair a) pre)). { clear. unfold zsum. induction pre; cbn [map fold_right]; lia. }
  assert (SP : 0 <= zsum (map (fun a => m_ a - fair a) pre)) by lia.
  destruct (writes_total (expand M n0 n1 (AL 0 0 (parts pre 0 0))) storage) as (d & Ed & Ld).
  { intros p e H. apply in_flat_map in H. destruct H as (((s, i), v) & Hin & H). apply in_map_iff in H. destruct H as (j & Eq & Hj). injection Eq as <- <-. apply in_zrange in Hj.
    destruct (proj1 (AL_assigns (parts pre 0 0)) s i v Hin) as (Hi & Hn).
    assert (Hv : 0 <= v < nrows M). { assert (Hv : In v (flat_map (fun a => rowi a) pre)).
      { apply (Permutation_in _ (parts_perm M W HC k ratio st perm pre 0 0 P1)). apply in_or_app. apply nth_error_In in Hn. destruct s; auto. }
      apply in_flat_map in Hv. destruct Hv as (a & _ & Ha). apply (rowi_class M) in Ha. lia. }
    assert (Hl : (Z.to_nat i < length (if s then concat (map fst (parts pre 0 0)) else concat (map snd (parts pre 0 0))))%nat) by (apply nth_error_Some; congruence).
    split; [destruct s; nia|]. destruct (get0_ok M v j W) as (x & _ & Ex); [split; lia|]. exists x. cbn [bind]. exact Ex. }
  rewrite Ed. cbn [bind ds_loop Nat.add]. destruct (counts_at M k ratio fs st G big Fb) as (E1 & E2). rewrite E1, E2. cbn [bind]. rewrite (len_counts M k ratio fs st G). replace (length pre =? k - 1)%nat with true by lia. cbv zeta.
  replace (n0 - (0 + zsum (map (fun a => fair a) pre)) <=? 0) with true by lia. reflexivity.
Qed.
(** Too many: the test sample overflows before the check. *)
Lemma ds_large pre big storage : d_order st = pre ++ [big] -> (length pre = k - 1)%nat -> shuffles_ok -> nrows M * ncols M = Z.of_nat (length storage) -> n0 <= nrows M ->
  m_ big < n0 - zsum (map (fun a => fair a) pre) -> ds_shuffle M st perm storage = UB.
Proof.
  intros E L SH HS HN HF. pose proof order_lt as F. pose proof (shuffles_perms SH) as P. pose proof k_pos as Hk. pose proof total as T. pose proof n01 as N01. pose proof n0_nonneg as N0. rewrite E in F, P, T.
  assert (F1 := proj1 (proj1 (Forall_app _ _ _) F)). pose proof (perms_app _ _ _ P) as P1. unfold ds_shuffle. rewrite E. rewrite (loop_prefix M W HC k ratio fs st G Hr perm) by (auto; lia).
  destruct (rest_shares M W HC k ratio fs st G perm pre 0 0 ltac:(lia) F1 P1) as (R0 & R1).
  rewrite map_app, zsum_app in T. cbn [map zsum fold_right] in T.
  assert (D : zsum (map (fun a => m_ a - fair a) pre) = zsum (map (fun a => m_ a) pre) - zsum (map (fun a => fair a) pre)). { clear. unfold zsum. induction pre; cbn [map fold_right]; lia. }
  rewrite writes_ub; [reflexivity| |].
  - intros p e H. apply in_flat_map in H. destruct H as (((s, i), v) & Hin & H). apply in_map_iff in H. destruct H as (j & Eq & Hj). injection Eq as <- <-. apply in_zrange in Hj.
    destruct (proj1 (AL_assigns (parts pre 0 0)) s i v Hin) as (Hi & Hn).
    assert (Hv : 0 <= v < nrows M). { assert (Hv : In v (flat_map (fun a => rowi a) pre)).
      { apply (Permutation_in _ (parts_perm M W HC k ratio st perm pre 0 0 P1)). apply in_or_app. apply nth_error_In in Hn. destruct s; auto. }
      apply in_flat_map in Hv. destruct Hv as (a & _ & Ha). apply (rowi_class M) in Ha. lia. }
    destruct (get0_ok M v j W) as (x & _ & Ex); [split; lia|]. exists x. cbn [bind]. exact Ex.
  - set (te := concat (map snd (parts pre 0 0))) in *. destruct (nth_error te (Z.to_nat n1)) as [v|] eqn:Ev; [|apply nth_error_None in Ev; lia].
    pose proof (proj2 (AL_assigns (parts pre 0 0)) false (Z.to_nat n1) v Ev) as Hin.
    eexists. eexists. split.
    + unfold expand. apply in_flat_map. exists (false, Z.of_nat (Z.to_nat n1), v). split; [exact Hin|]. unfold put_row. apply in_map_iff. exists (ncols M - 1). split; [reflexivity|]. apply in_zrange. lia.
    + rewrite Z2Nat.id by lia. cbv iota. nia.
Qed.
End Fin5.
