(** Properties C78 (quantiles), C79 (moments), C80 (filters), C81 (seasonal decomposition), C82 (trend). *)
From Verif Require Import Num DescModel DescSpec DescProofs DescProofs2 MomentsProofs.
From Coq Require Import Lia ZifyBool.
Local Open Scope Qc_scope.

(** ** C78 *)
(** For every non-empty array: the interpolation at position (n + 1/3) tau + 1/3. *)
Theorem c78_value (l : list Qc) (tau : Qc) : l <> [] ->
  exists v, quantile_sorted l tau = Ok v /\ interpolated l (position (length l) tau) v.
Proof. exact (quantile_ok l tau). Qed.
Print Assumptions c78_value.
Theorem c78_interpolation_unique (l : list Qc) (h v w : Qc) : interpolated l h v -> interpolated l h w -> v = w.
Proof. exact (inter_unique l h v w). Qed.
Print Assumptions c78_interpolation_unique.
Theorem c78_range (l : list Qc) (tau v : Qc) : l <> [] -> nondecreasing l -> quantile_sorted l tau = Ok v ->
  least (nth 0 l 0) l /\ greatest (nth (length l - 1) l 0) l /\ nth 0 l 0 <= v /\ v <= nth (length l - 1) l 0.
Proof.
  intros N S E. destruct (quantile_ok l tau N) as (v' & E' & Iv). rewrite E in E'. injection E' as <-.
  assert (Hn : (0 < length l)%nat) by (destruct l; [congruence|cbn; lia]).
  split; [|split; [|exact (inter_range l _ v S N Iv)]].
  - split; [apply nth_In; auto|]. intros x Hx. apply (In_nth _ _ 0) in Hx. destruct Hx as (i & Hi & <-). apply S. lia.
  - split; [apply nth_In; lia|]. intros x Hx. apply (In_nth _ _ 0) in Hx. destruct Hx as (i & Hi & <-). apply S. lia.
Qed.
Print Assumptions c78_range.
Theorem c78_monotone (l : list Qc) (t1 t2 v1 v2 : Qc) : l <> [] -> nondecreasing l -> t1 <= t2 ->
  quantile_sorted l t1 = Ok v1 -> quantile_sorted l t2 = Ok v2 -> v1 <= v2.
Proof.
  intros N S L E1 E2. destruct (quantile_ok l t1 N) as (a & E1' & I1). destruct (quantile_ok l t2 N) as (b & E2' & I2).
  rewrite E1 in E1'. rewrite E2 in E2'. injection E1' as <-. injection E2' as <-. refine (inter_mono l _ _ v1 v2 S N _ I1 I2).
  unfold position. rewrite <- third_eq. assert (K : 0 <= qn (length l) + third).
  { assert (0 <= qn (length l)) by (change 0 with (qz 0); unfold qn; apply qz_le; lia). assert (0 <= third) by discriminate. qlra. }
  remember (qn (length l) + third) as k. assert (t1 * k <= t2 * k) by (apply Qcmult_le_compat_r; auto). rewrite (Qcmult_comm k t1), (Qcmult_comm k t2). qlra.
Qed.
Print Assumptions c78_monotone.
Theorem c78_ends (l : list Qc) (tau : Qc) : l <> [] ->
  (tau <= 0 -> quantile_sorted l tau = Ok (nth 0 l 0)) /\ (1 <= tau -> quantile_sorted l tau = Ok (nth (length l - 1) l 0)).
Proof.
  intros N. assert (Hn : (0 < length l)%nat) by (destruct l; [congruence|cbn; lia]). unfold quantile_sorted. split; intros H.
  - destruct (qleb_spec tau 0); [|contradiction]. rewrite Bool.orb_true_r. apply rd_nth. lia.
  - destruct (qleb_spec tau 0) as [L|_]. { exfalso. assert (A : (1 <= 0)%Qc) by (eapply Qcle_trans; eauto). revert A. apply Qclt_not_le. reflexivity. }
    destruct (Z.eqb_spec (Z.of_nat (length l)) 1) as [E|E]; cbn [orb].
    + rewrite rd_nth by lia. do 2 f_equal. lia.
    + destruct (qleb_spec 1 tau); [|contradiction]. rewrite rd_nth by lia. do 2 f_equal. lia.
Qed.
Print Assumptions c78_ends.
(** The quantile of an empty array reads outside of it. *)
Theorem c78_empty_refuted : forall tau, tau <= 0 -> quantile_sorted [] tau = UB.
Proof. intros tau H. unfold quantile_sorted. cbn. destruct (qleb_spec tau 0); [reflexivity|contradiction]. Qed.
Print Assumptions c78_empty_refuted.
Ltac qeq := vm_compute; repeat first [apply Qc_is_canon; reflexivity | f_equal].
(** Median of 1, 2, 4, 8: position 2.5; first quartile: position 17/12. *)
Example c78_case : nondecreasing (map qz [1; 2; 4; 8]%Z) /\ quantile_sorted (map qz [1; 2; 4; 8]%Z) (Q2Qc (1 # 2)) = Ok (qz 3)
  /\ quantile_sorted (map qz [1; 2; 4; 8]%Z) (Q2Qc (1 # 4)) = Ok (Q2Qc (17 # 12)).
Proof.
  split; [|split; qeq]. intros i j H. cbn [length map] in H.
  destruct i as [|[|[|[|i]]]], j as [|[|[|[|j]]]]; try lia; vm_compute; discriminate.
Qed.

(** ** C79 *)
(** Minimum and maximum of the values that are not NaN; of no value at all NaN, of only NaNs an infinity. *)
Theorem c79_min_max (l : list (option Qc)) : l <> [] ->
  (present l <> [] -> exists a b, minimum l = DFin a /\ least a (present l) /\ maximum l = DFin b /\ greatest b (present l)) /\
  (present l = [] -> minimum l = DPInf /\ maximum l = DNInf).
Proof.
  intros N. assert (A := min_loop_ok l DPInf I). assert (B := max_loop_ok l DNInf I). cbn in A, B. unfold minimum, maximum.
  destruct l as [|x t]; [congruence|]. destruct (present (x :: t)) eqn:E; split; intros H; try congruence; auto.
  destruct A as (a & Ea & La), B as (b & Eb & Lb). exists a, b. auto.
Qed.
Print Assumptions c79_min_max.
Theorem c79_mean (sample : bool) (l : list Qc) : fst (mean_variance sample l) = if (length l =? 0)%nat then None else Some (avg l).
Proof.
  destruct l as [|x [|y t]]; [reflexivity| |].
  - cbn [mean_variance fst length Nat.eqb]. rewrite avg1. f_equal. change (qz 1) with 1. field. discriminate.
  - unfold mean_variance. pose proof (mv_ok (x :: y :: t) []) as E. cbn [length app] in E. change (avg []) with 0 in E. change (dev 2 []) with 0 in E.
    change (Z.of_nat 0) with 0%Z in E. rewrite E. reflexivity.
Qed.
Print Assumptions c79_mean.
(** The variance is divided by n if the sample variance is wanted and by n - 1 otherwise: the flag is inverted. *)
Theorem c79_variance_flag_refuted (l : list Qc) : (2 <= length l)%nat ->
  snd (mean_variance true l) = Some (var_pop l) /\ snd (mean_variance false l) = Some (var_sample l).
Proof.
  intros H. destruct l as [|x [|y t]]; [cbn in H; lia|cbn in H; lia|]. unfold mean_variance.
  pose proof (mv_ok (x :: y :: t) []) as E. cbn [length app] in E. change (avg []) with 0 in E. change (dev 2 []) with 0 in E.
  change (Z.of_nat 0) with 0%Z in E. rewrite E. split; reflexivity.
Qed.
Print Assumptions c79_variance_flag_refuted.
(** The other function: mean, variance and kurtosis of up to 46340 observations. *)
Theorem c79_moments_partial (sample : bool) (l : list Qc) : l <> [] -> (Z.of_nat (length l) <= 46340)%Z ->
  exists v k, mvks sample l = Ok (Some (avg l), v, k) /\
    v = (if (length l <? 2)%nat then None else Some (if sample then var_sample l else var_pop l)) /\
    (dev 2 l <> 0 -> k = if (length l <? 4)%nat then None else Some (if sample then kurt_sample l else kurt_pop l)).
Proof.
  intros N L. unfold mvks. pose proof (mvks_ok l [] L) as E. cbn [app length] in E.
  change (sums_of []) with (Sums 0 0 0 0) in E. change (Z.of_nat 0) with 0%Z in E.
  destruct l as [|x t]; [congruence|]. rewrite E. cbn [bind]. set (l := x :: t) in *. cbn [sums_of d_mean d_m2 d_m3 d_m4].
  do 2 eexists. split; [reflexivity|]. split.
  - destruct (Z.ltb_spec 1 (Z.of_nat (length l))), (Nat.ltb_spec (length l) 2); try lia; auto; destruct sample; reflexivity.
  - intros D. destruct (Z.ltb_spec 3 (Z.of_nat (length l))), (Nat.ltb_spec (length l) 4); try lia; auto.
    rewrite fdiv_some by (apply mul_ne; auto). fold (qn (length l)). assert (Hn : qn (length l) <> 0) by (apply Qc_lt_ne, qn_pos; lia).
    assert (K : qn (length l) * dev 4 l / (dev 2 l * dev 2 l) - qz 3 = kurt_pop l).
    { unfold kurt_pop. rewrite power2. field. auto. }
    destruct sample; cbn [fsub fadd fmul fl2]; f_equal; auto. unfold kurt_sample. rewrite <- K.
    remember (qn (length l) * dev 4 l / (dev 2 l * dev 2 l)) as q. rewrite qz_mul, !qz_sub, !qz_add. change (qz (Z.of_nat (length l))) with (qn (length l)).
    assert (N1 : forall k, (k < Z.of_nat (length l))%Z -> qn (length l) - qz k <> 0).
    { intros k Hk. unfold qn. rewrite <- qz_sub. change 0 with (qz 0). rewrite qz_inj. lia. }
    assert (N2 := N1 2%Z ltac:(lia)). assert (N3 := N1 3%Z ltac:(lia)). assert (N4 : qn (length l) + 1 <> 0) by (rewrite <- qn_S; apply Qc_lt_ne, qn_pos; lia).
    change (qz 1) with 1. field. auto.
Qed.
Print Assumptions c79_moments_partial.
(** More than 46340 observations: the square of their number overflows. *)
Theorem c79_many_observations_refuted (sample : bool) (l : list Qc) : (46340 < Z.of_nat (length l))%Z -> mvks sample l = UB.
Proof. intros H. unfold mvks. destruct l as [|x t]; [cbn in H; lia|]. rewrite mvks_over by (auto; lia). reflexivity. Qed.
Print Assumptions c79_many_observations_refuted.
Theorem c79_sum_of_squares (l : list Qc) : sum_of_squares true l = dev 2 l /\ sum_of_squares false l = qsum (map (fun x => power x 2) l).
Proof.
  split; unfold sum_of_squares.
  - pose proof (ss_ok l []) as E. cbn [app length] in E. change (avg []) with 0 in E. change (dev 2 []) with 0 in E. exact E.
  - rewrite sq_ok. rewrite (map_ext _ (fun x => power x 2)) by (intros; rewrite power2; auto). ring.
Qed.
Print Assumptions c79_sum_of_squares.
Example c79_case : dev 2 (map qz [1; 2; 3; 6]%Z) = qz 14 /\ mvks false (map qz [1; 2; 3; 6]%Z) = Ok (Some (qz 3), Some (Q2Qc (7 # 2)), Some (qz 2 - qz 3))
  /\ mean_variance true (map qz [1; 2; 3; 6]%Z) = (Some (qz 3), Some (Q2Qc (7 # 2))).
Proof. split; [qeq|]. split; qeq. Qed.

(** ** C80 *)
Theorem c80_autoregressive (x c st : list Qc) : (length c <= length x <= length st)%nat ->
  exists y, filter_ar x c st = Ok y /\ length y = length st /\
    (forall i, (0 <= i < Z.of_nat (length c))%Z -> xat y i = xat x i) /\
    (forall i, (Z.of_nat (length c) <= i < Z.of_nat (length x))%Z -> xat y i = xat x i + sum_over (length c) (fun j => xat c j * xat y (i - 1 - j)%Z)) /\
    (forall i, (Z.of_nat (length x) <= i)%Z -> xat y i = xat st i).
Proof. exact (filter_ar_ok x c st). Qed.
Print Assumptions c80_autoregressive.
Theorem c80_autoregressive_errors (x c st : list Qc) : (length st < length x)%nat \/ (length x < length c)%nat -> filter_ar x c st = Throw.
Proof. intros H. unfold filter_ar. destruct (Z.ltb_spec (Z.of_nat (length st)) (Z.of_nat (length x))); auto. destruct (Z.ltb_spec (Z.of_nat (length x)) (Z.of_nat (length c))); auto. lia. Qed.
Print Assumptions c80_autoregressive_errors.
(** The moving average; centred: the offset is half of the number of coefficients. *)
Theorem c80_moving_average (x c : list Qc) (centered : bool) (st : list (option Qc)) : c <> [] -> (length x <= length st)%nat ->
  let o := (if centered then Z.of_nat (length c) / 2 else 0)%Z in
  exists y, filter_ma x c centered st = Ok y /\ length y = length st /\
    forall i, (0 <= i < Z.of_nat (length st))%Z ->
      (ma_known (Z.of_nat (length x)) (Z.of_nat (length c)) o i -> oat y i = Some (Some (ma_at x c o i))) /\
      (~ ma_known (Z.of_nat (length x)) (Z.of_nat (length c)) o i -> oat y i = Some None).
Proof.
  intros N L o. assert (Hc : (0 < length c)%nat) by (destruct c; [congruence|cbn; lia]).
  destruct (filter_ma_ok x c centered st Hc L) as (y & E & Ly & Ny). exists y. split; auto. split; auto. intros i Hi. rewrite Ny by auto.
  change (ma_offset (Z.of_nat (length c)) centered) with o. unfold trend_at, ma_known.
  destruct ((Z.of_nat (length c) - 1 - o <=? i)%Z && (i <? Z.of_nat (length x) - o)%Z) eqn:E0; split; intros K; auto; exfalso; lia.
Qed.
Print Assumptions c80_moving_average.
(** The observations used by a known value exist. *)
Theorem c80_inside (T k o i j : Z) : (ma_known T k o i -> 0 <= j < k -> 0 <= i + o - j < T)%Z.
Proof. unfold ma_known. lia. Qed.
Print Assumptions c80_inside.
(** Without coefficients the element before the storage is written. *)
Theorem c80_no_coefficients_refuted (x : list Qc) (centered : bool) (st : list (option Qc)) : (length x <= length st)%nat -> filter_ma x [] centered st = UB.
Proof. exact (filter_ma_empty x centered st). Qed.
Print Assumptions c80_no_coefficients_refuted.
Example c80_case : filter_ma (map qz [1; 2; 4; 8]%Z) (map qz [1; 1; 2]%Z) true (repeat None 4) = Ok [None; Some (qz 8); Some (qz 16); None]
  /\ filter_ar (map qz [1; 2; 4; 8]%Z) (map qz [2]%Z) (map qz [0; 0; 0; 0; 9]%Z) = Ok (map qz [1; 4; 12; 32; 9]%Z).
Proof. split; qeq. Qed.

(** ** C81 *)
Section Decomposition.
Variables (x c : list Qc) (s : Z) (centered : bool) (st_trend st_seas st_resid st_means : list (option Qc)).
Let T := length x.
Let o := (if centered then Z.of_nat (length c) / 2 else 0)%Z.
(** Storages of the sizes of the series and of the seasons, at least one coefficient and one season. *)
Definition storages_ok : Prop := c <> [] /\ (0 < s)%Z /\ length st_trend = T /\ length st_seas = T /\ length st_resid = T /\ Z.of_nat (length st_means) = s.
Lemma c_pos : c <> [] -> (0 < length c)%nat. Proof. destruct c; [congruence|cbn; lia]. Qed.

(** Additive: trend, seasonal indexes and residuals; the parts add up to the data, and the indexes to zero. *)
Theorem c81_additive : storages_ok -> all_seasons (minus_trend x c o) T s ->
  let idx f := season_mean (minus_trend x c o) T s f - seasons_mean (minus_trend x c o) T s in
  exists d, seasonal_decomposition x (Some c) s false true centered st_trend st_seas st_resid st_means = Ok d /\
    (forall i, (0 <= i < Z.of_nat T)%Z -> oat (dc_trend d) i = Some (trend_at x c o i) /\ oat (dc_seasonal d) i = Some (Some (idx (i mod s)%Z)) /\
       (forall t, trend_at x c o i = Some t -> exists r, oat (dc_resid d) i = Some (Some r) /\ xat x i = t + idx (i mod s)%Z + r) /\
       (trend_at x c o i = None -> oat (dc_resid d) i = Some None)) /\
    dc_means d = map (fun f => Some (idx (Z.of_nat f))) (seq 0 (Z.to_nat s)) /\
    qsum (map (fun f => idx (Z.of_nat f)) (seq 0 (Z.to_nat s))) = 0.
Proof.
  intros (Nc & Hs & L1 & L2 & L3 & L4) A idx. apply c_pos in Nc.
  destruct (decomp_ok x c s false true centered st_trend st_seas st_resid st_means Nc Hs L1 L2 L3 L4) as (d & E & D1 & D2 & D3 & D4 & P1 & P2 & P3 & P4).
  fold T in D1, D2, D3, P1, P2, P4. change (ma_offset (Z.of_nat (length c)) centered) with o in P1, P4. cbv iota in P4.
  set (R := fun i => Some (xat x i) -f trend_at x c o i).
  assert (ER : forall i, R i = minus_trend x c o i) by (intros i; unfold R, minus_trend; destruct (trend_at x c o i); reflexivity).
  assert (EV : forall f, season_values R T s f = season_values (minus_trend x c o) T s f) by (intros; apply season_values_ext; auto).
  assert (AR : all_seasons R T s) by (intros f Hf; rewrite EV; auto).
  assert (EM : forall f, season_mean R T s f = season_mean (minus_trend x c o) T s f) by (intros f; unfold season_mean; rewrite EV; auto).
  assert (EG : seasons_mean R T s = seasons_mean (minus_trend x c o) T s) by (unfold seasons_mean; f_equal; apply map_ext; intros; apply EM).
  assert (SI : forall f, (0 <= f < s)%Z -> sindex x c s false centered f = Some (idx f)).
  { intros f Hf. unfold sindex. rewrite (smean_known x c s false centered f (AR f Hf)), (gmean_known x c s false centered Hs AR). 
    change (Some (season_mean R T s f - seasons_mean R T s) = Some (idx f)). rewrite EM, EG. reflexivity. }
  exists d. split; [exact E|]. split; [|split].
  - intros i Hi. assert (Hm : (0 <= i mod s < s)%Z) by (apply Z.mod_pos_bound; auto). split; [auto|]. split; [rewrite P2, SI by auto; auto|].
    rewrite P4, SI by auto. split.
    + intros t ->. cbn [fsub fl2]. unfold fsub, fl2. eexists. split; [reflexivity|]. ring.
    + intros ->. reflexivity.
  - apply oat_ext; [rewrite map_length, seq_length; lia|]. intros f Hf. rewrite P3, SI by lia. unfold oat. destruct (Z.ltb_spec f 0); [lia|].
    rewrite nth_error_map, (nth_error_nth' _ 0%nat) by (rewrite seq_length; lia). rewrite seq_nth by lia. cbn [option_map Nat.add]. rewrite Z2Nat.id by lia. reflexivity.
  - unfold idx. assert (Ne : map (fun f => season_mean (minus_trend x c o) T s (Z.of_nat f)) (seq 0 (Z.to_nat s)) <> []).
    { intros Z0. apply (f_equal (@length Qc)) in Z0. rewrite map_length, seq_length in Z0. cbn in Z0. lia. }
    pose proof (avg_shift _ (seasons_mean (minus_trend x c o) T s) Ne) as H. rewrite map_map in H. fold (seasons_mean (minus_trend x c o) T s) in H.
    unfold avg at 1 in H. rewrite map_length, seq_length in H.
    assert (Hq : qn (Z.to_nat s) <> 0) by (apply Qc_lt_ne, qn_pos; lia).
    match type of H with ?a / ?b = _ => replace a with (a / b * b) by (field; auto); rewrite H end. ring.
Qed.
(** Multiplicative: the parts multiply to the data, and the mean of the indexes is one. *)
Theorem c81_multiplicative : storages_ok -> all_seasons (over_trend x c o) T s ->
  (forall i t, (0 <= i < Z.of_nat T)%Z -> trend_at x c o i = Some t -> t <> 0) ->
  seasons_mean (over_trend x c o) T s <> 0 -> (forall f, (0 <= f < s)%Z -> season_mean (over_trend x c o) T s f <> 0) ->
  let idx f := season_mean (over_trend x c o) T s f / seasons_mean (over_trend x c o) T s in
  exists d, seasonal_decomposition x (Some c) s true true centered st_trend st_seas st_resid st_means = Ok d /\
    (forall i, (0 <= i < Z.of_nat T)%Z -> oat (dc_trend d) i = Some (trend_at x c o i) /\ oat (dc_seasonal d) i = Some (Some (idx (i mod s)%Z)) /\
       (forall t, trend_at x c o i = Some t -> exists r, oat (dc_resid d) i = Some (Some r) /\ xat x i = t * idx (i mod s)%Z * r) /\
       (trend_at x c o i = None -> oat (dc_resid d) i = Some None)) /\
    dc_means d = map (fun f => Some (idx (Z.of_nat f))) (seq 0 (Z.to_nat s)) /\
    avg (map (fun f => idx (Z.of_nat f)) (seq 0 (Z.to_nat s))) = 1.
Proof.
  intros (Nc & Hs & L1 & L2 & L3 & L4) A TZ GZ SZ idx. apply c_pos in Nc.
  destruct (decomp_ok x c s true true centered st_trend st_seas st_resid st_means Nc Hs L1 L2 L3 L4) as (d & E & D1 & D2 & D3 & D4 & P1 & P2 & P3 & P4).
  fold T in D1, D2, D3, P1, P2, P4. change (ma_offset (Z.of_nat (length c)) centered) with o in P1, P4. cbv iota in P4.
  set (R := fun i => Some (xat x i) /f trend_at x c o i).
  assert (ER : forall i, (0 <= i < Z.of_nat T)%Z -> R i = over_trend x c o i).
  { intros i Hi. unfold R, over_trend. specialize (TZ i). destruct (trend_at x c o i) as [t|]; [|reflexivity]. apply fdiv_some. apply TZ; auto. }
  assert (EV : forall f, season_values R T s f = season_values (over_trend x c o) T s f) by (intros; apply season_values_ext; auto).
  assert (AR : all_seasons R T s) by (intros f Hf; rewrite EV; auto).
  assert (EM : forall f, season_mean R T s f = season_mean (over_trend x c o) T s f) by (intros f; unfold season_mean; rewrite EV; auto).
  assert (EG : seasons_mean R T s = seasons_mean (over_trend x c o) T s) by (unfold seasons_mean; f_equal; apply map_ext; intros; apply EM).
  assert (SI : forall f, (0 <= f < s)%Z -> sindex x c s true centered f = Some (idx f)).
  { intros f Hf. unfold sindex. rewrite (smean_known x c s true centered f (AR f Hf)), (gmean_known x c s true centered Hs AR).
    cbn -[fdiv]. change (Some (season_mean R T s f) /f Some (seasons_mean R T s) = Some (idx f)). rewrite EG, EM. apply fdiv_some. auto. }
  assert (IZ : forall f, (0 <= f < s)%Z -> idx f <> 0).
  { intros f Hf Z0. apply (SZ f Hf). unfold idx in Z0. rewrite <- (Qcmult_0_l (seasons_mean (over_trend x c o) T s)), <- Z0. field. auto. }
  exists d. split; [exact E|]. split; [|split].
  - intros i Hi. assert (Hm : (0 <= i mod s < s)%Z) by (apply Z.mod_pos_bound; auto). split; [auto|]. split; [rewrite P2, SI by auto; auto|].
    rewrite P4, SI by auto. specialize (TZ i). destruct (trend_at x c o i) as [t|]; split; try congruence.
    + intros t' [= <-]. rewrite !fdiv_some by auto. eexists. split; [reflexivity|]. field. auto.
    + intros _. reflexivity.
  - apply oat_ext; [rewrite map_length, seq_length; lia|]. intros f Hf. rewrite P3, SI by lia. unfold oat. destruct (Z.ltb_spec f 0); [lia|].
    rewrite nth_error_map, (nth_error_nth' _ 0%nat) by (rewrite seq_length; lia). rewrite seq_nth by lia. cbn [option_map Nat.add]. rewrite Z2Nat.id by lia. reflexivity.
  - unfold idx. assert (Ne : map (fun f => season_mean (over_trend x c o) T s (Z.of_nat f)) (seq 0 (Z.to_nat s)) <> []).
    { intros Z0. apply (f_equal (@length Qc)) in Z0. rewrite map_length, seq_length in Z0. cbn in Z0. lia. }
    pose proof (avg_scale _ (seasons_mean (over_trend x c o) T s) Ne GZ) as H. rewrite map_map in H. fold (seasons_mean (over_trend x c o) T s) in H.
    rewrite H. field. auto.
Qed.
(** A season without a known value: no seasonal index is known. *)
Theorem c81_unknown_season (f : Z) : storages_ok -> (0 <= f < s)%Z -> season_values (minus_trend x c o) T s f = [] ->
  exists d, seasonal_decomposition x (Some c) s false true centered st_trend st_seas st_resid st_means = Ok d /\
    forall i, (0 <= i < Z.of_nat T)%Z -> oat (dc_seasonal d) i = Some None /\ oat (dc_resid d) i = Some None.
Proof.
  intros (Nc & Hs & L1 & L2 & L3 & L4) Hf A. apply c_pos in Nc.
  destruct (decomp_ok x c s false true centered st_trend st_seas st_resid st_means Nc Hs L1 L2 L3 L4) as (d & E & D1 & D2 & D3 & D4 & P1 & P2 & P3 & P4).
  fold T in D1, D2, D3, P1, P2, P4. change (ma_offset (Z.of_nat (length c)) centered) with o in P1, P4. cbv iota in P4.
  exists d. split; auto. intros i Hi. rewrite P2, P4 by auto.
  assert (SN : sindex x c s false centered (i mod s)%Z = None).
  { apply (sindex_none x c s false centered Hs f (i mod s) Hf). rewrite <- A. apply season_values_ext. intros j Hj. unfold minus_trend.
    change (ma_offset (Z.of_nat (length c)) centered) with o. destruct (trend_at x c o j); reflexivity. }
  rewrite SN. split; auto. destruct (trend_at x c o i); reflexivity.
Qed.
(** The default coefficients are not implemented: an error. *)
Theorem c81_no_coefficients (mult do_resid : bool) : seasonal_decomposition x None s mult do_resid centered st_trend st_seas st_resid st_means = Throw.
Proof. reflexivity. Qed.
End Decomposition.
Print Assumptions c81_additive. Print Assumptions c81_multiplicative. Print Assumptions c81_unknown_season. Print Assumptions c81_no_coefficients.
(** Two seasons, centred average of three: trend of 1, 5, 3, 7, 5 is 3, 5, 5 at times 1 to 3. *)
Example c81_case : let x := map qz [1; 5; 3; 7; 5]%Z in let c := repeat (Q2Qc (1 # 3)) 3 in
  storages_ok x c 2 (repeat None 5) (repeat None 5) (repeat None 5) (repeat None 2) /\ all_seasons (minus_trend x c 1) 5 2 /\
  exists d, seasonal_decomposition x (Some c) 2 false true true (repeat None 5) (repeat None 5) (repeat None 5) (repeat None 2) = Ok d /\
    dc_trend d = [None; Some (qz 3); Some (qz 5); Some (qz 5); None] /\ dc_means d = [Some (qz (-2)); Some (qz 2)] /\
    dc_resid d = [None; Some (qz 0); Some (qz 0); Some (qz 0); None].
Proof.
  intros x c. split; [|split].
  - unfold storages_ok. repeat split; try reflexivity. discriminate.
  - intros f Hf. assert (f = 0 \/ f = 1)%Z as [-> | ->] by lia; vm_compute; discriminate.
  - eexists. split; [vm_compute; reflexivity|]. split; [qeq|split; qeq].
Qed.

(** ** C82 *)
(** The line with the smallest sum of squared errors, and the only one. *)
Theorem c82_least_squares (l : list Qc) : (2 <= length l)%nat -> exists a b, regression_trend l = Ok (a, b) /\
  forall a' b', sse l a b <= sse l a' b' /\ (sse l a' b' <= sse l a b -> a' = a /\ b' = b).
Proof. intros H. destruct (trend_ok l H) as (a & b & E & _). exists a, b. split; auto. apply (trend_least l a b H E). Qed.
Print Assumptions c82_least_squares.
Theorem c82_too_short (l : list Qc) : (length l <= 1)%nat -> regression_trend l = Throw.
Proof. exact (trend_short l). Qed.
Print Assumptions c82_too_short.
Example c82_case : regression_trend (map qz [1; 3; 8]%Z) = Ok (qz (-3), Q2Qc (7 # 2)).
Proof. qeq. Qed.
