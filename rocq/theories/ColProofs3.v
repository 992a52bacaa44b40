From Verif Require Import ColModel ColSpec MatProofs MatProofs2 MatDotProofs DataProofs DataProofs2 SplitProofs DescProofs DescProofs2 MomentsProofs ColProofs ColProofs2.
Local Open Scope Z_scope.

Lemma nan_b l : existsb is_nan l = true <-> has_nan l.
Proof. rewrite existsb_exists. split; [intros ([x|] & H & E); [discriminate|exact H]|intros H; exists None; auto]. Qed.
Lemma no_nan_b l : existsb is_nan l = false -> l = map Some (present l).
Proof. intros H. destruct (has_nan_dec l) as [N|]; auto. apply nan_b in N. congruence. Qed.
Lemma fsum_spec l : fsum l = if_no_nan l (fun p => Some (qsum p)).
Proof.
  unfold if_no_nan. destruct (existsb is_nan l) eqn:B; [apply fsum_nan, nan_b; auto|]. rewrite (no_nan_b _ B) at 1. apply fsum_ok.
Qed.
Lemma mean_all_spec l : mean_of false l = if_no_nan l mean_spec.
Proof.
  unfold if_no_nan. destruct (existsb is_nan l) eqn:B; [apply mean_plain_nan, nan_b; auto|]. rewrite (no_nan_b _ B) at 1. apply mean_plain.
Qed.
Lemma variance_all_spec sample l : (2 <= length l)%nat -> variance_of sample false l = (if_no_nan l mean_spec, if_no_nan l (variance_spec sample)).
Proof.
  intros L. unfold if_no_nan. destruct (existsb is_nan l) eqn:B; [apply variance_plain_nan; auto; apply nan_b; auto|].
  pose proof (no_nan_b _ B) as E. rewrite E at 1. apply variance_plain. rewrite E, map_length in L. auto.
Qed.
Lemma col_length M j : length (col_values M j) = rows M.
Proof. unfold col_values. rewrite map_length, upto_length. unfold nrows. lia. Qed.
Lemma small_col M j : (nrows M =? 1) = true -> col_values M j = [opel M 0 j].
Proof. intros H. apply Z.eqb_eq in H. unfold col_values. rewrite H. reflexivity. Qed.

(** One column *)
Lemma variance_column_ok M j sample check : mat_ok M -> 0 <= j < ncols M ->
  exists me n v, variance_column M j sample check = Ok (me, n, v) /\
    (nrows M = 0 -> me = None /\ n = 0 /\ v = None) /\
    (nrows M = 1 -> me = opel M 0 j /\ n = 1 /\ v = None) /\
    (2 <= nrows M -> check = false -> me = if_no_nan (col_values M j) mean_spec /\ n = nrows M /\ v = if_no_nan (col_values M j) (variance_spec sample)) /\
    (2 <= nrows M -> check = true -> n = Z.of_nat (length (present (col_values M j))) /\
       (0 < n -> me = mean_spec (present (col_values M j)) /\ v = variance_spec sample (present (col_values M j))) /\
       (n = 0 -> me = Some 0%Qc /\ v = if sample then Some 0%Qc else None)).
Proof.
  intros OM Hj. unfold variance_column. destruct (Z.eqb_spec (nrows M) 0) as [E0|N0].
  { do 3 eexists. split; [reflexivity|]. split; [auto|]. repeat split; intros; lia. }
  destruct (Z.eqb_spec (nrows M) 1) as [E1|N1].
  { unfold get0, pos. replace (0 + nrows M * j) with (j * nrows M + 0) by lia. rewrite opel_rd by (auto; split; auto; lia). cbn [bind].
    do 3 eexists. split; [reflexivity|]. split; [lia|]. split; [auto|]. repeat split; intros; lia. }
  rewrite values_col by auto. cbn [bind].
  assert (L : (2 <= length (col_values M j))%nat) by (rewrite col_length; unfold nrows in *; lia).
  destruct check.
  - pose proof (var_nan_ok (col_values M j) []) as E. change (Z.of_nat (length [])) with 0 in E. change (avg []) with 0%Qc in E. change (dev 2 []) with 0%Qc in E.
    pose proof (variance_check sample (col_values M j) L) as VC. pose proof (variance_all_nan sample (col_values M j) L) as VN.
    unfold variance_of in VC, VN. destruct (col_values M j) as [|a [|b t]] eqn:EL; cbn [length] in L; try lia.
    rewrite E in VC, VN |- *. cbn [app] in VC, VN |- *. set (p := present (a :: b :: t)) in *. clearbody p.
    do 3 eexists. split; [reflexivity|]. split; [lia|]. split; [lia|]. split; [discriminate|]. intros _ _. split; auto. split.
    + intros Hn. assert (p <> []) by (intros ->; cbn in Hn; lia). specialize (VC H). injection VC as V1 V2. auto.
    + intros Hn. assert (p = []) as -> by (destruct p; auto; cbn in Hn; lia). split; [reflexivity|].
      unfold nan_or_ratio. cbn [length]. destruct sample; [|reflexivity]. rewrite fdiv_ok by discriminate. f_equal.
  - pose proof (variance_all_spec sample (col_values M j) L) as V. unfold variance_of in V. assert (EN : nrows M = Z.of_nat (length (col_values M j))) by (rewrite col_length; reflexivity).
    destruct (col_values M j) as [|a [|b t]] eqn:EL; cbn [length] in L; try lia.
    destruct (var_all (a :: b :: t) 0 (Some 0%Qc) (Some 0%Qc)) as [me m2]. injection V as V1 V2. rewrite EN.
    do 3 eexists. split; [reflexivity|]. split; [lia|]. split; [lia|]. split; [|discriminate]. intros _ _. auto.
Qed.
Lemma two_columns_ok M j k : mat_ok M -> 0 <= j < ncols M -> 0 <= k < ncols M ->
  two_columns M j k = Ok (map (fun i => (opel M i j, opel M i k)) (upto (nrows M))).
Proof.
  intros OM Hj Hk. unfold two_columns. change (zrange 0 ?n) with (upto n).
  assert (F : Forall (fun i => 0 <= i < nrows M) (upto (nrows M))) by (apply Forall_forall; intros i Hi; apply (proj1 (in_zrange 0 _ i)) in Hi; lia).
  induction (upto (nrows M)) as [|i t IH]; [reflexivity|]. apply Forall_cons_iff in F. destruct F as [Hi F]. cbn [map rmap].
  rewrite (IH F). replace (nrows M * j + i) with (j * nrows M + i) by lia. replace (nrows M * k + i) with (k * nrows M + i) by lia. rewrite !opel_rd; [reflexivity|auto|split; auto|auto|split; auto].
Qed.
Lemma pairs_of_columns M j k : pairs_of (map (fun i => (opel M i j, opel M i k)) (upto (nrows M))) = complete_pairs M j k.
Proof. unfold pairs_of, complete_pairs. induction (upto (nrows M)) as [|i t IH]; auto. cbn [map flat_map]. rewrite IH. reflexivity. Qed.
Lemma col_fst M j k : map fst (map (fun i => (opel M i j, opel M i k)) (upto (nrows M))) = col_values M j.
Proof. rewrite map_map. reflexivity. Qed.
Lemma col_snd M j k : map snd (map (fun i => (opel M i j, opel M i k)) (upto (nrows M))) = col_values M k.
Proof. rewrite map_map. reflexivity. Qed.
Lemma pairs_full l : existsb is_nan (map fst l) = false -> existsb is_nan (map snd l) = false -> l = map (fun ab => (Some (fst ab), Some (snd ab))) (pairs_of l).
Proof.
  unfold pairs_of. induction l as [|[[a|] [b|]] t IH]; cbn; auto; try discriminate. intros H1 H2. f_equal. apply IH; auto.
Qed.
Lemma pairs_full_len l : existsb is_nan (map fst l) = false -> existsb is_nan (map snd l) = false -> length (pairs_of l) = length l.
Proof. intros A B. rewrite (pairs_full l A B) at 2. rewrite map_length. auto. Qed.
Lemma xs_full l : existsb is_nan (map fst l) = false -> existsb is_nan (map snd l) = false -> xs (pairs_of l) = present (map fst l) /\ ys (pairs_of l) = present (map snd l).
Proof.
  unfold pairs_of, xs, ys, present. induction l as [|[[a|] [b|]] t IH]; cbn; auto; try discriminate. intros H1 H2. destruct (IH H1 H2) as [-> ->]. auto.
Qed.

Lemma bad_columns_ok M j k : 0 <= j < ncols M -> 0 <= k < ncols M -> bad_columns M j k = false.
Proof. unfold bad_columns. intros. lia. Qed.
Lemma covariance_column_ok M j k sample check : mat_ok M -> 0 <= j < ncols M -> 0 <= k < ncols M ->
  exists a b n v, covariance_column M j k sample check = Ok (a, b, n, v) /\
    (nrows M = 0 -> a = None /\ b = None /\ n = 0 /\ v = None) /\
    (nrows M = 1 -> a = opel M 0 j /\ b = opel M 0 k /\ n = 1 /\ v = None) /\
    (2 <= nrows M -> check = false -> n = nrows M /\ v = cov_no_nan sample M j k /\
       (~ has_nan (col_values M j) -> ~ has_nan (col_values M k) -> a = mean_spec (present (col_values M j)) /\ b = mean_spec (present (col_values M k)))) /\
    (2 <= nrows M -> check = true -> let P := complete_pairs M j k in n = Z.of_nat (length P) /\
       (0 < n -> a = mean_spec (xs P) /\ b = mean_spec (ys P) /\ v = covariance_spec sample P) /\
       (n = 0 -> a = Some 0%Qc /\ b = Some 0%Qc /\ v = if sample then Some 0%Qc else None)).
Proof.
  intros OM Hj Hk. unfold covariance_column. rewrite bad_columns_ok by auto. destruct (Z.eqb_spec (nrows M) 0) as [E0|N0].
  { do 4 eexists. split; [reflexivity|]. split; [auto|]. repeat split; intros; lia. }
  destruct (Z.eqb_spec (nrows M) 1) as [E1|N1].
  { unfold get0, pos. replace (0 + nrows M * j) with (j * nrows M + 0) by lia. replace (0 + nrows M * k) with (k * nrows M + 0) by lia. rewrite !opel_rd by (auto; split; auto; lia). cbn [bind].
    do 4 eexists. split; [reflexivity|]. split; [lia|]. split; [auto|]. repeat split; intros; lia. }
  rewrite two_columns_ok by auto. cbn [bind]. set (l := map (fun i => (opel M i j, opel M i k)) (upto (nrows M))).
  assert (EP : pairs_of l = complete_pairs M j k) by apply pairs_of_columns.
  destruct check.
  - pose proof (cov_nan_ok l []) as E. change (Z.of_nat (length [])) with 0 in E. change (avg (xs [])) with 0%Qc in E. change (avg (ys [])) with 0%Qc in E. change (codev []) with 0%Qc in E.
    rewrite E. cbv zeta. cbn [app]. rewrite EP. do 4 eexists. split; [reflexivity|]. split; [lia|]. split; [lia|]. split; [discriminate|]. intros _ _. split; auto.
    set (P := complete_pairs M j k) in *. clearbody P. split.
    + intros Hn. assert (NP : P <> []) by (intros ->; cbn in Hn; lia). rewrite cov_ratio by auto. rewrite !mean_spec_ok; auto; intros H; apply map_eq_nil in H; auto.
    + intros Hn. assert (P = []) as -> by (destruct P; auto; cbn in Hn; lia). repeat split. unfold nan_or_ratio. cbn [length]. destruct sample; [|reflexivity]. rewrite fdiv_ok by discriminate. f_equal.
  - assert (EN : Z.of_nat (length l) = nrows M) by (unfold l; rewrite map_length, upto_length; unfold nrows; lia).
    assert (EF : map fst l = col_values M j) by apply col_fst. assert (ES : map snd l = col_values M k) by apply col_snd.
    destruct (existsb is_nan (col_values M j) || existsb is_nan (col_values M k)) eqn:B.
    + pose proof (cov_all_nan l 0 (Some 0%Qc) (Some 0%Qc) (Some 0%Qc)) as C. destruct (cov_all l 0 (Some 0%Qc) (Some 0%Qc) (Some 0%Qc)) as [[a b] m2] eqn:EC.
      cbn [snd] in C. assert (m2 = None) as ->.
      { apply C. apply orb_true_iff in B. destruct B as [B|B]; apply nan_b in B; unfold has_nan in B; [rewrite <- EF in B|rewrite <- ES in B]; apply in_map_iff in B; destruct B as (p & Ep & Hp); exists p; auto. }
      do 4 eexists. split; [reflexivity|]. split; [lia|]. split; [lia|]. split; [|discriminate]. intros _ _. split; auto. split; [unfold cov_no_nan; rewrite B; reflexivity|].
      intros NJ NK. exfalso. apply orb_true_iff in B. destruct B as [B|B]; apply nan_b in B; auto.
    + apply orb_false_iff in B. destruct B as [BJ BK]. rewrite <- EF in BJ. rewrite <- ES in BK.
      pose proof (cov_all_ok (pairs_of l) []) as E. change (Z.of_nat (length [])) with 0 in E. change (avg (xs [])) with 0%Qc in E. change (avg (ys [])) with 0%Qc in E. change (codev []) with 0%Qc in E.
      rewrite <- (pairs_full l BJ BK) in E. rewrite E. cbv zeta. cbn [app].
      assert (NP : pairs_of l <> []) by (intros H; assert (length (pairs_of l) = O) by (rewrite H; auto); rewrite pairs_full_len in H0 by auto; lia).
      do 4 eexists. split; [reflexivity|]. split; [lia|]. split; [lia|]. split; [|discriminate]. intros _ _. split; auto. split.
      * unfold cov_no_nan. rewrite <- EF, <- ES, BJ, BK. cbn [orb]. rewrite <- EN, <- (pairs_full_len l BJ BK), cov_ratio by auto. rewrite EP. reflexivity.
      * intros _ _. destruct (xs_full l BJ BK) as [EX EY]. rewrite <- EF, <- ES, <- EX, <- EY. rewrite !mean_spec_ok; auto; intros H; apply map_eq_nil in H; auto.
Qed.
Lemma covariance_column_bad M j k sample check : ~ (0 <= j < ncols M /\ 0 <= k < ncols M) -> covariance_column M j k sample check = Throw.
Proof. intros H. unfold covariance_column. replace (bad_columns M j k) with true; auto. symmetry. unfold bad_columns. lia. Qed.

(** Listed columns *)
Lemma used_all idx n : used idx n = or_all idx n. Proof. destruct idx; reflexivity. Qed.
Lemma combine_map {A} (f : Z -> A) (ix : list Z) : combine (zrange 0 (Z.of_nat (length ix))) (map f ix) = map (fun k => (k, f (at_index ix k))) (zrange 0 (Z.of_nat (length ix))).
Proof.
  unfold zrange. rewrite Nat2Z.id, map_map.
  assert (G : forall s, combine (map (fun k => 0 + Z.of_nat k) (seq s (length ix))) (map f ix) = map (fun x => (0 + Z.of_nat x, f (nth (x - s) ix (-1)))) (seq s (length ix))).
  { induction ix as [|i t IH]; intros s; [reflexivity|]. cbn [length seq map combine]. rewrite IH, Nat.sub_diag. f_equal. apply map_ext_in. intros a Ha. apply in_seq in Ha.
    replace (a - s)%nat with (S (a - S s)) by lia. reflexivity. }
  rewrite G. apply map_ext. intros a. unfold at_index. replace (Z.to_nat (0 + Z.of_nat a)) with (a - 0)%nat by lia. reflexivity.
Qed.
Lemma list_writes (S : mat (option Qc)) ix (f : Z -> res (option Qc)) (g : Z -> option Qc) : mat_ok S -> mlength S = Z.of_nat (length ix) ->
  (forall i, In i ix -> f i = Ok (g i)) ->
  exists S', mwrites S (combine (zrange 0 (Z.of_nat (length ix))) (map f ix)) = Ok S' /\ rows S' = rows S /\ cols S' = cols S /\
    filled (data S) (data S') 0 (Z.of_nat (length ix)) (fun k => Some (g (at_index ix k))).
Proof.
  intros OS HL H. rewrite combine_map. unfold mwrites.
  destruct (writes_range 0 (Z.of_nat (length ix)) (fun k => f (at_index ix k)) (fun k => g (at_index ix k)) (data S)) as (d & E & L & V).
  { intros i Hi. split; [unfold mat_ok, mlength, nrows, ncols in *; lia|]. apply H. unfold at_index. apply nth_In. lia. }
  rewrite E. cbn [bind]. eexists. split; [reflexivity|]. split; auto. split; auto. unfold with_data. cbn [data]. split; auto.
  intros k. destruct (Z.leb_spec 0 (Z.of_nat k)); [|lia]. cbn [andb]. rewrite Z.sub_0_r.
  destruct (Nat.lt_ge_cases k (length (data S))).
  - specialize (V (Z.of_nat k)). unfold oat in V. destruct (Z.ltb_spec (Z.of_nat k) 0); [lia|]. rewrite Nat2Z.id in V. rewrite V by lia.
    destruct (Z.leb_spec 0 (Z.of_nat k)); [|lia]. cbn [andb]. reflexivity.
  - destruct (Z.ltb_spec (Z.of_nat k) (0 + Z.of_nat (length ix))).
    + exfalso. unfold mat_ok, mlength, nrows, ncols in *. lia.
    + rewrite !(proj2 (nth_error_None _ _)) by lia. reflexivity.
Qed.
Section Listed.
Variable M S : mat (option Qc).
Hypothesis OM : mat_ok M.
Hypothesis OS : mat_ok S.
Lemma rows_sum_ok idx : Forall (fun i => 0 <= i < nrows M) idx -> let ix := or_all idx (nrows M) in mlength S = Z.of_nat (length ix) ->
  exists S', rows_sum M S idx = Ok (S', ix) /\ rows S' = rows S /\ cols S' = cols S /\
    filled (data S) (data S') 0 (Z.of_nat (length ix)) (fun k => Some (if_no_nan (row_values M (at_index ix k)) (fun p => Some (qsum p)))).
Proof.
  intros F ix HL. unfold rows_sum. rewrite used_all. fold ix. destruct (Z.eqb_spec (mlength S) (Z.of_nat (length ix))); [|contradiction]. cbn [negb].
  edestruct list_writes with (g := (fun i => if_no_nan (row_values M i) (fun p => Some (qsum p)))) as (S' & -> & R & C & H); [exact OS|exact HL| |cbn [bind]; exists S'; split; [reflexivity|]; split; [exact R|]; split; [exact C|exact H]].
  intros i Hi. cbn beta. rewrite read_row_ok; [|exact OM|].
  - cbn [bind]. rewrite fsum_spec. reflexivity.
  - rewrite Forall_forall in F. unfold ix, or_all in Hi. destruct idx; [apply (proj1 (in_zrange 0 _ i)) in Hi; lia|auto].
Qed.
Lemma in_all idx i : Forall (fun i => 0 <= i < ncols M) idx -> In i (or_all idx (ncols M)) -> 0 <= i < ncols M.
Proof using. intros F Hi. rewrite Forall_forall in F. unfold or_all in Hi. destruct idx; [apply (proj1 (in_zrange 0 _ i)) in Hi; lia|auto]. Qed.
Lemma columns_sum_ok idx : Forall (fun i => 0 <= i < ncols M) idx -> let ix := or_all idx (ncols M) in mlength S = Z.of_nat (length ix) ->
  exists S', columns_sum M S idx = Ok (S', ix) /\ rows S' = rows S /\ cols S' = cols S /\
    filled (data S) (data S') 0 (Z.of_nat (length ix)) (fun k => Some (if_no_nan (col_values M (at_index ix k)) (fun p => Some (qsum p)))).
Proof.
  intros F ix HL. unfold columns_sum. rewrite used_all. fold ix. destruct (Z.eqb_spec (mlength S) (Z.of_nat (length ix))); [|contradiction]. cbn [negb].
  edestruct list_writes with (g := (fun i => if_no_nan (col_values M i) (fun p => Some (qsum p)))) as (S' & -> & R & C & H); [exact OS|exact HL| |cbn [bind]; exists S'; split; [reflexivity|]; split; [exact R|]; split; [exact C|exact H]].
  intros i Hi. cbn beta. rewrite read_col_ok; [|exact OM|eapply in_all; eauto]. cbn [bind]. rewrite fsum_spec. reflexivity.
Qed.
Lemma mean_quotient l : fsum l /f Some (qz (Z.of_nat (length l))) = if_no_nan l mean_spec.
Proof using.
  rewrite fsum_spec. unfold if_no_nan. destruct (existsb is_nan l) eqn:B; [reflexivity|]. rewrite (no_nan_b _ B) at 2. rewrite map_length.
  destruct (present l) as [|a t]; [reflexivity|]. rewrite fdiv_ok; [reflexivity|]. apply Qc_lt_ne. apply (qz_lt 0). cbn [length]. lia.
Qed.
Lemma columns_mean_ok idx : Forall (fun i => 0 <= i < ncols M) idx -> let ix := or_all idx (ncols M) in mlength S = Z.of_nat (length ix) ->
  exists S', columns_mean M S idx = Ok (S', ix) /\ rows S' = rows S /\ cols S' = cols S /\
    filled (data S) (data S') 0 (Z.of_nat (length ix)) (fun k => Some (if_no_nan (col_values M (at_index ix k)) mean_spec)).
Proof.
  intros F ix HL. unfold columns_mean. rewrite used_all. fold ix. destruct (Z.eqb_spec (mlength S) (Z.of_nat (length ix))); [|contradiction]. cbn [negb].
  edestruct list_writes with (g := (fun i => if_no_nan (col_values M i) mean_spec)) as (S' & -> & R & C & H); [exact OS|exact HL| |cbn [bind]; exists S'; split; [reflexivity|]; split; [exact R|]; split; [exact C|exact H]].
  intros i Hi. cbn beta. rewrite read_col_ok; [|exact OM|eapply in_all; eauto]. cbn [bind]. rewrite <- mean_quotient, col_length. reflexivity.
Qed.
End Listed.
Lemma codev_swap P : codev (map (fun ab => (snd ab, fst ab)) P) = codev P.
Proof. unfold codev, xs, ys. rewrite !map_map. cbn [fst snd]. f_equal. apply map_ext. intros p. apply Qcmult_comm. Qed.
Lemma cov_swap sample P : covariance_spec sample (map (fun ab => (snd ab, fst ab)) P) = covariance_spec sample P.
Proof. unfold covariance_spec. rewrite codev_swap, map_length. destruct P as [|a [|b t]], sample; reflexivity. Qed.
Lemma cov_no_nan_swap sample M j k : cov_no_nan sample M k j = cov_no_nan sample M j k.
Proof. unfold cov_no_nan. rewrite orb_comm, complete_pairs_swap, cov_swap. reflexivity. Qed.
Lemma cross_terms l a b : fsum (map (fun p => (Some (fst p) -f Some a) *f (Some (snd p) -f Some b)) l) = Some (qsum (map (fun p => (fst p - a) * (snd p - b))%Qc l)).
Proof. rewrite <- fsum_ok, map_map. reflexivity. Qed.
Section Var.
Variable M : mat (option Qc).
Hypothesis OM : mat_ok M.
Lemma cross_ok means ix q0 q1 sample : 0 <= q0 < Z.of_nat (length ix) -> 0 <= q1 < Z.of_nat (length ix) -> 0 <= at_index ix q0 < ncols M -> 0 <= at_index ix q1 < ncols M ->
  (0 < nrows M \/ sample = false) -> length means = length ix -> (forall q, 0 <= q < Z.of_nat (length ix) -> rd means q = Ok (if_no_nan (col_values M (at_index ix q)) mean_spec)) ->
  exists s, cross_product M means ix q0 q1 = Ok s /\ nan_or_ratio s sample (nrows M) = cov_no_nan sample M (at_index ix q0) (at_index ix q1).
Proof using OM.
  intros H0 H1 HJ HK HN LM HM. unfold cross_product. rewrite !HM by auto. cbn [bind].
  assert (RI : forall q, 0 <= q < Z.of_nat (length ix) -> rd ix q = Ok (at_index ix q)).
  { intros q Hq. unfold rd, at_index. destruct (Z.ltb_spec q 0); [lia|]. rewrite (nth_error_nth' ix (-1)) by lia. reflexivity. }
  rewrite !RI by auto. cbn [bind]. set (j := at_index ix q0) in *. set (k := at_index ix q1) in *. clearbody j k.
  set (mj := if_no_nan (col_values M j) mean_spec). set (mk := if_no_nan (col_values M k) mean_spec).
  assert (ER : rmap (fun i => do a <- get0 M i j; do b <- get0 M i k; Ok ((a -f mj) *f (b -f mk))) (zrange 0 (nrows M))
    = Ok (map (fun p => (fst p -f mj) *f (snd p -f mk)) (map (fun i => (opel M i j, opel M i k)) (upto (nrows M))))).
  { rewrite map_map. change (zrange 0 ?n) with (upto n).
    assert (F : Forall (fun i => 0 <= i < nrows M) (upto (nrows M))) by (apply Forall_forall; intros i Hi; apply (proj1 (in_zrange 0 _ i)) in Hi; lia).
    induction (upto (nrows M)) as [|i t IH]; [reflexivity|]. apply Forall_cons_iff in F. destruct F as [Hi F]. cbn [map rmap]. rewrite (IH F).
    unfold get0, pos. replace (i + nrows M * j) with (j * nrows M + i) by lia. replace (i + nrows M * k) with (k * nrows M + i) by lia.
    rewrite !opel_rd by (auto; split; auto). reflexivity. }
  rewrite ER. cbn [bind]. eexists. split; [reflexivity|]. clear ER.
  set (l := map (fun i => (opel M i j, opel M i k)) (upto (nrows M))).
  assert (EP : pairs_of l = complete_pairs M j k) by apply pairs_of_columns.
  assert (EN : Z.of_nat (length l) = nrows M) by (unfold l; rewrite map_length, upto_length; unfold nrows; lia).
  assert (EF : map fst l = col_values M j) by apply col_fst. assert (ES : map snd l = col_values M k) by apply col_snd.
  unfold cov_no_nan. destruct (existsb is_nan (col_values M j) || existsb is_nan (col_values M k)) eqn:B.
  - assert (NL : l <> []).
    { intros E. rewrite E in EF, ES. cbn in EF, ES. rewrite <- EF, <- ES in B. discriminate. }
    rewrite fsum_nan; [reflexivity|]. unfold has_nan. destruct l as [|p t]; [contradiction|]. left. cbn beta.
    apply orb_true_iff in B. unfold mj, mk, if_no_nan. destruct B as [-> | ->].
    + destruct p as [[x|] y]; reflexivity.
    + destruct p as [x [y|]]; cbn [fst snd]; match goal with |- ?u *f _ = _ => destruct u; reflexivity end.
  - apply orb_false_iff in B. destruct B as [BJ BK]. unfold mj, mk, if_no_nan. rewrite BJ, BK. rewrite <- EF, <- ES in *.
    destruct (xs_full l BJ BK) as [EX EY]. rewrite <- EX, <- EY. rewrite <- EP. pose proof (pairs_full_len l BJ BK) as PL.
    rewrite (pairs_full l BJ BK) at 1. rewrite map_map. cbn [fst snd]. set (P := pairs_of l) in *.
    destruct P as [|p t] eqn:EPP.
    + cbn in PL. unfold nan_or_ratio. cbn. destruct HN as [HN| ->]; [lia|]. rewrite <- EN, <- PL. reflexivity.
    + rewrite !mean_spec_ok by discriminate. rewrite cross_terms. fold (codev (p :: t)). rewrite <- EN, <- PL, cov_ratio by discriminate. reflexivity.
Qed.
Lemma columns_variance_ok S idx sample : mat_ok S -> Forall (fun i => 0 <= i < ncols M) idx -> (0 < nrows M \/ sample = false) ->
  let ix := or_all idx (ncols M) in nrows S = Z.of_nat (length ix) -> ncols S = Z.of_nat (length ix) ->
  exists S', columns_variance M S idx sample = Ok (S', ix) /\ becomes S (fun p q => Some (cov_no_nan sample M (at_index ix p) (at_index ix q))) S'.
Proof using OM.
  intros OS F HN ix HR HC. unfold columns_variance. rewrite used_all. fold ix. rewrite HR, HC, Z.eqb_refl. cbn [negb orb].
  assert (FX : Forall (fun i => 0 <= i < ncols M) ix) by (apply Forall_forall; intros i Hi; eapply in_all; eauto).
  set (S0 := Mat (length ix) 1 (repeat (@None Qc) (length ix))).
  destruct (columns_mean_ok M S0 OM) with (idx := ix) as (Sm & E & RS & CS & [FL FV]).
  { unfold mat_ok, S0. cbn. rewrite repeat_length. lia. } { exact FX. }
  { unfold mlength, S0, nrows, ncols. cbn [rows cols]. replace (or_all ix (Z.of_nat (cols M))) with ix; [lia|]. unfold or_all. destruct ix eqn:EI; auto.
    unfold ix, or_all in EI. destruct idx; [|discriminate]. auto. }
  assert (EI : or_all ix (ncols M) = ix). { unfold or_all. destruct ix eqn:EI; auto. unfold ix, or_all in EI. destruct idx; [|discriminate]. auto. }
  rewrite EI in *. rewrite E. cbn [bind fst].
  assert (HX : forall q, 0 <= q < Z.of_nat (length ix) -> 0 <= at_index ix q < ncols M).
  { intros q Hq. rewrite Forall_forall in FX. apply FX. unfold at_index. apply nth_In. lia. }
  assert (HM : forall q, 0 <= q < Z.of_nat (length ix) -> rd (data Sm) q = Ok (if_no_nan (col_values M (at_index ix q)) mean_spec)).
  { intros q Hq. unfold rd. destruct (Z.ltb_spec q 0); [lia|]. rewrite FV, Z2Nat.id by lia. destruct (Z.leb_spec 0 q); [|lia]. destruct (Z.ltb_spec q (0 + Z.of_nat (length ix))); [|lia]. cbn [andb]. rewrite Z.sub_0_r. reflexivity. }
  assert (LM : length (data Sm) = length ix) by (rewrite FL; apply repeat_length).
  edestruct (mwrites_ok (fun p q => Some (cov_no_nan sample M (at_index ix p) (at_index ix q)))) as (S' & E' & BB); [exact OS| | |rewrite E'; cbn [bind]; exists S'; split; [reflexivity|exact BB]].
  - intros p e H. apply in_flat_map in H. destruct H as (q0 & H0 & H). apply in_flat_map in H. destruct H as (q1 & H1 & H). apply in_zrange in H0, H1.
    destruct (Z.ltb_spec q1 q0); [contradiction|].
    destruct (cross_ok (data Sm) ix q0 q1 sample) as (s & E2 & E3); try lia; auto. rewrite E2 in H. cbn [bind] in H. destruct H as [H|H].
    + injection H as <- <-. exists q0, q1. eexists. split; [split; lia|]. split; [reflexivity|]. split; [reflexivity|]. rewrite E3. auto.
    + destruct (q0 =? q1); [contradiction|]. destruct H as [H|[]]. injection H as <- <-. exists q1, q0. eexists. split; [split; lia|]. split; [reflexivity|]. split; [reflexivity|].
      rewrite E3, cov_no_nan_swap. auto.
  - intros i j (Hi & Hj). left. apply in_map_iff. destruct (Z.leb_spec i j).
    + eexists. split; [|apply in_flat_map; exists i; split; [apply in_zrange; lia|]; apply in_flat_map; exists j; split; [apply in_zrange; lia|]; destruct (Z.ltb_spec j i); [lia|]; left; reflexivity]. reflexivity.
    + eexists. split; [|apply in_flat_map; exists j; split; [apply in_zrange; lia|]; apply in_flat_map; exists i; split; [apply in_zrange; lia|]; destruct (Z.ltb_spec i j); [lia|]; right; destruct (Z.eqb_spec j i); [lia|]; left; reflexivity]. reflexivity.
Qed.
Lemma col_writes S (h : list (option Qc) -> option Qc) : mat_ok S -> mlength S = ncols M ->
  exists S', mwrites S (map (fun j => (j, do l <- values M (j * nrows M) (nrows M); Ok (h l))) (zrange 0 (ncols M))) = Ok S' /\ rows S' = rows S /\ cols S' = cols S /\
    filled (data S) (data S') 0 (ncols M) (fun k => Some (h (col_values M k))).
Proof using OM.
  intros OS HL. pose proof (list_writes S (zrange 0 (ncols M)) (fun j => do l <- values M (j * nrows M) (nrows M); Ok (h l)) (fun j => h (col_values M j))) as W.
  assert (LZ : Z.of_nat (length (zrange 0 (ncols M))) = ncols M) by (rewrite zrange_length; unfold ncols; lia).
  destruct W as (S' & E & R & C & [FL FV]); auto; [lia| |].
  { intros j Hj. apply in_zrange in Hj. rewrite Z.mul_comm, values_col by (auto; lia). reflexivity. }
  rewrite combine_map, LZ in E. rewrite LZ in FV. exists S'. split; [|split; auto; split; auto; split; auto].
  - rewrite <- E. f_equal. apply map_ext_in. intros j Hj. apply in_zrange in Hj. change (zrange 0 (ncols M)) with (upto (ncols M)). rewrite at_upto by lia. reflexivity.
  - intros k. rewrite FV. destruct ((0 <=? Z.of_nat k) && (Z.of_nat k <? 0 + ncols M)) eqn:B; auto. change (zrange 0 (ncols M)) with (upto (ncols M)). rewrite at_upto by lia. reflexivity.
Qed.
End Var.
