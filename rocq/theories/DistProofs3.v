(** Proofs about Distance: the values of all methods. *)
From Verif Require Import DistModel DistSpec MatProofs MatDotProofs MatProofs5 DataProofs DescProofs ColProofs ColProofs2 ColProofs3 CorProofs CorProofs2 CorProofs3 CorRealProofs CorRealProofs2 CorRealProofs3 DistProofs.
Local Open Scope Z_scope.

Lemma quot2_mono a b : 0 <= a <= b -> Z.quot (a * (a - 1)) 2 <= Z.quot (b * (b - 1)) 2.
Proof. intros H. destruct (Z.eq_dec a 0) as [->|]; [cbn [Z.mul]; rewrite Z.quot_0_l by lia; apply Z.quot_pos; nia|]. apply Z.quot_le_mono; nia. Qed.
Lemma quot2_mono' a b : 0 <= a <= b -> Z.quot (a * (a + 1)) 2 <= Z.quot (b * (b + 1)) 2.
Proof. intros H. apply Z.quot_le_mono; nia. Qed.
Lemma dist_work_mono m check sp r c r0 c0 : 0 <= r <= r0 -> 0 <= c <= c0 -> dist_work m check sp r c <= dist_work m check sp r0 c0.
Proof.
  intros Hr Hc. unfold dist_work. destruct (is_cor_method m); [|lia]. pose proof (quot2_mono' c c0 Hc). assert (c * c <= c0 * c0) by nia. assert (c * r <= c0 * r0) by nia. assert (r * c <= r0 * c0) by nia. unfold cor_sizes, pearson_sizes. destruct check, sp; cbn [check_nan is_cor is_spearman fst snd]; lia.
Qed.
Lemma numbers_opel M i j : mat_ok M -> inside M i j -> opel M i j <> None -> opel (with_nan (numbers M)) i j = opel M i j.
Proof.
  intros W H N. unfold opel in *. unfold entry in *. change (insideb (with_nan (numbers M)) i j) with (insideb M i j). destruct (insideb M i j); auto. change (nrows (with_nan (numbers M))) with (nrows M).
  unfold with_nan, numbers. cbn [data]. rewrite map_map. destruct (nth_error (data M) (Z.to_nat (j * nrows M + i))) as [[v|]|] eqn:E; try (exfalso; apply N; reflexivity). erewrite map_nth_error; [|exact E]. reflexivity.
Qed.
Lemma no_nan_data M : mat_ok M -> no_nan M -> existsb is_none (firstn (rows M * cols M) (data M)) = false.
Proof.
  intros W N. destruct (existsb is_none (firstn (rows M * cols M) (data M))) eqn:E; auto. exfalso. apply existsb_exists in E. destruct E as (x & Hx & E). destruct x; [discriminate|].
  apply In_nth_error in Hx. destruct Hx as (p & Hp). assert (P : (p < rows M * cols M)%nat) by (assert (L : nth_error (firstn (rows M * cols M) (data M)) p <> None) by congruence; apply nth_error_Some in L; rewrite firstn_length in L; lia).
  assert (RP : (0 < rows M)%nat) by (destruct (rows M); cbn in P; lia).
  assert (HI : inside M (Z.of_nat (p mod rows M)) (Z.of_nat (p / rows M))).
  { pose proof (Nat.mod_upper_bound p (rows M) ltac:(lia)). pose proof (Nat.div_lt_upper_bound p (rows M) (cols M) ltac:(lia) P). split; unfold nrows, ncols; lia. }
  apply (N _ _ HI). unfold opel, entry. destruct (insideb M _ _); auto. replace (Z.to_nat (Z.of_nat (p / rows M) * nrows M + Z.of_nat (p mod rows M))) with p.
  - assert (Q : nth_error (data M) p = Some None); [|rewrite Q; auto]. rewrite <- (firstn_skipn (rows M * cols M) (data M)). rewrite nth_error_app1; auto. apply nth_error_Some. congruence.
  - unfold nrows. rewrite <- Nat2Z.inj_mul, <- Nat2Z.inj_add, Nat2Z.id. rewrite (Nat.div_mod p (rows M)) at 1 by lia. lia.
Qed.
Lemma no_nan_pairs M i j : mat_ok M -> no_nan M -> 0 <= i < ncols M -> 0 <= j < ncols M -> col_pairs (numbers M) i j = complete_pairs M i j.
Proof.
  intros W N Hi Hj. rewrite <- with_nan_pairs; auto; [|unfold mat_ok, numbers; cbn [rows cols data]; rewrite map_length; auto]. unfold complete_pairs. change (nrows (with_nan (numbers M))) with (nrows M).
  assert (F : forall k, In k (upto (nrows M)) -> 0 <= k < nrows M) by (intros k Hk; apply upto_in; auto). induction (upto (nrows M)) as [|k t IH]; auto. cbn [flat_map]. rewrite IH by (intros; apply F; right; auto).
  rewrite !numbers_opel; auto; try (split; auto; apply F; left; auto); try (apply N; split; auto; apply F; left; auto).
Qed.
(** The correlations. *)
Lemma cor_matrix_ok check sp M w : mat_ok M -> parts_ok M w -> 2 <= nrows M -> 0 < ncols M ->
  (check = false -> sp = true -> no_nan M) -> (check = true -> sp = true -> forall i j, 0 <= i < ncols M -> 0 <= j < ncols M -> (2 <= length (complete_pairs M i j))%nat) ->
  exists C, cor_matrix check sp M w = Ok C /\ mat_ok C /\ nrows C = ncols M /\ ncols C = ncols M /\ forall i j, 0 <= i < ncols M -> 0 <= j < ncols M -> i <> j -> entry C i j = Some (correlation_of check sp M i j).
Proof.
  intros W (L1 & L2 & L3 & L4 & L5) HR HC HN HE. assert (L4' : sym_length true (ncols M) <= Z.of_nat (length (p_counts w))) by lia. assert (L5' : 2 * mlength M <= Z.of_nat (length (p_work w))) by (unfold mlength, nrows, ncols; lia).
  assert (ML : 0 <= mlength M) by (unfold mlength, nrows, ncols; lia).
  assert (K : forall (C : mat (option R)) v, length (data C) = length (p_result w) -> square_of (ncols M) true v C -> mat_ok C /\ nrows C = ncols M /\ ncols C = ncols M /\ forall i j, 0 <= i < ncols M -> 0 <= j < ncols M -> i <> j -> entry C i j = Some (v i j)).
  { intros C v LC (Q1 & Q2 & Q3). split; [|split; [auto|split; [auto|intros; apply Q3; auto]]]. unfold mat_ok. assert (rows C = cols M /\ cols C = cols M) as [-> ->] by (unfold nrows, ncols in *; lia). rewrite LC. auto. }
  unfold cor_matrix, correlation_of. destruct check, sp.
  - destruct (spearman_nan_ok M (spearman_cor_pair M) (spearman_rho M) (p_result w) (p_counts w) true W L1 L4') as (S & C & E & LS & _ & _ & Q & _); [intros i j Hi Hj; apply spearman_cor_pair_ok; auto|intros; apply spearman_rho_swap|].
    rewrite E. cbn [bind fst]. exists S. split; [reflexivity|]. apply (K S (spearman_rho M)); auto.
  - destruct (pearson_cor_nan_ok M false (p_result w) (p_counts w) true W HR L1 L4') as (S & C & E & LS & _ & _ & Q & _). rewrite E. cbn [bind fst]. exists S. split; [reflexivity|].
    destruct (K S _ LS Q) as (A & B & C' & D). repeat split; auto. intros i j Hi Hj N. rewrite D by auto. destruct (Z.eqb_spec i j); [contradiction|auto].
  - rewrite no_nan_data by auto. assert (WN : mat_ok (numbers M)) by (unfold mat_ok, numbers; cbn [rows cols data]; rewrite map_length; auto).
    destruct (spearman_cor_ok (numbers M) (p_result w) (p_means w) (p_vars w) (p_work w) true WN HR HC L1 L2 L3 L5') as (S & Me & Va & E & LS & Q). rewrite E. cbn [bind fst]. exists S. split; [reflexivity|].
    destruct (K S _ LS Q) as (A & B & C' & D). repeat split; auto. intros i j Hi Hj N. rewrite D by auto. rewrite no_nan_pairs by auto. reflexivity.
  - destruct (pearson_cor_ok M (p_result w) (p_means w) (p_vars w) (Z.of_nat (length (p_work w))) true W HR HC L1 L2 L3 ltac:(lia)) as (S & Me & Va & E & LS & Q & _). rewrite E. cbn [bind fst]. exists S. split; [reflexivity|]. apply (K S (cor_no_nan M)); auto.
Qed.
Lemma sizes_ok m check sp r0 c0 (M : mat (option Qc)) : nrows M <= Z.of_nat r0 -> ncols M <= Z.of_nat c0 ->
  (dist_storage (Z.of_nat c0) <? dist_storage (ncols M)) || (dist_work m check sp (Z.of_nat r0) (Z.of_nat c0) <? dist_work m check sp (nrows M) (ncols M)) = false.
Proof.
  intros H1 H2. assert (0 <= nrows M /\ 0 <= ncols M) as [P1 P2] by (unfold nrows, ncols; lia). pose proof (quot2_mono (ncols M) (Z.of_nat c0) ltac:(lia)). pose proof (dist_work_mono m check sp (nrows M) (ncols M) (Z.of_nat r0) (Z.of_nat c0) ltac:(lia) ltac:(lia)). unfold dist_storage. lia.
Qed.
Lemma cor_distance_ok m check sp r0 c0 M st w : mat_ok M -> parts_ok M w -> 2 <= nrows M -> 0 < ncols M -> is_cor_method m = true ->
  (check = false -> sp = true -> no_nan M) -> (check = true -> sp = true -> forall i j, 0 <= i < ncols M -> 0 <= j < ncols M -> (2 <= length (complete_pairs M i j))%nat) ->
  nrows M <= Z.of_nat r0 -> ncols M <= Z.of_nat c0 -> dist_storage (Z.of_nat c0) <= Z.of_nat (length st) ->
  exists S, distance m check sp r0 c0 M st w = Ok S /\ srows S = c0 /\ forall i j, 0 <= i < ncols M -> 0 <= j < ncols M -> i < j ->
    exists d, sym_get0 false S i j = Ok d /\ sym_get0 false S j i = Ok d /\ from_correlation m (correlation_of check sp M i j) d.
Proof.
  intros W PW HR HC HM HN HE H1 H2 LS. unfold distance. rewrite sizes_ok, HM by auto. destruct (cor_matrix_ok check sp M w W PW HR HC HN HE) as (C & -> & WC & RC & CC & EC). cbn [bind].
  destruct (pair_loop_ok (ncols M) c0 (fun i j => do r <- get0 C i j; Ok (cor_distance m r)) (fun i j => cor_distance m (correlation_of check sp M i j)) st) as (d & -> & LD & V).
  - unfold ncols in *. lia.
  - exact LS.
  - intros i j Hi Hj L. destruct (get0_ok C i j WC) as (v & E1 & E2); [split; lia|]. rewrite E2. cbn [bind]. rewrite EC in E1 by lia. injection E1 as <-. reflexivity.
  - cbn [bind]. exists (Sym c0 d). split; auto. split; auto. intros i j Hi Hj L. destruct (V i j Hi Hj L) as [V1 V2]. eexists. split; [exact V1|]. split; [exact V2|]. unfold from_correlation, cor_distance. destruct (correlation_of check sp M i j); reflexivity.
Qed.
Lemma plain_distance_ok m check sp r0 c0 M st w : mat_ok M -> is_cor_method m = false ->
  nrows M <= Z.of_nat r0 -> ncols M <= Z.of_nat c0 -> dist_storage (Z.of_nat c0) <= Z.of_nat (length st) ->
  exists S, distance m check sp r0 c0 M st w = Ok S /\ srows S = c0 /\ forall i j, 0 <= i < ncols M -> 0 <= j < ncols M -> i < j ->
    sym_get0 false S i j = Ok (column_distance m check (map (fun k => (opel M k i, opel M k j)) (upto (nrows M)))) /\ sym_get0 false S j i = sym_get0 false S i j.
Proof.
  intros W HM H1 H2 LS. unfold distance. rewrite sizes_ok, HM by auto.
  destruct (pair_loop_ok (ncols M) c0 (fun i j => do l <- two_columns M i j; Ok (column_distance m check l)) (fun i j => column_distance m check (map (fun k => (opel M k i, opel M k j)) (upto (nrows M)))) st) as (d & -> & LD & V).
  - unfold ncols in *. lia.
  - exact LS.
  - intros i j Hi Hj L. rewrite two_columns_ok by auto. reflexivity.
  - cbn [bind]. exists (Sym c0 d). split; auto. split; auto. intros i j Hi Hj L. destruct (V i j Hi Hj L) as [V1 V2]. split; auto. congruence.
Qed.
Lemma column_distance_ok m check M i j : is_cor_method m = false -> check = true \/ has_nans M i j = false -> m = Maximum -> complete_pairs M i j <> [] ->
  distance_is m M i j (column_distance m check (map (fun k => (opel M k i, opel M k j)) (upto (nrows M)))).
Proof.
  intros HM HC -> NE. cbn [column_distance distance_is]. destruct (max_loop_ok (map (fun k => (opel M k i, opel M k j)) (upto (nrows M)))) as [_ H]. rewrite pairs_of_columns in H. destruct (H NE) as (v & -> & L). exists v. auto.
Qed.
Lemma column_sum_ok m check M i j : m = Euclidean \/ m = Manhattan ->
  let d := column_distance m check (map (fun k => (opel M k i, opel M k j)) (upto (nrows M))) in
  if negb check && has_nans M i j then d = RNaN else distance_is m M i j d.
Proof.
  intros HM d. unfold d, has_nans. destruct HM as [-> | ->]; cbn [column_distance distance_is]; rewrite sum_loop_ok, col_fst, col_snd, pairs_of_columns; destruct (negb check && (existsb is_nan (col_values M i) || existsb is_nan (col_values M j))); auto.
Qed.
