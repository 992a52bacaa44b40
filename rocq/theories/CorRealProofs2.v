(** Proofs about CorRealModel: matrices. *)
From Coq Require Import Lra.
From Verif Require Import CorRealModel CorRealSpec MatProofs MatProofs2 MatDotProofs MatProofs5 MatProofs6 SplitProofs DataProofs DataProofs2 DescProofs DescProofs2 HistProofs2 StatProofs ColProofs ColProofs2 ColProofs3 CorProofs CorProofs2 CorProofs3 CorRealProofs.
Local Open Scope Z_scope.

Lemma correlation_column_nan_ok M j k (sample : bool) : mat_ok M -> 0 <= j < ncols M -> 0 <= k < ncols M -> 2 <= nrows M ->
  let P := complete_pairs M j k in
  correlation_column M j k sample true = Ok (CR (Some (avg (xs P))) (Some (avg (ys P))) (nan_or_ratio (Some (dev 2 (xs P))) sample (nrows M)) (nan_or_ratio (Some (dev 2 (ys P))) sample (nrows M)) (Some (Z.of_nat (length P))) (cor_or_one P)).
Proof.
  intros W Hj Hk HR P. unfold correlation_column. rewrite bad_columns_ok by auto. destruct (Z.eqb_spec (nrows M) 0); [lia|]. destruct (Z.eqb_spec (nrows M) 1); [lia|].
  rewrite two_columns_ok by auto. cbn [bind]. pose proof (cor_nan_ok (map (fun i => (opel M i j, opel M i k)) (upto (nrows M))) []) as E. rewrite pairs_of_columns in E. fold P in E. cbn [app] in E.
  change (sums_of []) with (CS 0 0%Qc 0%Qc 0%Qc 0%Qc 0%Qc) in E. cbv zeta. rewrite E. unfold sums_of. cbn [c_n c_mean1 c_mean2 c_m2 c_w1 c_w2]. rewrite cor_value_ok. reflexivity.
Qed.
Lemma correlation_column_ok M j k (sample : bool) : mat_ok M -> 0 <= j < ncols M -> 0 <= k < ncols M -> 2 <= nrows M ->
  exists r, correlation_column M j k sample false = Ok r /\ k_count r = Some (nrows M) /\
    (existsb is_nan (col_values M j) || existsb is_nan (col_values M k) = true -> k_cor r = None) /\
    (existsb is_nan (col_values M j) || existsb is_nan (col_values M k) = false -> let P := complete_pairs M j k in
      k_mean1 r = mean_spec (xs P) /\ k_mean2 r = mean_spec (ys P) /\ k_var1 r = variance_spec sample (xs P) /\ k_var2 r = variance_spec sample (ys P) /\ k_cor r = cor_or_one P).
Proof.
  intros W Hj Hk HR. unfold correlation_column. rewrite bad_columns_ok by auto. destruct (Z.eqb_spec (nrows M) 0); [lia|]. destruct (Z.eqb_spec (nrows M) 1); [lia|].
  rewrite two_columns_ok by auto. cbn [bind]. cbv zeta. eexists. split; [reflexivity|]. cbn [k_count k_cor k_mean1 k_mean2 k_var1 k_var2]. split; auto.
  set (l := map (fun i => (opel M i j, opel M i k)) (upto (nrows M))).
  assert (EF : map fst l = col_values M j) by apply col_fst. assert (ES : map snd l = col_values M k) by apply col_snd. rewrite <- EF, <- ES. split; intros B.
  - rewrite cor_all_m2. cbn [f_mean1 f_mean2 f_m2]. rewrite cov_all_nan; [reflexivity|]. apply orb_true_iff in B. destruct B as [B|B]; apply existsb_exists in B; destruct B as (x & Hx & N); destruct x; try discriminate; apply in_map_iff in Hx; destruct Hx as (p & Hp & HI); exists p; auto.
  - apply orb_false_iff in B. destruct B as [BJ BK]. pose proof (pairs_of_columns M j k) as EP. fold l in EP. pose proof (pairs_full_len l BJ BK) as PL. rewrite (pairs_full l BJ BK).
    assert (EN : Z.of_nat (length l) = nrows M) by (unfold l; rewrite map_length, upto_length; unfold nrows; lia).
    pose proof (cor_all_ok (pairs_of l) []) as E. cbn [app] in E. change (Z.of_nat (length [])) with 0 in E. change (sumsf_of []) with (CSF (Some 0%Qc) (Some 0%Qc) (Some 0%Qc) (Some 0%Qc) (Some 0%Qc)) in E.
    rewrite E. rewrite <- EP. set (P := pairs_of l) in *. unfold sumsf_of. cbn [f_mean1 f_mean2 f_m2 f_w1 f_w2].
    assert (NE : P <> []) by (intros Z0; rewrite Z0 in PL; cbn in PL; lia). assert (NX : xs P <> []) by (destruct P; [contradiction|discriminate]). assert (NY : ys P <> []) by (destruct P; [contradiction|discriminate]).
    rewrite !mean_spec_ok by auto. rewrite cor_value_ok. rewrite <- !ratio_spec by auto. rewrite xs_len, ys_len, PL, EN. auto.
Qed.

(** ** The matrix without a check for NaN *)
Section Std.
Local Open Scope R_scope.
Lemma Rsum_div l c d : Rsum (map (fun p : R * R => (fst p / c) * (snd p / d)) l) = Rsum (map (fun p => fst p * snd p) l) * (/ c * / d).
Proof. induction l as [|[x y] t IH]; [cbn; ring|]. cbn [map fst snd]. change (Rsum (?a :: ?b)) with (a + Rsum b). rewrite IH. unfold Rdiv. ring. Qed.
Lemma real_pos a : (0 < a)%Qc -> 0 < real a.
Proof. intros H. rewrite <- real_0. apply real_lt. auto. Qed.
Lemma cor_sum P (n : Z) : n = Z.of_nat (length P) -> variesb (xs P) = true -> variesb (ys P) = true ->
  Rsum (map (fun p => (real (fst p) - real (avg (xs P))) / sqrt (real (var_pop (xs P))) * ((real (snd p) - real (avg (ys P))) / sqrt (real (var_pop (ys P))))) P) / IZR n = rho P.
Proof.
  intros -> VX VY. assert (DX := dev_pos _ VX). assert (DY := dev_pos _ VY). unfold var_pop, rho. rewrite xs_len, ys_len.
  assert (L : (0 < length P)%nat) by (destruct P; [discriminate|cbn; lia]). assert (NP : (0 < qn (length P))%Qc) by (apply qn_pos; auto).
  rewrite !real_div by (apply Qc_lt_ne; auto). change (qn (length P)) with (qz (Z.of_nat (length P))). rewrite real_z. set (n := IZR (Z.of_nat (length P))).
  assert (Hn : 0 < n) by (apply (IZR_lt 0); lia).
  pose proof (Rsum_div (map (fun p => (real (fst p) - real (avg (xs P)), real (snd p) - real (avg (ys P)))) P) (sqrt (real (dev 2 (xs P)) / n)) (sqrt (real (dev 2 (ys P)) / n))) as E.
  rewrite !map_map in E. cbn [fst snd] in E. rewrite E. clear E.
  assert (EC : Rsum (map (fun p => (real (fst p) - real (avg (xs P))) * (real (snd p) - real (avg (ys P)))) P) = real (codev P)).
  { unfold codev. rewrite real_qsum, map_map. f_equal. apply map_ext. intros p. rewrite real_mult, !real_minus. reflexivity. }
  rewrite EC. apply real_pos in DX, DY. rewrite !sqrt_div_alt by auto. assert (SN : sqrt n * sqrt n = n) by (apply sqrt_sqrt, Rlt_le, Hn). assert (0 < sqrt n) by (apply sqrt_lt_R0; auto).
  assert (0 < sqrt (real (dev 2 (xs P)))) by (apply sqrt_lt_R0; auto). assert (0 < sqrt (real (dev 2 (ys P)))) by (apply sqrt_lt_R0; auto).
  clearbody n. rewrite <- SN at 3. field. repeat split; apply not_eq_sym, Rlt_not_eq; auto.
Qed.
End Std.
Definition std_spec (M : mat (option Qc)) (i j : Z) : option R := standardize (opel M i j) (if_no_nan (col_values M j) mean_spec) (if_no_nan (col_values M j) (variance_spec false)).
Lemma std_none M j : existsb is_nan (col_values M j) = true \/ variesb (present (col_values M j)) = false -> forall i, std_spec M i j = None.
Proof.
  intros H i. unfold std_spec, standardize, if_no_nan. destruct (existsb is_nan (col_values M j)) eqn:E; auto. destruct H as [H|H]; [discriminate|].
  unfold variance_spec. destruct (present (col_values M j)) as [|a t] eqn:EP; auto. unfold var_pop. rewrite (dev_null _ H).
  replace (0 / qn (length (a :: t)))%Qc with 0%Qc by (unfold Qcdiv; ring). reflexivity.
Qed.
Lemma std_some M i j x : existsb is_nan (col_values M j) = false -> variesb (present (col_values M j)) = true -> opel M i j = Some x ->
  std_spec M i j = Some ((real x - real (avg (present (col_values M j)))) / sqrt (real (var_pop (present (col_values M j)))))%R.
Proof.
  intros H V O. unfold std_spec, standardize, if_no_nan. rewrite H, O. set (l := present (col_values M j)) in *. assert (NE : l <> []) by (intros E; rewrite E in V; discriminate).
  rewrite mean_spec_ok by auto. unfold variance_spec. destruct l as [|a t] eqn:EL; [contradiction|]. rewrite <- EL in *. clear EL.
  destruct (qeqb_spec (var_pop l) 0) as [E|E]; auto. exfalso. pose proof (dev_pos _ V) as D. unfold var_pop in E. assert (P : (0 < qn (length l))%Qc) by (apply qn_pos; destruct l; [contradiction|cbn; lia]).
  unfold Qcdiv in E. destruct (Qcmult_integral _ _ E) as [Q|Q]; [rewrite Q in D; exact (Qclt_not_eq _ _ D eq_refl)|]. apply Qc_inv_pos in P. rewrite Q in P. exact (Qclt_not_eq _ _ P eq_refl).
Qed.
Lemma cor_inner M i j : 0 < nrows M ->
  match inner (Some 0%R) radd rmul (std_spec M) (nrows M) i j with Some v => Some (v / IZR (nrows M))%R | None => None end = cor_no_nan M i j.
Proof.
  intros HN. unfold inner, cor_no_nan.
  assert (ND : forall g, g 0 = None -> fold_left radd (map g (upto (nrows M))) (Some 0%R) = None).
  { intros g G. apply radd_nan. apply in_map_iff. exists 0. split; auto. apply upto_in. lia. }
  destruct (existsb is_nan (col_values M i) || existsb is_nan (col_values M j)) eqn:B.
  - rewrite ND; auto. apply orb_true_iff in B. destruct B as [B|B]; rewrite (std_none M _ (or_introl B)); [reflexivity|]. destruct (std_spec M 0 i); reflexivity.
  - apply orb_false_iff in B. destruct B as [BI BJ]. set (l := map (fun k => (opel M k i, opel M k j)) (upto (nrows M))).
    assert (EF : map fst l = col_values M i) by apply col_fst. assert (ES : map snd l = col_values M j) by apply col_snd. pose proof (pairs_of_columns M i j) as EP. fold l in EP.
    assert (EN : Z.of_nat (length l) = nrows M) by (unfold l; rewrite map_length, upto_length; unfold nrows; lia).
    assert (BI' := BI). assert (BJ' := BJ). rewrite <- EF in BI'. rewrite <- ES in BJ'. destruct (xs_full l BI' BJ') as [EX EY]. pose proof (pairs_full l BI' BJ') as PF. pose proof (pairs_full_len l BI' BJ') as PL.
    rewrite EF in EX. rewrite ES in EY. rewrite EP in *. set (P := complete_pairs M i j) in *. unfold cor_spec.
    destruct (variesb (xs P)) eqn:VX, (variesb (ys P)) eqn:VY; cbn [andb].
    + assert (E : map (fun k => rmul (std_spec M k i) (std_spec M k j)) (upto (nrows M)) =
        map Some (map (fun p => (real (fst p) - real (avg (xs P))) / sqrt (real (var_pop (xs P))) * ((real (snd p) - real (avg (ys P))) / sqrt (real (var_pop (ys P)))))%R P)).
      { rewrite EX in VX. rewrite EY in VY. rewrite EX, EY. clear EX EY EP. clearbody P. unfold l in PF. clear PL EN EF ES BI' BJ' ND. clear l. revert P PF.
        induction (upto (nrows M)) as [|k t IH]; intros [|p P] PF; try discriminate PF; auto. cbn [map] in PF. injection PF as P1 P2 PF. cbn [map].
        rewrite (std_some M k i _ BI VX P1), (std_some M k j _ BJ VY P2). cbn [rmul]. f_equal. apply IH; auto. }
      rewrite E, radd_all. rewrite Rplus_0_l, cor_sum by (auto; lia). reflexivity.
    + rewrite ND; auto. rewrite EY in VY. rewrite (std_none M j (or_intror VY)). destruct (std_spec M 0 i); reflexivity.
    + rewrite ND; auto. rewrite EX in VX. rewrite (std_none M i (or_intror VX)). reflexivity.
    + rewrite ND; auto. rewrite EX in VX. rewrite (std_none M i (or_intror VX)). reflexivity.
Qed.
