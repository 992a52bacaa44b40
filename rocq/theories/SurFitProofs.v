From Verif Require Import ColSpec SurFitSpec MatProofs MatDotProofs DataProofs LsProofs ColProofs ColProofs2 ColProofs3 CorProofs3 SurProofs SurProofs2 SurProofs3 SurProofs6 SurProofs7 SurProofs8 Prop_Col.
From Verif Require HistProofs2.
From Coq Require Import Lia ZifyBool.
Local Open Scope Z_scope.

Lemma with_nan_ok M : mat_ok M -> mat_ok (with_nan M).
Proof. unfold mat_ok, with_nan. cbn. rewrite map_length. auto. Qed.
Lemma col_with_nan M j : mat_ok M -> 0 <= j < ncols M -> present (col_values (with_nan M) j) = map (fun t => el M t j) (upto (nrows M)).
Proof.
  intros W Hj. unfold col_values. change (nrows (with_nan M)) with (nrows M).
  rewrite (map_ext_in _ (fun t => Some (el M t j))).
  - induction (upto (nrows M)) as [|a l IH]; [reflexivity|]. cbn. f_equal. exact IH.
  - intros t Ht. apply opel_with_nan; auto. apply in_upto in Ht. split; auto.
Qed.
Lemma var_times N (f : Z -> Qc) : 0 < N -> (var_pop (map f (upto N)) * qz N)%Qc = sum_to N (fun t => (f t - sum_to N f / qz N) * (f t - sum_to N f / qz N))%Qc.
Proof.
  intros P. assert (L : length (map f (upto N)) = Z.to_nat N) by (rewrite map_length; apply upto_length). assert (Q : qn (Z.to_nat N) = qz N) by (unfold qn; f_equal; lia).
  assert (Nz : qz N <> 0%Qc) by (apply Qc_lt_ne; apply (qz_lt 0); auto).
  unfold var_pop, dev, avg. rewrite L, Q. unfold sum_to. rewrite map_map. match goal with |- (?a / ?q * ?q)%Qc = _ => transitivity a; [field; auto|] end.
  f_equal. apply map_ext. intros t. cbn. ring.
Qed.
Lemma fsum_somes l : fsum (map Some l) = Some (qsum l).
Proof.
  unfold fsum. assert (G : forall l a, fold_left fadd (map Some l) (Some a) = Some (a + qsum l)%Qc).
  { clear. induction l as [|x l IH]; intros a; cbn; [f_equal; ring|]. cbn in IH. rewrite IH. f_equal. cbn [qsum fold_right]. unfold qsum. cbn [fold_right]. ring. }
  rewrite G. f_equal. ring.
Qed.
Lemma r2_ok (N m : nat) y e resid : mat_ok y -> rows y = N -> cols y = m -> has N m e resid -> (2 <= N)%nat -> (0 < m)%nat ->
  fit_r2 y resid = Ok (determination (Z.of_nat N) (Z.of_nat m) (el y) e).
Proof.
  intros W Ry Cy He PN Pm. assert (En : nrows y = Z.of_nat N) by (unfold nrows; rewrite Ry; auto). assert (Em : ncols y = Z.of_nat m) by (unfold ncols; rewrite Cy; auto).
  unfold fit_r2. set (S0 := Mat (cols y) 1 (repeat None (cols y)) : mat (option Qc)).
  assert (OS : mat_ok S0) by (unfold S0, mat_ok; cbn; rewrite repeat_length; lia).
  assert (LS : mlength S0 = ncols (with_nan y)) by (unfold mlength, ncols, nrows, S0, with_nan; cbn; lia).
  destruct (c86_columns_variances (with_nan y) S0 S0 false (with_nan_ok y W) OS OS LS LS) as (Sm' & Sv' & _ & -> & _ & F1 & F2).
  { change (nrows (with_nan y)) with (nrows y). lia. }
  cbn [bind].
  assert (V : rmap (fun i => do v <- rd (data Sv') i; Ok (v *f Some (qz (nrows y)))) (zrange 0 (ncols y)) = Ok (map (fun j => Some (sum_to (Z.of_nat N) (fun t => (el y t j - mean_col (Z.of_nat N) (el y) j) * (el y t j - mean_col (Z.of_nat N) (el y) j)))%Qc) (upto (ncols y)))).
  { apply rmap_const. intros j Hj. apply in_upto in Hj. assert (G := F2 (Z.to_nat j)). rewrite Z2Nat.id, Z.sub_0_r in G by lia. unfold rd. change (ncols (with_nan y)) with (ncols y) in G.
    replace ((0 <=? j) && (j <? 0 + ncols y)) with true in G by lia. replace (j <? 0) with false by lia. rewrite G. cbn [bind].
    unfold if_no_nan. rewrite with_nan_none by (auto; lia). rewrite col_with_nan by (auto; lia). f_equal. rewrite En. unfold variance_spec.
    assert (Lg : length (map (fun t => el y t j) (upto (Z.of_nat N))) = N) by (rewrite map_length, upto_length; lia).
    destruct (map _ (upto (Z.of_nat N))) as [|a l] eqn:El; [cbn in Lg; lia|]. rewrite <- El. cbn. f_equal. rewrite var_times by lia. reflexivity. }
  rewrite V. clear V. cbn [bind].
  destruct He as (R1 & R2 & R3 & R4). assert (Er : nrows resid = Z.of_nat N) by (unfold nrows; rewrite R1; auto). assert (Ec : ncols resid = Z.of_nat m) by (unfold ncols; rewrite R2; auto).
  assert (V : rmap (fun i => do v <- rd (data resid) i; Ok (v * v)%Qc) (zrange 0 (mlength resid)) = Ok (map (fun i => e (i mod Z.of_nat N)%Z (i / Z.of_nat N)%Z * e (i mod Z.of_nat N)%Z (i / Z.of_nat N)%Z)%Qc (upto (Z.of_nat m * Z.of_nat N)))).
  { replace (mlength resid) with (Z.of_nat m * Z.of_nat N) by (unfold mlength; lia). apply rmap_const. intros i Hi. apply in_upto in Hi.
    assert (H0 := Z.div_mod i (Z.of_nat N) ltac:(lia)). assert (H1 := Z.mod_pos_bound i (Z.of_nat N) ltac:(lia)). assert (H2 : 0 <= i / Z.of_nat N < Z.of_nat m) by (split; [apply Z.div_pos; lia|apply Z.div_lt_upper_bound; lia]).
    assert (G : hl (length (data resid)) N m e resid) by (split; [split; [auto|split; auto]|auto]).
    replace i with (i / Z.of_nat N * Z.of_nat N + i mod Z.of_nat N) at 1 by lia. rewrite (hl_rd _ _ _ _ _ _ _ G) by auto. reflexivity. }
  rewrite V. clear V. cbn [bind]. f_equal.
  rewrite <- (map_map _ Some). rewrite fsum_somes.
  assert (E1 : qsum (map (fun i => e (i mod Z.of_nat N)%Z (i / Z.of_nat N)%Z * e (i mod Z.of_nat N)%Z (i / Z.of_nat N)%Z)%Qc (upto (Z.of_nat m * Z.of_nat N))) = resid_ss (Z.of_nat N) (Z.of_nat m) e).
  { change (qsum (map ?f (upto ?n))) with (sum_to n f). rewrite st_split by lia. unfold resid_ss. apply st_ext. intros j Hj. apply st_ext. intros t Ht. destruct (pair_div j t (Z.of_nat N) Ht) as (-> & ->). reflexivity. }
  rewrite E1. rewrite Em. change (qsum (map _ (upto (Z.of_nat m)))) with (total_ss (Z.of_nat N) (Z.of_nat m) (el y)).
  unfold determination. generalize (total_ss (Z.of_nat N) (Z.of_nat m) (el y)). intros T. cbn. unfold qeqb. destruct (Qeq_bool _ _); reflexivity.
Qed.

(** ** Algebra *)
Lemma resid_ssr N m k y x b : resid_ss N m (residual k y x b) = sum_to m (ssr N k y x b). Proof. reflexivity. Qed.
Lemma resid_nn N m e : (0 <= resid_ss N m e)%Qc.
Proof. apply st_nonneg. intros j _. apply st_nonneg. intros t _. apply sq_nn. Qed.
Lemma total_nn N m y : (0 <= total_ss N m y)%Qc.
Proof. apply st_nonneg. intros j _. apply st_nonneg. intros t _. apply sq_nn. Qed.
Lemma resid_ext N m e e' : (forall t j, 0 <= t < N -> 0 <= j < m -> e t j = e' t j) -> resid_ss N m e = resid_ss N m e'.
Proof. intros H. apply st_ext. intros j Hj. apply st_ext. intros t Ht. rewrite H by auto. reflexivity. Qed.
Lemma resid_zero N m e : resid_ss N m e = 0%Qc <-> forall t j, 0 <= t < N -> 0 <= j < m -> e t j = 0%Qc.
Proof.
  split.
  - intros H t j Ht Hj. apply (st_sq_zero N (fun t => e t j)); auto.
    assert (G : forall j, 0 <= j < m -> (0 <= sum_to N (fun t => e t j * e t j))%Qc) by (intros; apply st_nonneg; intros; apply sq_nn).
    apply Qcle_antisym; [|apply G; auto]. rewrite <- H. unfold resid_ss.
    rewrite <- (st_pick m (fun j => sum_to N (fun t => e t j * e t j)%Qc) j Hj). apply st_le. intros i Hi. destruct (j =? i); [apply Qcle_refl|apply G; auto].
  - intros H. rewrite (resid_ext N m e (fun _ _ => 0%Qc)) by auto. unfold resid_ss. rewrite (st_ext m _ (fun _ => 0%Qc)); [apply st_zero|]. intros j _. rewrite (st_ext N _ (fun _ => 0%Qc)); [apply st_zero|]. intros; ring.
Qed.
Lemma resid_le N m k1 k2 y x1 x2 b1 b2 : (forall j, 0 <= j < m -> (ssr N k1 y x1 b1 j <= ssr N k2 y x2 b2 j)%Qc) -> (resid_ss N m (residual k1 y x1 b1) <= resid_ss N m (residual k2 y x2 b2))%Qc.
Proof. intros H. rewrite !resid_ssr. apply st_le. auto. Qed.
Lemma total_bound N m k y x b : normal N m k y x b -> spans_constant N k x -> (resid_ss N m (residual k y x b) <= total_ss N m y)%Qc.
Proof.
  intros Nm (c & Hc). set (b' := fun i j => (c i * mean_col N y j)%Qc).
  assert (E : total_ss N m y = resid_ss N m (residual k y x b')).
  { apply st_ext. intros j Hj. apply st_ext. intros t Ht. assert (R : residual k y x b' t j = (y t j - mean_col N y j)%Qc).
    { unfold residual, b'. rewrite (st_ext k _ (fun l => x t l * c l * mean_col N y j)%Qc) by (intros; ring). rewrite st_mul_r, Hc by auto. ring. }
    rewrite R. reflexivity. }
  rewrite E. apply resid_le. intros j Hj. apply ssr_min. intros i Hi. apply Nm; auto.
Qed.
Lemma nested_bound N m k1 k2 y x1 x2 b1 b2 : normal N m k2 y x2 b2 -> nested N k1 k2 x1 x2 -> (resid_ss N m (residual k2 y x2 b2) <= resid_ss N m (residual k1 y x1 b1))%Qc.
Proof.
  intros Nm (c & Hc). set (b' := fun l j => sum_to k1 (fun i => c l i * b1 i j)%Qc).
  rewrite (resid_ext N m (residual k1 y x1 b1) (residual k2 y x2 b')).
  - apply resid_le. intros j Hj. apply ssr_min. intros i Hi. apply Nm; auto.
  - intros t j Ht Hj. unfold residual, b'. apply (f_equal (fun z => y t j - z)%Qc).
    rewrite (st_ext k1 _ (fun i => sum_to k2 (fun l => x2 t l * c l i * b1 i j))%Qc) by (intros i Hi; rewrite Hc by auto; rewrite st_mul_r; reflexivity).
    rewrite st_swap. apply st_ext. intros l Hl. rewrite <- st_mul. apply st_ext. intros. ring.
Qed.
Lemma det_order N m y e e' r r' : determination N m y e = Some r -> determination N m y e' = Some r' -> ((r <= r')%Qc <-> (resid_ss N m e' <= resid_ss N m e)%Qc).
Proof.
  unfold determination. assert (T := total_nn N m y). destruct (qeqb_spec (total_ss N m y) 0) as [|Ne]; [discriminate|]. intros [= <-] [= <-].
  assert (P : (0 < total_ss N m y)%Qc) by (apply Qcle_lt_or_eq in T; destruct T; [auto|congruence]).
  assert (Iv := HistProofs2.Qc_inv_pos _ P). revert P Iv Ne. generalize (total_ss N m y) (resid_ss N m e) (resid_ss N m e'). intros a u v P Iv Ne. unfold Qcdiv. split; intros H.
  - assert (K : (v * / a <= u * / a)%Qc) by qlra. apply (Qcmult_lt_0_le_reg_r _ _ (/ a)%Qc); auto.
  - assert (K : (v * / a <= u * / a)%Qc) by (apply Qcmult_le_compat_r; [auto|apply Qclt_le_weak; auto]). qlra.
Qed.
Lemma det_some N m y e : total_ss N m y <> 0%Qc -> determination N m y e = Some (1 - resid_ss N m e / total_ss N m y)%Qc.
Proof. intros H. unfold determination. destruct (qeqb_spec (total_ss N m y) 0); congruence. Qed.
(** Every kind of estimation leaves the residuals of its coefficients. *)
Lemma any_fitted lapack pt det_pd d y x storage work R maxp u : sur_call lapack d y x storage work -> has_restrictions d R ->
  sur_calculate lapack pt det_pd d y x storage work R maxp = Ok u -> let s := u_est u in
  (0 < rows y)%nat /\ (0 < cols y)%nat /\ (0 < cols x)%nat /\ fitted_by (rows y) (cols y) (cols x) (el y) (el x) (el (s_beta s)) (s_beta s) (s_yhat s) (s_resid s) (s_rvar s).
Proof.
  intros Call Hr E s. assert (Ck := calc_ok lapack pt det_pd d y x storage work R maxp u E).
  assert (P : (0 < rows y)%nat /\ (0 < cols y)%nat /\ (0 < cols x)%nat) by (destruct Ck; lia). destruct P as (P1 & P2 & P3). split; [auto|]. split; [auto|]. split; [auto|].
  assert (G : forall b, SurProofs2.consistent (rows y) (cols y) (cols x) y x b s -> fitted_by (rows y) (cols y) (cols x) (el y) (el x) (el (s_beta s)) (s_beta s) (s_yhat s) (s_resid s) (s_rvar s)).
  { intros b Co. assert (F := co_fitted _ _ _ _ Co). destruct Co as [(_ & _ & _ & Cb) _ _ _]. revert F. apply fitted_ext. intros i j Hi Hj. symmetry. auto. }
  destruct (sd_restricted d) eqn:Rs.
  - destruct (Hr Rs) as (R0 & ER & WR & Pq). destruct (Z.eq_dec (sd_iter d) 0) as [It|It].
    + destruct (r_ok lapack pt det_pd d y x storage work R maxp Call u R0 E Rs It ER WR Pq) as (_ & s1 & g1 & m1 & m2 & sa & _ & g & n1 & n2 & Rr & _). apply (G _ (r_co _ _ _ _ _ _ _ _ _ _ _ _ Rr)).
    + destruct (search_ok lapack pt det_pd d y x storage work R maxp Call u R0 E Rs It ER WR) as (_ & s1 & g1 & m1 & m2 & sa & R' & U & Fo & _). destruct Fo as [(Es & _)|(sig & Sg & _)].
      * fold s in Es. rewrite Es. apply (un_fitted _ _ _ _ _ _ _ _ U).
      * destruct (sg_res _ _ _ _ _ _ _ _ _ Sg) as (sp & bp & gi & n1 & n2 & _ & Rr). apply (G _ (r_co _ _ _ _ _ _ _ _ _ _ _ _ Rr)).
  - destruct (un_ok lapack pt det_pd d y x storage work R maxp Call u E Rs) as (_ & g & n1 & n2 & sa & U & _). apply (un_fitted _ _ _ _ _ _ _ _ U).
Qed.
