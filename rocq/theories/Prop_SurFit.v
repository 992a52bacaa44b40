(** C94: goodness of fit of systems of equations. *)
From Verif Require Import SurFitSpec MatProofs MatDotProofs LsProofs SurProofs SurProofs2 SurProofs7 SurFitProofs Prop_Sur.
From Verif Require HistProofs2.
From Coq Require Import Lia ZifyBool.
Local Open Scope Z_scope.

(** With two or more observations the reported coefficient is 1 - SSR / SST, over all equations, of the reported residuals, which
    are those of the reported coefficients; it is NaN (or infinite) exactly if there is no variation. This holds for every kind of estimation. *)
Theorem c94_r2 lapack pt det_pd cdf d y x storage work R maxp u : sur_call lapack d y x storage work -> has_restrictions d R ->
  sur_calculate lapack pt det_pd d y x storage work R maxp = Ok u -> 2 <= nrows y ->
  exists g, fit_of cdf y x (u_est u) = Ok g /\ g_r2 g = determination (nrows y) (ncols y) (el y) (residual (ncols x) (el y) (el x) (el (s_beta (u_est u)))).
Proof.
  intros Call Hr E P. destruct (any_fitted lapack pt det_pd d y x storage work R maxp u Call Hr E) as (P1 & P2 & P3 & _ & _ & He & _).
  unfold fit_of. assert (K := r2_ok (rows y) (cols y) y _ _ (sc_y _ _ _ _ _ _ Call) eq_refl eq_refl He ltac:(unfold nrows in P; lia) P2). rewrite K. cbn [bind]. eexists. split; reflexivity.
Qed.
Print Assumptions c94_r2.
(** A single observation gives NaN. *)
Theorem c94_one_observation cdf y x s : mat_ok y -> nrows y = 1 -> 0 < ncols y -> sized (rows y) (cols y) (s_resid s) -> exists g, fit_of cdf y x s = Ok g /\ g_r2 g = None /\ f_value (g_f g) = None.
Proof.
  intros W N1 Pm (R1 & R2 & R3). unfold fit_of, fit_r2. assert (OM : mat_ok (with_nan y)) by (apply with_nan_ok; auto).
  set (S0 := Mat (cols y) 1 (repeat None (cols y)) : mat (option Qc)).
  assert (OS : mat_ok S0) by (unfold S0, mat_ok; cbn; rewrite repeat_length; lia).
  assert (LS : mlength S0 = ncols (with_nan y)) by (unfold mlength, ncols, nrows, S0, with_nan; cbn; lia).
  unfold columns_variances. rewrite LS, Z.eqb_refl. cbn [negb].
  destruct (ColProofs3.col_writes (with_nan y) OM S0 (fun l => snd (variance_of false false l)) OS LS) as (S' & -> & _ & _ & F1 & F2). cbn [bind].
  assert (V : rmap (fun i => do v <- rd (data S') i; Ok (v *f Some (qz (nrows y)))) (zrange 0 (ncols y)) = Ok (map (fun _ => None) (zrange 0 (ncols y)))).
  { apply rmap_const. intros j Hj. apply in_zrange in Hj. assert (G := F2 (Z.to_nat j)). rewrite Z2Nat.id, Z.sub_0_r in G by lia. change (ncols (with_nan y)) with (ncols y) in G.
    replace ((0 <=? j) && (j <? 0 + ncols y)) with true in G by lia. unfold rd. replace (j <? 0) with false by lia. rewrite G. cbn [bind].
    unfold ColSpec.col_values. change (nrows (with_nan y)) with (nrows y). rewrite N1. change (upto 1) with [0]. cbn. reflexivity. }
  rewrite V. clear V. cbn [bind].
  assert (V : rmap (fun i => do e <- rd (data (s_resid s)) i; Ok (e * e)%Qc) (zrange 0 (mlength (s_resid s))) = Ok (map (fun i => let e := match nth_error (data (s_resid s)) (Z.to_nat i) with Some e => e | None => 0%Qc end in (e * e)%Qc) (zrange 0 (mlength (s_resid s))))).
  { apply rmap_const. intros i Hi. apply in_zrange in Hi. unfold rd. replace (i <? 0) with false by lia. destruct (nth_error (data (s_resid s)) (Z.to_nat i)) eqn:K; [reflexivity|]. exfalso. apply nth_error_None in K. unfold mlength, nrows, ncols, mat_ok in *. nia. }
  rewrite V. clear V. cbn [bind].
  assert (Fs : fsum (map (fun _ : Z => None) (zrange 0 (ncols y))) = None).
  { unfold zrange. rewrite map_map. destruct (Z.to_nat (ncols y)) eqn:En; [lia|]. cbn [seq map]. unfold fsum. cbn [fold_left]. cbn. generalize (seq 1 n). intros l. induction l; cbn; auto. }
  rewrite Fs. cbn. eexists. split; [reflexivity|]. split; reflexivity.
Qed.
Print Assumptions c94_one_observation.
(** Without restrictions, and with a constant among the explanatory variables or spanned by them: between 0 and 1; it is 1 exactly if all residuals are zero. *)
Theorem c94_range lapack pt det_pd cdf d y x storage work R maxp u g r : sur_call lapack d y x storage work -> sd_restricted d = false ->
  sur_calculate lapack pt det_pd d y x storage work R maxp = Ok u -> 2 <= nrows y -> spans_constant (nrows y) (ncols x) (el x) ->
  fit_of cdf y x (u_est u) = Ok g -> g_r2 g = Some r ->
  (0 <= r)%Qc /\ (r <= 1)%Qc /\ (r = 1%Qc <-> forall t j, 0 <= t < nrows y -> 0 <= j < ncols y -> residual (ncols x) (el y) (el x) (el (s_beta (u_est u))) t j = 0%Qc).
Proof.
  intros Call Rs E P Sp Eg Er. assert (Hr : has_restrictions d R) by (intros K; congruence). destruct (c94_r2 lapack pt det_pd cdf d y x storage work R maxp u Call Hr E P) as (g' & Eg' & D). assert (g' = g) by congruence. subst g'. rewrite Er in D. symmetry in D.
  destruct (un_ok lapack pt det_pd d y x storage work R maxp Call u E Rs) as (_ & gi & n1 & n2 & sa & U & _). assert (Nm := un_normal y x gi n1 n2 true sa _ U).
  set (e := residual (ncols x) (el y) (el x) (el (s_beta (u_est u)))) in *. assert (B := total_bound _ _ _ _ _ _ Nm Sp). change (residual (Z.of_nat (cols x)) (el y) (el x) (el (s_beta (u_est u)))) with e in B. change (Z.of_nat (rows y)) with (nrows y) in B. change (Z.of_nat (cols y)) with (ncols y) in B.
  assert (Z0 := resid_zero (nrows y) (ncols y) e). assert (Nn := resid_nn (nrows y) (ncols y) e). assert (Tn := total_nn (nrows y) (ncols y) (el y)). unfold determination in D. destruct (qeqb_spec (total_ss (nrows y) (ncols y) (el y)) 0) as [|Ne]; [discriminate|]. injection D as <-.
  revert B Z0 Nn Tn Ne. generalize (total_ss (nrows y) (ncols y) (el y)) (resid_ss (nrows y) (ncols y) e). intros T S0 B Z0 Nn Tn Ne.
  assert (Tp : (0 < T)%Qc) by (apply Qcle_lt_or_eq in Tn; destruct Tn; [auto|congruence]). assert (Ip := HistProofs2.Qc_inv_pos _ Tp).
  assert (Q1 : (0 <= S0 / T)%Qc) by (unfold Qcdiv; rewrite <- (Qcmult_0_l (/ T)); apply Qcmult_le_compat_r; [auto|apply Qclt_le_weak; auto]).
  assert (Q2 : (S0 / T <= 1)%Qc) by (replace 1%Qc with (T / T)%Qc by (field; auto); unfold Qcdiv; apply Qcmult_le_compat_r; [auto|apply Qclt_le_weak; auto]).
  split; [clear - Q2; revert Q2; generalize (S0 / T)%Qc; intros; qlra|]. split; [clear - Q1; revert Q1; generalize (S0 / T)%Qc; intros; qlra|]. rewrite <- Z0. split; intros K.
  - assert (Q : (S0 / T)%Qc = 0%Qc) by (transitivity (1 - (1 - S0 / T))%Qc; [ring|rewrite K; ring]). transitivity (S0 / T * T)%Qc; [field; auto|rewrite Q; ring].
  - rewrite K. unfold Qcdiv. rewrite Qcmult_0_l. ring.
Qed.
Print Assumptions c94_range.
(** More explanatory variables never lower the coefficient. *)
Theorem c94_nested lapack pt det_pd cdf d1 d2 y x1 x2 storage1 work1 storage2 work2 R1 R2 maxp u1 u2 g1 g2 r1 r2 : sur_call lapack d1 y x1 storage1 work1 -> sur_call lapack d2 y x2 storage2 work2 ->
  has_restrictions d1 R1 -> sd_restricted d2 = false -> 2 <= nrows y -> nested (nrows y) (ncols x1) (ncols x2) (el x1) (el x2) ->
  sur_calculate lapack pt det_pd d1 y x1 storage1 work1 R1 maxp = Ok u1 -> sur_calculate lapack pt det_pd d2 y x2 storage2 work2 R2 maxp = Ok u2 ->
  fit_of cdf y x1 (u_est u1) = Ok g1 -> fit_of cdf y x2 (u_est u2) = Ok g2 -> g_r2 g1 = Some r1 -> g_r2 g2 = Some r2 -> (r1 <= r2)%Qc.
Proof.
  intros C1 C2 Hr1 Rs2 P Ne E1 E2 F1 F2 G1 G2. assert (Hr2 : has_restrictions d2 R2) by (intros K; congruence).
  destruct (c94_r2 lapack pt det_pd cdf d1 y x1 storage1 work1 R1 maxp u1 C1 Hr1 E1 P) as (g1' & K1 & D1). destruct (c94_r2 lapack pt det_pd cdf d2 y x2 storage2 work2 R2 maxp u2 C2 Hr2 E2 P) as (g2' & K2 & D2).
  assert (g1' = g1) by congruence. assert (g2' = g2) by congruence. subst g1' g2'. rewrite G1 in D1. rewrite G2 in D2. symmetry in D1, D2.
  apply (det_order _ _ _ _ _ _ _ D1 D2). destruct (un_ok lapack pt det_pd d2 y x2 storage2 work2 R2 maxp C2 u2 E2 Rs2) as (_ & gi & n1 & n2 & sa & U & _). assert (Nm := un_normal y x2 gi n1 n2 true sa _ U).
  eapply nested_bound; eauto.
Qed.
Print Assumptions c94_nested.
(** Restrictions never raise it. *)
Theorem c94_restricted lapack pt det_pd cdf d1 d2 y x storage1 work1 storage2 work2 R1 R2 maxp u1 u2 g1 g2 r1 r2 : sur_call lapack d1 y x storage1 work1 -> sur_call lapack d2 y x storage2 work2 ->
  has_restrictions d1 R1 -> sd_restricted d2 = false -> 2 <= nrows y ->
  sur_calculate lapack pt det_pd d1 y x storage1 work1 R1 maxp = Ok u1 -> sur_calculate lapack pt det_pd d2 y x storage2 work2 R2 maxp = Ok u2 ->
  fit_of cdf y x (u_est u1) = Ok g1 -> fit_of cdf y x (u_est u2) = Ok g2 -> g_r2 g1 = Some r1 -> g_r2 g2 = Some r2 -> (r1 <= r2)%Qc.
Proof.
  intros C1 C2 Hr1 Rs2 P. apply (c94_nested lapack pt det_pd cdf d1 d2 y x x storage1 work1 storage2 work2 R1 R2 maxp u1 u2 g1 g2 r1 r2 C1 C2 Hr1 Rs2 P).
  exists iden. intros t i Ht Hi. symmetry. apply (product_iden_r (ncols x) (el x) t i Hi).
Qed.
Print Assumptions c94_restricted.
(** The statistic that is reported as F: the explained variation is divided by m (N - 1) in place of m (k - 1). It is (k - 1) / (N - 1) times the textbook's. *)
Theorem c94_f cdf N m k tss rss : 2 <= N -> 0 < m -> 1 < k < N -> (0 < tss)%Qc -> (0 < rss)%Qc ->
  let f := fit_f cdf (Some (1 - rss / tss)%Qc) N m (k * m) in
  f_d1 f = m * (N - 1) /\ f_d2 f = m * (N - k) /\ f_value f = Some (f_textbook N m k tss rss * (qz (k - 1) / qz (N - 1)))%Qc.
Proof.
  intros PN Pm Hk Pt Pr f. assert (T0 : tss <> 0%Qc) by (apply Qc_lt_ne; auto). assert (R0 : rss <> 0%Qc) by (apply Qc_lt_ne; auto).
  assert (Z1 : forall n, 0 < n -> qz n <> 0%Qc) by (intros n Hn; apply Qc_lt_ne; apply (qz_lt 0); auto).
  assert (A1 := Z1 m Pm). assert (A2 := Z1 (N - 1) ltac:(lia)). assert (A3 := Z1 (k - 1) ltac:(lia)). assert (A4 := Z1 (N - k) ltac:(lia)).
  split; [reflexivity|]. split; [cbn; lia|]. cbn [f fit_f f_value]. unfold f, fit_f. cbn [f_value]. replace (m * N - k * m) with (m * (N - k)) by lia.
  assert (Q : (1 - (1 - rss / tss))%Qc = (rss / tss)%Qc) by ring. cbn [fsub fl2]. unfold fsub, fl2. rewrite Q.
  unfold fdiv. assert (D : forall a, 0 < a -> qeqb (qz a) 0 = false) by (intros a Ha; destruct (qeqb_spec (qz a) 0) as [K|]; [destruct (Z1 a Ha K)|reflexivity]).
  rewrite !D by nia. unfold f_textbook. rewrite !qz_mul.
  assert (V : (rss / tss / (qz m * qz (N - k)))%Qc <> 0%Qc).
  { intros K. apply R0. transitivity (rss / tss / (qz m * qz (N - k)) * (tss * (qz m * qz (N - k))))%Qc; [field; auto|rewrite K; ring]. }
  destruct (qeqb_spec (rss / tss / (qz m * qz (N - k))) 0) as [K|_]; [destruct (V K)|]. f_equal. field. repeat split; auto.
Qed.
Print Assumptions c94_f.
(** A regression of 1, 3, 4 on a constant and a trend: R2 is 27/28 and F should be 27; the code reports 27/2. *)
Theorem c94_f_refuted : exists u g, sur_calculate lapack12 pt1 det2 (declare 3 1 2 false true 0) y1 x1 (repeat 0%Qc 60) (repeat 0%Qc 40) None 0 = Ok u /\
  sur_call lapack12 (declare 3 1 2 false true 0) y1 x1 (repeat 0%Qc 60) (repeat 0%Qc 40) /\
  fit_of (fun _ _ _ => 0%Qc) y1 x1 (u_est u) = Ok g /\ g_r2 g = Some (q 27 28) /\
  f_textbook 3 1 2 (total_ss 3 1 (el y1)) (resid_ss 3 1 (el (s_resid (u_est u)))) = qz 27 /\ f_value (g_f g) = Some (q 27 2).
Proof.
  eexists. eexists. split; [vm_compute; reflexivity|]. split; [constructor; [apply lapack12_sound|apply lapack12_length|vm_compute; lia|vm_compute; lia|reflexivity|vm_compute; discriminate|vm_compute; discriminate]|].
  split; [vm_compute; reflexivity|]. split; [qeq|split; qeq].
Qed.
Print Assumptions c94_f_refuted.
(** Without a constant the coefficient can be negative; the probability is then NaN. *)
Theorem c94_no_constant_refuted : exists y x u g r, sur_calculate lapack12 pt1 det2 (declare 3 1 1 false true 0) y x (repeat 0%Qc 60) (repeat 0%Qc 40) None 0 = Ok u /\
  sur_call lapack12 (declare 3 1 1 false true 0) y x (repeat 0%Qc 60) (repeat 0%Qc 40) /\
  fit_of (fun _ _ _ => 0%Qc) y x (u_est u) = Ok g /\ g_r2 g = Some r /\ (r < 0)%Qc /\ f_prob (g_f g) = None.
Proof.
  exists (Mat 3 1 (map qz [5; 6; 5])), (Mat 3 1 (map qz [0; 1; 2])). eexists. eexists. eexists. split; [vm_compute; reflexivity|]. split; [constructor; [apply lapack12_sound|apply lapack12_length|vm_compute; lia|vm_compute; lia|reflexivity|vm_compute; discriminate|vm_compute; discriminate]|].
  split; [vm_compute; reflexivity|]. split; [cbn [g_r2]; reflexivity|]. split; [vm_compute; reflexivity|reflexivity].
Qed.
Print Assumptions c94_no_constant_refuted.
(** The hypotheses are met: the regression above has a constant. *)
Example c94_ex : spans_constant 3 2 (el x1) /\ nested 3 1 2 (fun _ _ => 1%Qc) (el x1) /\ exists u g, sur_calculate lapack12 pt1 det2 (declare 3 1 2 false true 0) y1 x1 (repeat 0%Qc 60) (repeat 0%Qc 40) None 0 = Ok u /\
  fit_of (fun _ _ _ => 0%Qc) y1 x1 (u_est u) = Ok g /\ g_r2 g = Some (q 27 28).
Proof.
  split; [|split].
  - exists (fun i => if i =? 0 then 1%Qc else 0%Qc). intros t Ht. assert (K : t = 0 \/ t = 1 \/ t = 2) by lia. destruct K as [-> | [-> | ->]]; qeq.
  - exists (fun l _ => if l =? 0 then 1%Qc else 0%Qc). intros t i Ht Hi. assert (K : t = 0 \/ t = 1 \/ t = 2) by lia. destruct K as [-> | [-> | ->]]; qeq.
  - eexists. eexists. split; [vm_compute; reflexivity|]. split; [vm_compute; reflexivity|]. qeq.
Qed.
