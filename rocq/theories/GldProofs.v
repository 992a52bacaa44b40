(** Proofs about the quantile function of the generalized lambda distribution. *)
From Coq Require Import Reals Lra Lia.
From Coquelicot Require Import Coquelicot.
From Verif Require Import UdModel GldModel GldSpec.
Import Lra.
Local Open Scope R_scope.

Lemma xeq_fin x y : xeq (Fin x) (Fin y) = if Req_EM_T x y then true else false.
Proof. reflexivity. Qed.
Lemma fdiv x y : y <> 0 -> xdiv (Fin x) (Fin y) = Fin (x / y).
Proof. intros H. cbn. destruct (Req_EM_T y 0); [contradiction|reflexivity]. Qed.
Lemma flog x : 0 < x -> xlog (Fin x) = Fin (ln x).
Proof. intros H. cbn. destruct (Rlt_dec 0 x); [reflexivity|contradiction]. Qed.
Lemma fpow x y : 0 < x -> gpow (Fin x) (Fin y) = Fin (Rpower x y).
Proof. intros H. cbn. destruct (Rlt_dec 0 x); [reflexivity|contradiction]. Qed.
Lemma fpow_inf x : 0 < x < 1 -> gpow (Fin x) PInf = Fin 0.
Proof. intros H. cbn. rewrite Rabs_pos_eq by lra. destruct (Req_EM_T x 1); [lra|]. destruct (Rlt_dec x 1); [reflexivity|lra]. Qed.
Lemma box_cox_0 u : box_cox (Fin 0) u = ln u.
Proof. cbn. destruct (Req_EM_T 0 0); [reflexivity|lra]. Qed.
Lemma box_cox_n a u : a <> 0 -> box_cox (Fin a) u = (Rpower u a - 1) / a.
Proof. intros H. cbn. destruct (Req_EM_T a 0); [contradiction|reflexivity]. Qed.
Lemma fadd x y : xadd (Fin x) (Fin y) = Fin (x + y).
Proof. reflexivity. Qed.
Lemma fsub x y : xsub (Fin x) (Fin y) = Fin (x - y).
Proof. reflexivity. Qed.
Lemma fmul x y : xmul (Fin x) (Fin y) = Fin (x * y).
Proof. reflexivity. Qed.
Lemma fdiv_inf x : xdiv (Fin x) PInf = Fin 0.
Proof. reflexivity. Qed.
Ltac fin := repeat first [rewrite fsub | rewrite fadd | rewrite fmul | rewrite fdiv_inf | rewrite fdiv by lra | rewrite flog by (first [lra | apply Rdiv_lt_0_compat; lra]) | rewrite fpow by lra | rewrite fpow_inf by (split; lra)].
Theorem quantile_formula p d1 d2 d3 d4 : 0 < p < 1 -> 0 < d2 -> is_shape d3 -> is_shape d4 ->
  gld_quantile (Fin p) (Fin d1) (Fin d2) d3 d4 = Fin (d1 + (box_cox d3 p - box_cox d4 (1 - p)) / d2).
Proof.
  intros Hp H2 [->|(a & ->)] [->|(b & ->)]; unfold gld_quantile; cbn [xeq xisinf].
  - fin. cbn [box_cox]. f_equal. field. lra.
  - destruct (Req_EM_T b 0) as [->|Hb].
    + fin. rewrite box_cox_0. cbn [box_cox]. f_equal. field. lra.
    + fin. rewrite (box_cox_n b) by exact Hb. cbn [box_cox]. f_equal. unfold Rminus. field. lra.
  - destruct (Req_EM_T a 0) as [->|Ha].
    + fin. rewrite box_cox_0. cbn [box_cox]. f_equal. field. lra.
    + fin. rewrite (box_cox_n a) by exact Ha. cbn [box_cox]. f_equal. unfold Rminus. field. lra.
  - destruct (Req_EM_T a 0) as [->|Ha]; destruct (Req_EM_T b 0) as [->|Hb].
    + fin. rewrite !box_cox_0. f_equal. rewrite ln_div by lra. unfold Rminus. field. lra.
    + fin. rewrite box_cox_0, (box_cox_n b) by exact Hb. f_equal. unfold Rminus. field. lra.
    + fin. rewrite box_cox_0, (box_cox_n a) by exact Ha. f_equal. unfold Rminus. field. lra.
    + fin. rewrite (box_cox_n a), (box_cox_n b) by assumption. f_equal. unfold Rminus. field. lra.
Qed.
Lemma Rpower_pos u a : 0 < Rpower u a.
Proof. apply exp_pos. Qed.
Lemma Rpower_m1 u : 0 < u -> Rpower u (0 - 1) = / u.
Proof. intros H. replace (0 - 1) with (- (1)) by ring. rewrite Rpower_Ropp, Rpower_1 by exact H. reflexivity. Qed.
Theorem density_formula p d1 d2 d3 d4 : 0 < p < 1 -> 0 < d2 -> is_shape d3 -> is_shape d4 -> d3 <> PInf \/ d4 <> PInf ->
  0 < box_cox' d3 p + box_cox' d4 (1 - p) /\
  gld_density_quantile (Fin p) (Fin d1) (Fin d2) d3 d4 = Fin (d2 / (box_cox' d3 p + box_cox' d4 (1 - p))).
Proof.
  intros Hp H2 S3 S4 NI. split.
  { destruct S3 as [->|(a & ->)]; destruct S4 as [->|(b & ->)]; cbn [box_cox'].
    - destruct NI; congruence.
    - pose proof (Rpower_pos (1 - p) (b - 1)). lra.
    - pose proof (Rpower_pos p (a - 1)). lra.
    - pose proof (Rpower_pos (1 - p) (b - 1)). pose proof (Rpower_pos p (a - 1)). lra. }
  assert (Q1 : 0 < / p) by (apply Rinv_0_lt_compat; lra). assert (Q2 : 0 < / (1 - p)) by (apply Rinv_0_lt_compat; lra).
  destruct S3 as [->|(a & ->)]; destruct S4 as [->|(b & ->)]; unfold gld_density_quantile; cbn [xeq xisinf].
  - destruct NI; congruence.
  - destruct (Req_EM_T b 0) as [->|Hb]; cbn [box_cox'].
    + fin. rewrite Rpower_m1 by lra. f_equal. field. lra.
    + pose proof (Rpower_pos (1 - p) (b - 1)) as Q. fin. f_equal. field. lra.
  - destruct (Req_EM_T a 0) as [->|Ha]; cbn [box_cox'].
    + fin. rewrite Rpower_m1 by lra. f_equal. field. lra.
    + pose proof (Rpower_pos p (a - 1)) as Q. fin. f_equal. field. lra.
  - pose proof (Rpower_pos p (a - 1)) as Qa. pose proof (Rpower_pos (1 - p) (b - 1)) as Qb.
    destruct (Req_EM_T a 0) as [->|Ha]; destruct (Req_EM_T b 0) as [->|Hb]; cbn [box_cox'].
    + fin. rewrite !Rpower_m1 by lra. f_equal. field. lra.
    + fin. assert (0 < 1 / p) by (apply Rdiv_lt_0_compat; lra). fin. rewrite (Rpower_m1 p) by lra. f_equal. field. split; [lra|]. apply Rgt_not_eq. nra.
    + fin. assert (0 < 1 / (1 - p)) by (apply Rdiv_lt_0_compat; lra). fin. rewrite (Rpower_m1 (1 - p)) by lra. f_equal. field. split; [lra|]. apply Rgt_not_eq. nra.
    + fin. reflexivity.
Qed.
(** ** Derivative *)
Lemma box_cox_derive a u : is_shape a -> 0 < u -> is_derive (box_cox a) u (box_cox' a u).
Proof.
  intros [->|(r & ->)] Hu; cbn [box_cox'].
  - apply (is_derive_const (K := R_AbsRing) (V := R_NormedModule) 0).
  - destruct (Req_EM_T r 0) as [->|Hr].
    + rewrite Rpower_m1 by exact Hu. apply (is_derive_ext ln); [intros t; symmetry; apply box_cox_0|]. apply is_derive_ln. exact Hu.
    + apply (is_derive_ext (fun t => (Rpower t r - 1) / r)); [intros t; symmetry; apply box_cox_n; exact Hr|].
      unfold Rpower. auto_derive; [exact Hu|]. replace ((r - 1) * ln u) with (r * ln u - ln u) by ring. unfold Rminus at 1. rewrite exp_plus, exp_Ropp, exp_ln by exact Hu. field. lra.
Qed.
Lemma quantile_derive d1 d2 d3 d4 p : 0 < p < 1 -> 0 < d2 -> is_shape d3 -> is_shape d4 ->
  is_derive (fun p => d1 + (box_cox d3 p - box_cox d4 (1 - p)) / d2) p ((box_cox' d3 p + box_cox' d4 (1 - p)) / d2).
Proof.
  intros Hp H2 S3 S4. pose proof (box_cox_derive d3 p S3 ltac:(lra)) as D3. pose proof (box_cox_derive d4 (1 - p) S4 ltac:(lra)) as D4.
  assert (DM : is_derive (fun p : R => 1 - p) p (-1)) by (auto_derive; [trivial|ring]).
  pose proof (is_derive_comp (box_cox d4) (fun p => 1 - p) p _ _ D4 DM) as DC. cbv beta in DC.
  pose proof (is_derive_minus _ _ _ _ _ D3 DC) as DD. pose proof (is_derive_scal _ _ (/ d2) _ DD) as DS.
  pose proof (is_derive_plus (fun _ => d1) _ p 0 _ (is_derive_const (K := R_AbsRing) (V := R_NormedModule) d1 p) DS) as DP.
  apply (is_derive_ext _ (fun p => d1 + (box_cox d3 p - box_cox d4 (1 - p)) / d2)) in DP.
  - replace ((box_cox' d3 p + box_cox' d4 (1 - p)) / d2) with (plus 0 (scal (/ d2) (minus (box_cox' d3 p) (scal (-1) (box_cox' d4 (1 - p)))))); [exact DP|].
    unfold plus, minus, scal, opp, plus; cbn. unfold mult; cbn. field. lra.
  - intros t. unfold plus, minus, scal, opp, plus; cbn. unfold mult; cbn. field. lra.
Qed.
Theorem quantile_density d1 d2 d3 d4 : 0 < d2 -> is_shape d3 -> is_shape d4 -> d3 <> PInf \/ d4 <> PInf ->
  exists q f, (forall p, 0 < p < 1 -> gld_quantile (Fin p) (Fin d1) (Fin d2) d3 d4 = Fin (q p) /\ gld_density_quantile (Fin p) (Fin d1) (Fin d2) d3 d4 = Fin (f p) /\
     0 < f p /\ is_derive q p (1 / f p)).
Proof.
  intros H2 S3 S4 NI. exists (fun p => d1 + (box_cox d3 p - box_cox d4 (1 - p)) / d2), (fun p => d2 / (box_cox' d3 p + box_cox' d4 (1 - p))). intros p Hp.
  destruct (density_formula p d1 d2 d3 d4 Hp H2 S3 S4 NI) as (P & D). split; [apply quantile_formula; assumption|]. split; [exact D|]. split; [apply Rdiv_lt_0_compat; assumption|].
  replace (1 / (d2 / (box_cox' d3 p + box_cox' d4 (1 - p)))) with ((box_cox' d3 p + box_cox' d4 (1 - p)) / d2) by (field; lra). apply quantile_derive; assumption.
Qed.
Theorem quantile_increasing d1 d2 d3 d4 p r x y : 0 < d2 -> is_shape d3 -> is_shape d4 -> d3 <> PInf \/ d4 <> PInf -> 0 < p -> p < r -> r < 1 ->
  gld_quantile (Fin p) (Fin d1) (Fin d2) d3 d4 = Fin x -> gld_quantile (Fin r) (Fin d1) (Fin d2) d3 d4 = Fin y -> x < y.
Proof.
  intros H2 S3 S4 NI H0 Hpr H1 Ex Ey. rewrite quantile_formula in Ex by (auto; lra). rewrite quantile_formula in Ey by (auto; lra). injection Ex as <-. injection Ey as <-.
  set (q := fun p => d1 + (box_cox d3 p - box_cox d4 (1 - p)) / d2).
  destruct (MVT_gen q p r (fun p => (box_cox' d3 p + box_cox' d4 (1 - p)) / d2)) as (c & Hc & E).
  - intros t Ht. rewrite Rmin_left, Rmax_right in Ht by lra. apply quantile_derive; auto; lra.
  - intros t Ht. rewrite Rmin_left, Rmax_right in Ht by lra. apply derivable_continuous_pt. eexists. apply is_derive_Reals. apply quantile_derive; auto; lra.
  - rewrite Rmin_left, Rmax_right in Hc by lra. change (q p < q r).
    destruct (density_formula c d1 d2 d3 d4 ltac:(lra) H2 S3 S4 NI) as (P & _).
    assert (0 < (box_cox' d3 c + box_cox' d4 (1 - c)) / d2 * (r - p)) by (apply Rmult_lt_0_compat; [apply Rdiv_lt_0_compat; assumption|lra]). lra.
Qed.
(** ** The special cases are limits *)
Lemma box_cox_limit0 u : 0 < u -> is_lim (fun r => box_cox (Fin r) u) 0 (box_cox (Fin 0) u).
Proof.
  intros Hu. rewrite box_cox_0. assert (D : is_derive (fun r => Rpower u r) 0 (ln u)).
  { unfold Rpower. auto_derive; [trivial|]. rewrite Rmult_0_l, exp_0. ring. }
  apply is_derive_Reals in D. intros P (eps & HP). destruct (D eps (cond_pos eps)) as (delta & HD). exists delta. intros r Hr Nr.
  apply HP. specialize (HD r Nr). rewrite box_cox_n by exact Nr. change (Rabs ((Rpower u r - 1) / r - ln u) < eps).
  rewrite Rplus_0_l in HD. unfold Rpower at 2 in HD. rewrite Rmult_0_l, exp_0 in HD. apply HD. change (Rabs (r - 0) < delta) in Hr. rewrite Rminus_0_r in Hr. exact Hr.
Qed.
Lemma box_cox_limit_inf u : 0 < u < 1 -> is_lim (fun r => box_cox (Fin r) u) p_infty (box_cox PInf u).
Proof.
  intros Hu. cbn [box_cox]. apply (is_lim_ext_loc (fun r => (Rpower u r - 1) / r)).
  { exists 0. intros r Hr. symmetry. apply box_cox_n. lra. }
  intros P (eps & HP). exists (/ eps). intros r Hr. assert (0 < / eps) by (apply Rinv_0_lt_compat; apply cond_pos). apply HP. change (Rabs ((Rpower u r - 1) / r - 0) < eps).
  assert (B : 0 < Rpower u r < 1). { split; [apply Rpower_pos|]. rewrite <- (Rpower_O u) by lra. unfold Rpower. apply exp_increasing. assert (ln u < 0) by (rewrite <- ln_1; apply ln_increasing; lra). nra. }
  rewrite Rminus_0_r, Rabs_left by (apply Rmult_lt_reg_r with r; [lra|]; unfold Rdiv; rewrite Rmult_assoc, Rinv_l by lra; lra).
  assert (1 / r < eps). { apply Rmult_lt_reg_r with r; [lra|]. unfold Rdiv. rewrite Rmult_1_l, Rinv_l by lra. apply Rmult_lt_reg_l with (/ eps); [assumption|]. rewrite Rmult_1_r, <- Rmult_assoc, Rinv_l by (apply Rgt_not_eq, cond_pos). lra. }
  assert (- ((Rpower u r - 1) / r) < 1 / r). { unfold Rdiv. assert (0 < / r) by (apply Rinv_0_lt_compat; lra). nra. } lra.
Qed.
