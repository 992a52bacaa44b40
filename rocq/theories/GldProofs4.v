(** Proofs about GetFromMoments: the distribution has the moments that are asked for. *)
From Coq Require Import Reals Lra Lia ZArith.
From Coquelicot Require Import Coquelicot.
From Verif Require Import UdModel GldModel GldSpec GldProofs GldProofs2 GldProofs3.
Import Lra.
Local Open Scope R_scope.

Definition qf (d1 d2 a b p : R) : R := d1 + (box_cox (Fin a) p - box_cox (Fin b) (1 - p)) / d2.
Lemma quantile_fin p d1 d2 a b : 0 < p < 1 -> 0 < d2 -> gld_quantile (Fin p) (Fin d1) (Fin d2) (Fin a) (Fin b) = Fin (qf d1 d2 a b p).
Proof. intros Hp H2. apply quantile_formula; auto; right; eexists; reflexivity. Qed.
Lemma int_qf d1 d2 a b : d2 <> 0 -> -1 < a -> -1 < b -> integral01 (qf d1 d2 a b) (d1 + 1 / d2 * (1 / (b + 1) - 1 / (a + 1))).
Proof.
  intros H2 Ha Hb. apply (int_ext (fun p => d1 + 1 / d2 * (box_cox (Fin a) p - box_cox (Fin b) (1 - p)))); [intros; unfold qf; field; exact H2|].
  apply int_plus; [apply int_const|]. replace (1 / (b + 1) - 1 / (a + 1)) with (- (1 / (a + 1)) - - (1 / (b + 1))) by ring. apply int_scal. apply int_minus; [apply int_box_cox|apply int_box_cox']; assumption.
Qed.
Lemma rinv_sq v : 0 < v -> 1 / sqrt v * (1 / sqrt v) = 1 / v.
Proof. intros H. pose proof (sqrt_lt_R0 v H). rewrite <- (sqrt_sqrt v) at 3 by lra. field. lra. Qed.

Section Moments.
Context (s : gspecial).
(** the location puts the mean in place, whatever the scale *)
Lemma location_formula mean variance a b m1 m2 : get_mk s 1 a b = Ok m1 -> get_mk s 2 a b = Ok m2 -> -1 < a -> -1 < b ->
  location_scale s mean variance a b = Ok (mean - 1 / sqrt ((m2 - m1 * m1) / variance) * (1 / (b + 1) - 1 / (a + 1)), sqrt ((m2 - m1 * m1) / variance), a, b).
Proof using.
  intros E1 E2 Ha Hb. unfold location_scale. rewrite E1, E2. cbn [bind]. set (L2 := sqrt _). clearbody L2. set (k := 1 / L2). clearbody k. unfold get_mk in E1.
  destruct (Req_EM_T a b) as [->|Nab].
  - rewrite Bool.orb_true_r. injection E1 as <-. do 4 f_equal. ring.
  - rewrite Bool.orb_false_r. destruct (Req_EM_T a 0) as [->|Na].
    + rewrite is0_0 in *. rewrite (is0_n b) in * by (intros ->; auto). cbn [andb negb orb] in *. injection E1 as <-. do 4 f_equal. field. lra.
    + rewrite (is0_n a) in * by assumption. destruct (Req_EM_T b 0) as [->|Nb].
      * rewrite is0_0 in *. cbn [andb negb orb] in *. injection E1 as <-. do 4 f_equal. field. lra.
      * rewrite (is0_n b) in * by assumption. cbn [andb negb orb] in *. injection E1 as <-. do 4 f_equal. field. repeat split; lra.
Qed.
Theorem mean_ok mean variance a b m1 m2 : get_mk s 1 a b = Ok m1 -> get_mk s 2 a b = Ok m2 -> -1 < a -> -1 < b -> 0 < variance -> 0 < m2 - m1 * m1 ->
  exists d1 d2 q, location_scale s mean variance a b = Ok (d1, d2, a, b) /\ 0 < d2 /\
    (forall p, 0 < p < 1 -> gld_quantile (Fin p) (Fin d1) (Fin d2) (Fin a) (Fin b) = Fin (q p)) /\ integral01 q mean.
Proof using.
  intros E1 E2 Ha Hb Hv Hm. rewrite (location_formula mean variance a b m1 m2) by assumption. set (d2 := sqrt _).
  assert (H2 : 0 < d2) by (apply sqrt_lt_R0; apply Rdiv_lt_0_compat; assumption). clearbody d2.
  eexists _, d2, (qf _ d2 a b). split; [reflexivity|]. split; [exact H2|]. split; [intros p Hp; apply quantile_fin; assumption|].
  set (d1 := mean - _). replace mean with (d1 + 1 / d2 * (1 / (b + 1) - 1 / (a + 1))) by (unfold d1; ring). apply int_qf; auto. lra.
Qed.
Context (B : beta_ok s).
(** central moments *)
Lemma qf_core mean d2 a b p : a <> 0 -> b <> 0 -> -1 < a -> -1 < b -> d2 <> 0 ->
  qf (mean - 1 / d2 * (1 / (b + 1) - 1 / (a + 1))) d2 a b p - mean = (core a b p - mk1 a b) / d2.
Proof using. intros Na Nb Ha Hb H2. unfold qf. rewrite !box_cox_n by assumption. unfold core, mk1. field. repeat split; lra. Qed.
Lemma central2 a b : a <> 0 -> b <> 0 -> - (1 / 2) < a -> - (1 / 2) < b -> integral01 (fun p => (core a b p - mk1 a b) ^ 2) (mk2 s a b - mk1 a b * mk1 a b).
Proof using B.
  intros Na Nb Ha Hb. set (m := mk1 a b). replace (mk2 s a b - m * m) with (mk2 s a b + (- (2 * m) * m + m * m)) by ring.
  apply (int_ext (fun p => core a b p ^ 2 + (- (2 * m) * core a b p ^ 1 + m * m))); [intros; ring|].
  apply int_plus; [apply int_mk2; assumption|]. apply int_plus; [|apply int_const]. apply int_scal. apply int_mk1; auto; lra.
Qed.
Lemma central3 a b : a <> 0 -> b <> 0 -> - (1 / 3) < a -> - (1 / 3) < b ->
  integral01 (fun p => (core a b p - mk1 a b) ^ 3) (mk3 s a b - 3 * mk1 a b * mk2 s a b + 2 * mk1 a b ^ 3).
Proof using B.
  intros Na Nb Ha Hb. set (m := mk1 a b). replace (mk3 s a b - 3 * m * mk2 s a b + 2 * m ^ 3) with (mk3 s a b + (- (3 * m) * mk2 s a b + (3 * m ^ 2 * m + - m ^ 3))) by ring.
  apply (int_ext (fun p => core a b p ^ 3 + (- (3 * m) * core a b p ^ 2 + (3 * m ^ 2 * core a b p ^ 1 + - m ^ 3)))); [intros; ring|].
  apply int_plus; [apply int_mk3; assumption|]. apply int_plus; [apply int_scal; apply int_mk2; auto; lra|]. apply int_plus; [|apply int_const]. apply int_scal. apply int_mk1; auto; lra.
Qed.
Lemma central4 a b : a <> 0 -> b <> 0 -> - (1 / 4) < a -> - (1 / 4) < b ->
  integral01 (fun p => (core a b p - mk1 a b) ^ 4) (mk4 s a b - 4 * mk1 a b * mk3 s a b + 6 * mk1 a b * mk1 a b * mk2 s a b - 3 * mk1 a b ^ 4).
Proof using B.
  intros Na Nb Ha Hb. set (m := mk1 a b).
  replace (mk4 s a b - 4 * m * mk3 s a b + 6 * m * m * mk2 s a b - 3 * m ^ 4) with (mk4 s a b + (- (4 * m) * mk3 s a b + (6 * m ^ 2 * mk2 s a b + (- (4 * m ^ 3) * m + m ^ 4)))) by ring.
  apply (int_ext (fun p => core a b p ^ 4 + (- (4 * m) * core a b p ^ 3 + (6 * m ^ 2 * core a b p ^ 2 + (- (4 * m ^ 3) * core a b p ^ 1 + m ^ 4))))); [intros; ring|].
  apply int_plus; [apply int_mk4; assumption|]. apply int_plus; [apply int_scal; apply int_mk3; auto; lra|]. apply int_plus; [apply int_scal; apply int_mk2; auto; lra|].
  apply int_plus; [|apply int_const]. apply int_scal. apply int_mk1; auto; lra.
Qed.
(** the variance is positive *)
Lemma int_nonneg f v : (forall p, 0 < p < 1 -> 0 <= f p) -> integral01 f v -> 0 <= v.
Proof using.
  intros H I. apply Rle_trans with (Rabs v); [apply Rabs_pos|].
  refine (RInt_gen_norm (V := R_CompleteNormedModule) (Fa := at_right 0) (Fb := at_left 1) f f v v _ _ I I).
  - apply (Filter_prod _ _ _ (fun a => a < 1 / 2) (fun b => 1 / 2 < b)).
    + exists (mkposreal (1 / 2) ltac:(lra)). intros y Hy _. apply Rabs_def2 in Hy. unfold minus, plus, opp in Hy; cbn in Hy. lra.
    + exists (mkposreal (1 / 2) ltac:(lra)). intros y Hy _. apply Rabs_def2 in Hy. unfold minus, plus, opp in Hy; cbn in Hy. lra.
    + intros x y Hx Hy. cbn [fst snd]. lra.
  - apply near01. intros x y Hx Hy p Hp. cbn [fst snd] in Hp. change (Rabs (f p) <= f p). rewrite Rabs_pos_eq; [lra|]. apply H. lra.
Qed.
Definition cov (a b : R) : R := 1 / (2 * (a + 1) * (a + 2)) + 1 / (2 * (b + 1) * (b + 2)).
Lemma int_cov a b : a <> 0 -> b <> 0 -> -1 < a -> -1 < b -> integral01 (fun p => (p - 1 / 2) * (core a b p - mk1 a b)) (cov a b).
Proof using.
  intros Na Nb Ha Hb. set (m := mk1 a b).
  assert (P1 : integral01 (fun p => p) (1 / (1 + 1))). { apply (int_ext (fun p => Rpower p 1)); [intros; apply Rpower_1; lra|]. apply int_power. lra. }
  replace (cov a b) with (1 / a * (1 / (a + 1 + 1)) + (1 / b * (1 / (b + 1 + 1)) + (- (1 / b) * (1 / (b + 1)) + (- (1 / 2) * mk1 a b + (- m * (1 / (1 + 1)) + 1 / 2 * m)))))
    by (unfold cov, m, mk1; field; repeat split; lra).
  apply (int_ext (fun p => 1 / a * Rpower p (a + 1) + (1 / b * Rpower (1 - p) (b + 1) + (- (1 / b) * Rpower (1 - p) b + (- (1 / 2) * core a b p ^ 1 + (- m * p + 1 / 2 * m)))))).
  { intros p Hp. rewrite !Rpower_plus, !Rpower_1 by lra. unfold core. field. auto. }
  apply int_plus; [apply int_scal; apply int_power; lra|]. apply int_plus; [apply int_scal; apply int_power'; lra|]. apply int_plus; [apply int_scal; apply int_power'; lra|].
  apply int_plus; [apply int_scal; apply int_mk1; auto|]. apply int_plus; [apply int_scal; exact P1|apply int_const].
Qed.
Lemma int_line2 : integral01 (fun p => (p - 1 / 2) ^ 2) (1 / 12).
Proof using.
  replace (1 / 12) with (1 / (2 + 1) + (-1 * (1 / (1 + 1)) + 1 / 4)) by field.
  apply (int_ext (fun p => Rpower p 2 + (-1 * Rpower p 1 + 1 / 4))).
  { intros p Hp. replace 2 with (1 + 1) at 1 by ring. rewrite Rpower_plus, Rpower_1 by lra. field. }
  apply int_plus; [apply int_power; lra|]. apply int_plus; [apply int_scal; apply int_power; lra|apply int_const].
Qed.
Theorem variance_pos a b : a <> 0 -> b <> 0 -> - (1 / 2) < a -> - (1 / 2) < b -> 0 < mk2 s a b - mk1 a b * mk1 a b.
Proof using B.
  intros Na Nb Ha Hb. set (c := cov a b). assert (Hc : 0 < c).
  { unfold c, cov. apply Rplus_lt_0_compat; apply Rdiv_lt_0_compat; try lra; repeat apply Rmult_lt_0_compat; lra. }
  set (v := mk2 s a b - mk1 a b * mk1 a b). assert (H : 0 <= v + (- (24 * c) * c + 144 * c * c * (1 / 12))); [|nra].
  apply (int_nonneg (fun p => (core a b p - mk1 a b) ^ 2 + (- (24 * c) * ((p - 1 / 2) * (core a b p - mk1 a b)) + 144 * c * c * (p - 1 / 2) ^ 2))).
  - intros p _. replace (_ + _) with ((core a b p - mk1 a b - 12 * c * (p - 1 / 2)) ^ 2) by ring. apply pow2_ge_0.
  - apply int_plus; [apply central2; assumption|]. apply int_plus; apply int_scal; [apply int_cov; auto; lra|exact int_line2].
Qed.
Theorem moments_ok mean variance a b : a <> 0 -> b <> 0 -> - (1 / 4) < a -> - (1 / 4) < b -> 0 < variance ->
  exists d1 d2 q S K, location_scale s mean variance a b = Ok (d1, d2, a, b) /\ 0 < d2 /\
    (forall p, 0 < p < 1 -> gld_quantile (Fin p) (Fin d1) (Fin d2) (Fin a) (Fin b) = Fin (q p)) /\
    integral01 q mean /\ integral01 (fun p => (q p - mean) ^ 2) variance /\
    integral01 (fun p => ((q p - mean) / sqrt variance) ^ 3) S /\ integral01 (fun p => ((q p - mean) / sqrt variance) ^ 4) (K + 3) /\
    forall skewness ex_kurtosis, objective s skewness ex_kurtosis a b = (ex_kurtosis - K) ^ 2 + (S - skewness) ^ 2.
Proof using B.
  intros Na Nb Ha Hb Hv. pose proof (variance_pos a b Na Nb ltac:(lra) ltac:(lra)) as VP. set (v := mk2 s a b - mk1 a b * mk1 a b) in *.
  rewrite (location_formula mean variance a b (mk1 a b) (mk2 s a b)) by (first [apply get_mk_1; assumption | apply get_mk_2; assumption | lra]). fold v.
  assert (H2 : 0 < sqrt (v / variance)) by (apply sqrt_lt_R0; apply Rdiv_lt_0_compat; assumption).
  assert (Q2 : sqrt (v / variance) * sqrt (v / variance) = v / variance) by (apply sqrt_sqrt; apply Rlt_le, Rdiv_lt_0_compat; assumption).
  assert (SV : sqrt (v / variance) * sqrt variance = sqrt v) by (rewrite <- sqrt_mult by (first [lra | apply Rlt_le, Rdiv_lt_0_compat; assumption]); f_equal; field; lra).
  set (d2 := sqrt (v / variance)) in *. clearbody d2. set (d1 := mean - _).
  assert (Hs : 0 < sqrt variance) by (apply sqrt_lt_R0; assumption). assert (Hsv : 0 < sqrt v) by (apply sqrt_lt_R0; assumption).
  assert (QV : sqrt v * sqrt v = v) by (apply sqrt_sqrt; lra). assert (QC : forall p, qf d1 d2 a b p - mean = (core a b p - mk1 a b) / d2) by (intros p; apply qf_core; auto; lra).
  assert (Z : forall p, (qf d1 d2 a b p - mean) / sqrt variance = 1 / sqrt v * (core a b p - mk1 a b)) by (intros p; rewrite QC, <- SV; field; lra).
  set (S := 1 / sqrt v ^ 3 * (mk3 s a b - 3 * mk1 a b * mk2 s a b + 2 * mk1 a b ^ 3)).
  set (K4 := 1 / v ^ 2 * (mk4 s a b - 4 * mk1 a b * mk3 s a b + 6 * mk1 a b * mk1 a b * mk2 s a b - 3 * mk1 a b ^ 4)).
  exists d1, d2, (qf d1 d2 a b), S, (-3 + K4). split; [reflexivity|]. split; [exact H2|]. split; [intros p Hp; apply quantile_fin; assumption|]. split; [|split; [|split; [|split]]].
  - replace mean with (d1 + 1 / d2 * (1 / (b + 1) - 1 / (a + 1))) by (unfold d1; ring). apply int_qf; lra.
  - replace variance with (1 / d2 ^ 2 * v). 2:{ replace (d2 ^ 2) with (v / variance) by (rewrite <- Q2; ring). field. lra. }
    apply (int_ext (fun p => 1 / d2 ^ 2 * (core a b p - mk1 a b) ^ 2)); [intros; rewrite QC; field; lra|]. apply int_scal. apply central2; auto; lra.
  - apply (int_ext (fun p => 1 / sqrt v ^ 3 * (core a b p - mk1 a b) ^ 3)); [intros; rewrite Z; field; lra|]. apply int_scal. apply central3; auto; lra.
  - replace (-3 + K4 + 3) with K4 by ring. apply (int_ext (fun p => 1 / v ^ 2 * (core a b p - mk1 a b) ^ 4)).
    { intros; rewrite Z. replace (v ^ 2) with (sqrt v ^ 4) by (replace (sqrt v ^ 4) with ((sqrt v * sqrt v) ^ 2) by ring; rewrite QV; reflexivity). field. lra. }
    apply int_scal. apply central4; auto; lra.
  - intros sk ek. unfold objective. rewrite get_ms_n by assumption. fold v. unfold K4, S. replace (Rpower v (3 / 2)) with (sqrt v ^ 3).
    + field. split; lra.
    + replace (3 / 2) with (/ 2 + / 2 + / 2) by field. rewrite !Rpower_plus, Rpower_sqrt by exact VP. ring.
Qed.
Lemma sum_squares_0 x y : x ^ 2 + y ^ 2 = 0 -> x = 0 /\ y = 0.
Proof using. intros H. pose proof (pow2_ge_0 x). pose proof (pow2_ge_0 y). split; nra. Qed.
End Moments.
