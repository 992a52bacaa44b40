(** C121: modes. *)
From Coq Require Import Reals Lra Lia ZArith.
From Coquelicot Require Import Coquelicot.
From Verif Require Import UdModel UdSpec UdProofs UdProofs2 UdProofs5 UdProofs6 Prop_UdMoments Prop_UdCont Prop_UdLog Prop_UdMedian.
Local Open Scope R_scope.

(** Parameters for which the density is bounded and has a maximum. *)
Definition unimodal (d : dist) : Prop :=
  match d_kind d with
  | KNormal | KLogNormal | KT | KExponential | KUniformCon => True
  | KChi2 => 2 <= p1 d
  | KF => 2 < p1 d
  | KGamma => 1 <= p1 d
  | KBeta => 1 <= p1 d /\ 1 <= p2 d
  | _ => False
  end.
(** std::pow for numbers >= 0 *)
Definition rpow (x y : R) : R := if Rlt_dec 0 x then Rpower x y else if Rlt_dec 0 y then 0 else 1.
Lemma xpow_rpow x y : 0 <= x -> 0 <= y -> xpow (Fin x) (Fin y) = Fin (rpow x y).
Proof. intros A B. unfold xpow, rpow. destruct (Rlt_dec 0 x); [reflexivity|]. destruct (Rlt_dec x 0); [lra|]. destruct (Rlt_dec 0 y); [reflexivity|]. destruct (Rlt_dec y 0); [lra|reflexivity]. Qed.
Lemma rpow_nonneg x y : 0 <= rpow x y.
Proof. unfold rpow. destruct (Rlt_dec 0 x); [left; apply exp_pos|]. destruct (Rlt_dec 0 y); lra. Qed.
Lemma rpow_0 x : rpow x 0 = 1.
Proof. unfold rpow. destruct (Rlt_dec 0 x); [apply Rpower_O; assumption|]. destruct (Rlt_dec 0 0); lra. Qed.
Lemma rpow_le1 x y : 0 <= x <= 1 -> 0 <= y -> rpow x y <= 1.
Proof.
  intros A B. unfold rpow. destruct (Rlt_dec 0 x); [|destruct (Rlt_dec 0 y); lra]. unfold Rpower. rewrite <- exp_0. assert (L : ln x <= 0) by (destruct (Req_dec x 1) as [->|N]; [rewrite ln_1; lra|left; rewrite <- ln_1; apply ln_increasing; lra]).
  assert (X : y * ln x <= 0) by nra. destruct X as [X|X]; [left; apply exp_increasing; exact X|rewrite X; lra].
Qed.
Lemma rpow_1 y : rpow 1 y = 1.
Proof. unfold rpow. destruct (Rlt_dec 0 1); [|lra]. unfold Rpower. rewrite ln_1, Rmult_0_r. apply exp_0. Qed.
Lemma ln_below t : 0 < t -> ln t <= t - 1.
Proof. intros H. pose proof (exp_ineq1_le (ln t)) as E. rewrite exp_ln in E by exact H. lra. Qed.
Lemma exp_mono x y : x <= y -> exp x <= exp y.
Proof. intros [H| ->]; [left; apply exp_increasing; exact H|lra]. Qed.
(** x^p (1-x)^q *)
Lemma beta_log p q z : 0 < p -> 0 < q -> 0 < z < 1 -> let m := p / (p + q) in p * ln z + q * ln (1 - z) <= p * ln m + q * ln (1 - m).
Proof.
  intros P Q Z m. assert (M : 0 < m < 1) by (unfold m; split; [apply Rdiv_lt_0_compat; lra|]; apply (Rmult_lt_reg_r (p + q)); [lra|]; unfold Rdiv; rewrite Rmult_assoc, Rinv_l by lra; lra).
  pose proof (ln_below (z / m) ltac:(apply Rdiv_lt_0_compat; lra)) as A. pose proof (ln_below ((1 - z) / (1 - m)) ltac:(apply Rdiv_lt_0_compat; lra)) as B. rewrite ln_div in A by lra. rewrite ln_div in B by lra.
  assert (E : p * (z / m - 1) + q * ((1 - z) / (1 - m) - 1) = 0) by (unfold m; field; split; lra). pose proof (Rmult_le_compat_l p _ _ ltac:(lra) A). pose proof (Rmult_le_compat_l q _ _ ltac:(lra) B). lra.
Qed.
Lemma beta_max p q x : 0 < p -> 0 < q -> 0 <= x <= 1 -> let m := p / (p + q) in rpow x p * rpow (1 - x) q <= rpow m p * rpow (1 - m) q.
Proof.
  intros P Q X m. pose proof (rpow_nonneg m p). pose proof (rpow_nonneg (1 - m) q). assert (N : 0 <= rpow m p * rpow (1 - m) q) by nra.
  destruct (Req_dec x 0) as [->|N0]; [replace (rpow 0 p) with 0 by (unfold rpow; destruct (Rlt_dec 0 0); [lra|]; destruct (Rlt_dec 0 p); lra); lra|]. destruct (Req_dec x 1) as [->|N1]; [replace (rpow (1 - 1) q) with 0 by (unfold rpow; destruct (Rlt_dec 0 (1 - 1)); [lra|]; destruct (Rlt_dec 0 q); lra); lra|].
  pose proof (beta_log p q x P Q ltac:(lra)) as L. cbv zeta in L. fold m in L. assert (M : 0 < m < 1) by (unfold m; split; [apply Rdiv_lt_0_compat; lra|]; apply (Rmult_lt_reg_r (p + q)); [lra|]; unfold Rdiv; rewrite Rmult_assoc, Rinv_l by lra; lra).
  unfold rpow. destruct (Rlt_dec 0 x); [|lra]. destruct (Rlt_dec 0 (1 - x)); [|lra]. destruct (Rlt_dec 0 m); [|lra]. destruct (Rlt_dec 0 (1 - m)); [|lra]. unfold Rpower. rewrite <- !exp_plus. apply exp_mono. exact L.
Qed.
(** x^p exp(-x/b) *)
Lemma gamma_max p b x : 0 <= p -> 0 < b -> 0 <= x -> rpow x p * exp (- x / b) <= rpow (p * b) p * exp (- (p * b) / b).
Proof.
  intros P B X. replace (- (p * b) / b) with (- p) by (field; lra). destruct (Req_dec p 0) as [->|NP].
  - rewrite !rpow_0, Ropp_0, exp_0. assert (Q : exp (- x / b) <= exp 0); [|rewrite exp_0 in Q; lra]. apply exp_mono. apply (Rmult_le_reg_r b); [exact B|]. unfold Rdiv. rewrite Rmult_assoc, Rinv_l by lra. lra.
  - assert (PB : 0 < p * b) by nra. destruct (Req_dec x 0) as [->|N0]; [replace (rpow 0 p) with 0 by (unfold rpow; destruct (Rlt_dec 0 0); [lra|]; destruct (Rlt_dec 0 p); lra); pose proof (rpow_nonneg (p * b) p); pose proof (exp_pos (- p)); nra|].
    unfold rpow. destruct (Rlt_dec 0 x); [|lra]. destruct (Rlt_dec 0 (p * b)); [|lra]. unfold Rpower. rewrite <- !exp_plus. apply exp_mono. pose proof (ln_below (x / (p * b)) ltac:(apply Rdiv_lt_0_compat; lra)) as A. rewrite ln_div in A by lra. pose proof (Rmult_le_compat_l p _ _ P A) as A2. replace (p * (x / (p * b) - 1)) with (x / b - p) in A2 by (field; lra). unfold Rdiv in *. lra.
Qed.
Lemma inside_cases s d (x y lo : R) : density s d x = Fin y -> minimum d = Fin lo -> y = 0 \/ lo <= x.
Proof. intros D M. destruct (Rlt_dec x lo) as [L|L]; [left|right; lra]. unfold density in D. cbv zeta in D. rewrite M in D. rewrite fin_lt in D by exact L. injection D as <-. reflexivity. Qed.
Lemma above_cases s d (x y hi : R) : density s d x = Fin y -> maximum d = Fin hi -> y = 0 \/ x <= hi.
Proof. intros D M. destruct (Rlt_dec hi x) as [L|L]; [left|right; lra]. unfold density in D. cbv zeta in D. rewrite M in D. rewrite (fin_lt hi) in D by exact L. rewrite Bool.orb_true_r in D. injection D as <-. reflexivity. Qed.
Theorem c121_continuous (s : special) (d : dist) : proper d -> unimodal d -> gamma_function (s_tgamma s) -> (d_kind d = KF -> 0 < s_beta s (p1 d / 2) (p2 d / 2)) ->
  exists m M, mode d = Fin m /\ density s d m = Fin M /\ 0 < M /\ (forall x y, density s d x = Fin y -> y <= M).
Proof.
  intros P U (_ & _ & GP) SB. destruct d as [k a b]. unfold proper, unimodal in *. cbn [d_kind p1 p2] in *. pose proof sqrt2_pos as S2. pose proof sqrtpi_pos as SP. assert (S2P : 0 < sqrt_2pi) by (rewrite sqrt_2pi_eq; nra). pose proof PI_RGT_0 as PP. destruct k; try contradiction.
  - set (d := Dist KUniformCon a b). assert (D : forall x, a <= x <= b -> density s d x = Fin (1 / (b - a))) by (intros x Hx; unfold d; den0; cbn [xsub xopp xadd]; rewrite fin_div by lra; reflexivity). assert (Q : 0 < 1 / (b - a)) by (apply Rdiv_lt_0_compat; lra).
    exists ((a + b) / 2), (1 / (b - a)). split; [unfold mode, median, d; cbn [d_kind p1 p2 xadd]; rewrite fin_div by lra; reflexivity|]. split; [apply D; lra|]. split; [exact Q|]. intros x y E. destruct (inside_cases s d x y a E eq_refl); [lra|]. destruct (above_cases s d x y b E eq_refl); [lra|]. rewrite D in E by lra. injection E as <-. lra.
  - set (d := Dist KNormal a b). assert (D : forall x, density s d x = Fin (exp (- (1 / 2) * ((x - a) / b) * ((x - a) / b)) / (sqrt_2pi * b))) by (intros x; unfold d; den0; cbn [xsub xopp xadd]; rewrite fin_div by lra; cbn [xmul xexp]; rewrite fin_div by nra; reflexivity). assert (SB2 : 0 < sqrt_2pi * b) by nra.
    exists a. eexists. split; [reflexivity|]. split; [apply D|]. split; [apply Rdiv_lt_0_compat; [apply exp_pos|exact SB2]|]. intros x y E. rewrite D in E. injection E as <-. apply Rmult_le_compat_r; [left; apply Rinv_0_lt_compat; exact SB2|]. apply exp_mono. replace ((a - a) / b) with 0 by (field; lra). pose proof (Rle_0_sqr ((x - a) / b)) as Q. unfold Rsqr in Q. lra.
  - pose proof (GP (a / 2) ltac:(lra)) as G1. set (d := Dist KChi2 a b). pose proof (power_pos 2 (a / 2)) as PW. assert (D : forall x, 0 <= x -> density s d x = Fin (rpow x (a / 2 - 1) * exp (- x / 2) / (Rpower 2 (a / 2) * s_tgamma s (a / 2)))).
    { intros x Hx. unfold d. den0. cbn [xopp]. rewrite !fin_div by lra. cbn [xopp xadd xsub xexp lift1]. rewrite (fin_pow 2) by lra. rewrite xpow_rpow by lra. cbn [xmul]. rewrite fin_div by nra. rewrite (Rmult_comm (exp _)). reflexivity. }
    exists (a - 2). eexists. split; [unfold mode, d; cbn [d_kind p1 p2 xsub xopp xadd]; unfold xmax; destruct (Req_dec a 2) as [->|N]; [rewrite fin_ge by lra; f_equal; ring|rewrite fin_lt by lra; reflexivity]|]. split; [apply D; lra|]. assert (PG : 0 < Rpower 2 (a / 2) * s_tgamma s (a / 2)) by nra. pose proof (gamma_max (a / 2 - 1) 2) as GM. assert (E2 : (a / 2 - 1) * 2 = a - 2) by field. split.
    + apply Rdiv_lt_0_compat; [|exact PG]. apply Rmult_lt_0_compat; [|apply exp_pos]. unfold rpow. destruct (Rlt_dec 0 (a - 2)); [apply exp_pos|]. destruct (Rlt_dec 0 (a / 2 - 1)); lra.
    + intros x y E. assert (Q0 : 0 <= rpow (a - 2) (a / 2 - 1) * exp (- (a - 2) / 2) / (Rpower 2 (a / 2) * s_tgamma s (a / 2))) by (apply Rmult_le_pos; [apply Rmult_le_pos; [apply rpow_nonneg|left; apply exp_pos]|left; apply Rinv_0_lt_compat; exact PG]).
      destruct (inside_cases s d x y 0 E eq_refl) as [->|L]; [exact Q0|]. rewrite D in E by lra. injection E as <-. apply Rmult_le_compat_r; [left; apply Rinv_0_lt_compat; exact PG|]. specialize (GM x ltac:(lra) ltac:(lra) L). rewrite E2 in GM. exact GM.
  - pose proof (GP (a / 2) ltac:(lra)) as G1. pose proof (GP ((a + 1) / 2) ltac:(lra)) as G2. assert (SA : 0 < sqrt (a * PI)) by (apply sqrt_lt_R0; nra). set (d := Dist KT a b). assert (W : forall x, 0 <= x * x / a) by (intros x; pose proof (Rle_0_sqr x) as Q; unfold Rsqr in Q; apply Rmult_le_pos; [exact Q|left; apply Rinv_0_lt_compat; exact P]).
    assert (D : forall x, density s d x = Fin (s_tgamma s ((a + 1) / 2) * Rpower (1 + x * x / a) (- ((a + 1) / 2)) / (s_tgamma s (a / 2) * sqrt (a * PI)))).
    { intros x. specialize (W x). unfold d. den0. cbn [xmul xadd]. rewrite !fin_div by lra. cbn [xadd xopp lift1]. rewrite fin_pow by lra. rewrite fin_sqrt by nra. cbn [xmul]. rewrite fin_div by nra. reflexivity. }
    assert (PG : 0 < s_tgamma s (a / 2) * sqrt (a * PI)) by nra. exists 0. eexists. split; [reflexivity|]. split; [apply D|]. split; [apply Rdiv_lt_0_compat; [apply Rmult_lt_0_compat; [exact G2|apply exp_pos]|exact PG]|].
    intros x y E. rewrite D in E. injection E as <-. apply Rmult_le_compat_r; [left; apply Rinv_0_lt_compat; exact PG|]. apply Rmult_le_compat_l; [lra|]. unfold Rpower. apply exp_mono. replace (1 + 0 * 0 / a) with 1 by (field; lra). rewrite ln_1, Rmult_0_r. specialize (W x). assert (L : 0 <= ln (1 + x * x / a)) by (destruct W as [W|W]; [left; rewrite <- ln_1; apply ln_increasing; lra|rewrite <- W, Rplus_0_r, ln_1; lra]). nra.
  - set (d := Dist KExponential a b). assert (D : forall x, 0 <= x -> density s d x = Fin (a * exp (- a * x))) by (intros x Hx; unfold d; den0; reflexivity). exists 0. eexists. split; [reflexivity|]. split; [apply D; lra|]. split; [pose proof (exp_pos (- a * 0)); nra|]. intros x y E. destruct (inside_cases s d x y 0 E eq_refl) as [->|L]; [pose proof (exp_pos (- a * 0)); nra|].
    rewrite D in E by exact L. injection E as <-. apply Rmult_le_compat_l; [lra|]. apply exp_mono. nra.
  - set (d := Dist KLogNormal a b). assert (SB2 : 0 < sqrt_2pi * b) by nra. assert (D : forall x, 0 < x -> density s d x = Fin (exp (- (1 / 2) * ((ln x - a) / b) * ((ln x - a) / b) - ln x) / (sqrt_2pi * b))).
    { intros x Hx. unfold d. den0. rewrite fin_log by exact Hx. cbn [xsub xopp xadd]. rewrite fin_div by lra. cbn [xmul xexp]. rewrite fin_div by nra. f_equal. unfold Rminus. rewrite exp_plus, exp_Ropp, exp_ln by exact Hx. change (ln x + - a) with (ln x - a). field. repeat split; lra. }
    exists (exp (a - b * b)). eexists. split; [reflexivity|]. split; [apply D; apply exp_pos|]. split; [apply Rdiv_lt_0_compat; [apply exp_pos|exact SB2]|]. intros x y E. assert (Q0 : 0 < exp (- (1 / 2) * ((ln (exp (a - b * b)) - a) / b) * ((ln (exp (a - b * b)) - a) / b) - ln (exp (a - b * b))) / (sqrt_2pi * b)) by (apply Rdiv_lt_0_compat; [apply exp_pos|exact SB2]).
    destruct (inside_cases s d x y 0 E eq_refl) as [->|L]; [lra|]. destruct (Req_dec x 0) as [->|N0].
    + exfalso. unfold d in E. revert E. den0. cbn [xlog]. destruct (Rlt_dec 0 0); [lra|]. cbn [xsub xopp xadd xdiv]. destruct (Rlt_dec b 0); [lra|]. replace (xmul (Fin (- (1 / 2))) NInf) with PInf by (cbn [xmul]; unfold xinf; destruct (Rlt_dec 0 (- - (1 / 2))); [reflexivity|lra]). cbn [xmul xexp]. cbn [xdiv]. destruct (Req_EM_T (0 * sqrt_2pi * b) 0); [|lra]. unfold xinf. destruct (Rlt_dec 0 0); [lra|]. discriminate.
    + rewrite D in E by lra. injection E as <-. apply Rmult_le_compat_r; [left; apply Rinv_0_lt_compat; exact SB2|]. apply exp_mono. rewrite ln_exp. set (u := ln x). replace ((a - b * b - a) / b) with (- b) by (field; lra). pose proof (Rle_0_sqr ((u - a) / b + b)) as Q. unfold Rsqr in Q. assert (EQ : ((u - a) / b + b) * ((u - a) / b + b) = (u - a) / b * ((u - a) / b) + 2 * (u - a) + b * b) by (field; lra). lra.
  - specialize (SB eq_refl). destruct P as [P1 P2]. set (d := Dist KF a b). set (B := s_beta s (a / 2) (b / 2)) in *.
    assert (D : forall x, 0 < x -> density s d x = Fin (exp (a / 2 * ln (a * x) + b / 2 * ln b - (a + b) / 2 * ln (a * x + b) - ln x) / B)).
    { intros x Hx. assert (AX : 0 < a * x) by nra. assert (P3 : 0 < Rpower (a * x + b) (a + b)) by apply exp_pos. unfold d. den0. cbn [xmul xadd]. rewrite !fin_pow by lra. rewrite !(fin_div _ 2) by lra. cbn [xmul lift2]. rewrite fin_div by lra. fold B.
      rewrite fin_sqrt by (apply Rlt_le, Rdiv_lt_0_compat; [apply Rmult_lt_0_compat; apply exp_pos|exact P3]). rewrite fin_div by nra. f_equal.
      assert (S1 : sqrt (Rpower (a * x) a * Rpower b b / Rpower (a * x + b) (a + b)) = exp (a / 2 * ln (a * x) + b / 2 * ln b - (a + b) / 2 * ln (a * x + b))).
      { apply sqrt_lem_1; [apply Rlt_le, Rdiv_lt_0_compat; [apply Rmult_lt_0_compat; apply exp_pos|exact P3]|left; apply exp_pos|]. change (Rpower (a * x) a * Rpower b b / Rpower (a * x + b) (a + b)) with (Rpower (a * x) a * Rpower b b * / Rpower (a * x + b) (a + b)). rewrite <- Rpower_Ropp. unfold Rpower. rewrite <- !exp_plus. f_equal. field. }
      rewrite S1. unfold Rminus. rewrite (exp_plus _ (- ln x)), exp_Ropp, exp_ln by exact Hx. field. split; lra. }
    set (m := (a - 2) * b / ((b + 2) * a)). assert (M0 : 0 < m) by (apply Rdiv_lt_0_compat; nra). exists m. eexists. split; [unfold mode, d; cbn [d_kind p1 p2]; rewrite fin_lt by lra; cbn [xsub xopp xadd xmul]; rewrite fin_div by nra; reflexivity|]. split; [apply D; exact M0|]. split; [apply Rdiv_lt_0_compat; [apply exp_pos|exact SB]|]. intros x y E.
    assert (Q0 : 0 < exp (a / 2 * ln (a * m) + b / 2 * ln b - (a + b) / 2 * ln (a * m + b) - ln m) / B) by (apply Rdiv_lt_0_compat; [apply exp_pos|exact SB]). destruct (inside_cases s d x y 0 E eq_refl) as [->|L]; [lra|]. destruct (Req_dec x 0) as [->|N0].
    + exfalso. revert E. unfold d. den0. cbn [xmul xadd]. rewrite Rmult_0_r. cbn [xpow]. destruct (Rlt_dec 0 0); [lra|]. destruct (Rlt_dec 0 a); [|lra]. destruct (Rlt_dec 0 b); [|lra]. destruct (Rlt_dec 0 (0 + b)); [|lra]. rewrite !(fin_div _ 2) by lra. cbn [xmul lift2]. assert (P3 : 0 < Rpower (0 + b) (a + b)) by apply exp_pos. rewrite fin_div by lra. rewrite fin_sqrt by (unfold Rdiv; rewrite !Rmult_0_l; lra). rewrite !Rmult_0_l. cbn [xdiv]. destruct (Req_EM_T 0 0); [|lra]. replace (sqrt (0 / Rpower (0 + b) (a + b))) with 0 by (unfold Rdiv; rewrite Rmult_0_l, sqrt_0; reflexivity). unfold xinf. destruct (Rlt_dec 0 0); [lra|]. discriminate.
    + rewrite D in E by lra. injection E as <-. apply Rmult_le_compat_r; [left; apply Rinv_0_lt_compat; exact SB|]. apply exp_mono. assert (X0 : 0 < x) by lra. pose proof (beta_log (a / 2 - 1) (b / 2 + 1) (a * x / (a * x + b)) ltac:(lra) ltac:(lra)) as BL. cbv zeta in BL.
      assert (ZZ : forall t, 0 < t -> 0 < a * t / (a * t + b) < 1 /\ ln (a * t / (a * t + b)) = ln a + ln t - ln (a * t + b) /\ ln (1 - a * t / (a * t + b)) = ln b - ln (a * t + b) /\ ln (a * t) = ln a + ln t).
      { intros t Ht. assert (AT : 0 < a * t) by nra. split; [split; [apply Rdiv_lt_0_compat; lra|apply (Rmult_lt_reg_r (a * t + b)); [lra|]; unfold Rdiv; rewrite Rmult_assoc, Rinv_l by lra; lra]|]. split; [rewrite ln_div by lra; rewrite ln_mult by assumption; reflexivity|]. split; [|apply ln_mult; assumption]. replace (1 - a * t / (a * t + b)) with (b / (a * t + b)) by (field; lra). apply ln_div; lra. }
      destruct (ZZ x X0) as (Z1 & Z2 & Z3 & Z4). destruct (ZZ m M0) as (Y1 & Y2 & Y3 & Y4). specialize (BL Z1). replace ((a / 2 - 1) / (a / 2 - 1 + (b / 2 + 1))) with (a * m / (a * m + b)) in BL by (unfold m; field; repeat split; nra). rewrite Z2, Z3, Y2, Y3 in BL. rewrite Z4, Y4. lra.
  - destruct P as [P1 P2]. pose proof (GP a P1) as G1. pose proof (power_pos b (- a)) as PW. set (d := Dist KGamma a b). assert (D : forall x, 0 <= x -> density s d x = Fin (rpow x (a - 1) * exp (- x / b) * (Rpower b (- a) / s_tgamma s a))).
    { intros x Hx. unfold d. den0. cbn [xopp xadd xsub]. rewrite (fin_pow b) by lra. rewrite xpow_rpow by lra. rewrite (fin_div _ b) by lra. cbn [xmul xexp lift1]. rewrite fin_div by lra. f_equal. unfold Rminus. field. lra. }
    assert (PG : 0 < Rpower b (- a) / s_tgamma s a) by (apply Rdiv_lt_0_compat; assumption). exists ((a - 1) * b). eexists. split; [unfold mode, d; cbn [d_kind p1 p2]; rewrite fin_le by lra; reflexivity|]. assert (M0 : 0 <= (a - 1) * b) by nra. split; [apply D; exact M0|]. split.
    + apply Rmult_lt_0_compat; [|exact PG]. apply Rmult_lt_0_compat; [|apply exp_pos]. unfold rpow. destruct (Rlt_dec 0 ((a - 1) * b)); [apply exp_pos|]. destruct (Rlt_dec 0 (a - 1)); nra.
    + intros x y E. destruct (inside_cases s d x y 0 E eq_refl) as [->|L]; [apply Rmult_le_pos; [apply Rmult_le_pos; [apply rpow_nonneg|left; apply exp_pos]|lra]|]. rewrite D in E by exact L. injection E as <-. apply Rmult_le_compat_r; [lra|]. apply gamma_max; lra.
  - destruct P as [P1 P2]. pose proof (GP a P1) as G1. pose proof (GP b P2) as G2. pose proof (GP (a + b) ltac:(lra)) as G3. assert (G12 : 0 < s_tgamma s a * s_tgamma s b) by nra. set (d := Dist KBeta a b). set (c := s_tgamma s (a + b) / (s_tgamma s a * s_tgamma s b)). assert (C0 : 0 < c) by (apply Rdiv_lt_0_compat; lra).
    assert (D : forall x, 0 <= x <= 1 -> density s d x = Fin (c * (rpow x (a - 1) * rpow (1 - x) (b - 1)))).
    { intros x Hx. unfold d. den0. cbn [xopp xadd xsub lift1 xmul]. rewrite fin_div by lra. rewrite !xpow_rpow by lra. cbn [xmul]. fold c. f_equal. apply Rmult_assoc. }
    assert (Fin0 : forall m, 0 <= m <= 1 -> mode d = Fin m -> 0 < rpow m (a - 1) * rpow (1 - m) (b - 1) -> (forall x, 0 <= x <= 1 -> rpow x (a - 1) * rpow (1 - x) (b - 1) <= rpow m (a - 1) * rpow (1 - m) (b - 1)) -> exists m M, mode d = Fin m /\ density s d m = Fin M /\ 0 < M /\ (forall x y, density s d x = Fin y -> y <= M)).
    { intros m Hm Em Pm Le. exists m. eexists. split; [exact Em|]. split; [apply D; exact Hm|]. split; [nra|]. intros x y E. destruct (inside_cases s d x y 0 E eq_refl) as [->|L]; [nra|]. destruct (above_cases s d x y 1 E eq_refl) as [->|L2]; [nra|]. rewrite D in E by lra. injection E as <-. apply Rmult_le_compat_l; [lra|]. apply Le. lra. }
    destruct U as [Ua Ub]. destruct (Req_dec a 1) as [Ea|Na]; [destruct (Req_dec b 1) as [Eb|Nb]|].
    + apply (Fin0 (1 / 2)); [lra|unfold mode, d; cbn [d_kind p1 p2]; cbv zeta; rewrite !fin_eq by assumption; reflexivity| |]; intros; rewrite Ea, Eb; replace (1 - 1) with 0 by ring; rewrite !rpow_0; lra.
    + apply (Fin0 0); [lra|unfold mode, d; cbn [d_kind p1 p2]; cbv zeta; rewrite fin_eq, fin_ne by assumption; cbn [andb]; rewrite fin_le, fin_lt by lra; reflexivity| |]; intros; rewrite Ea; replace (1 - 1) with 0 by ring; rewrite Rminus_0_r, !rpow_0, rpow_1; [lra|]. pose proof (rpow_le1 (1 - x) (b - 1) ltac:(lra) ltac:(lra)). lra.
    + assert (Mo : mode d = Fin ((a - 1) / (a + b - 2))). { unfold mode, d. cbn [d_kind p1 p2]. cbv zeta. rewrite (fin_ne a 1) by assumption. cbn [andb]. rewrite (fin_gt a 1) by lra. cbn [andb]. rewrite (fin_gt b 0) by lra. rewrite Bool.andb_false_r. rewrite (fin_ge a 1) by lra. cbn [andb xsub xopp xadd]. rewrite fin_div by lra. reflexivity. }
      destruct (Req_dec b 1) as [Eb|Nb].
      * replace ((a - 1) / (a + b - 2)) with 1 in Mo by (rewrite Eb; field; lra). apply (Fin0 1); [lra|exact Mo| |]; intros; rewrite Eb; replace (1 - 1) with 0 by ring; rewrite !rpow_0, rpow_1; [lra|]. pose proof (rpow_le1 x (a - 1) ltac:(lra) ltac:(lra)). lra.
      * pose proof (beta_max (a - 1) (b - 1)) as BM. replace (a - 1 + (b - 1)) with (a + b - 2) in BM by ring. assert (Mr : 0 < (a - 1) / (a + b - 2) < 1) by (split; [apply Rdiv_lt_0_compat; lra|apply (Rmult_lt_reg_r (a + b - 2)); [lra|]; unfold Rdiv; rewrite Rmult_assoc, Rinv_l by lra; lra]).
        apply (Fin0 ((a - 1) / (a + b - 2))); [lra|exact Mo| |intros x Hx; apply BM; lra]. unfold rpow. destruct (Rlt_dec 0 ((a - 1) / (a + b - 2))); [|lra]. destruct (Rlt_dec 0 (1 - (a - 1) / (a + b - 2))); [|lra]. apply Rmult_lt_0_compat; apply exp_pos.
Qed.
Print Assumptions c121_continuous.
(** ** Discrete distributions *)
Lemma peak (f : nat -> R) m : (forall k, (k < m)%nat -> f k <= f (S k)) -> (forall k, (m <= k)%nat -> f (S k) <= f k) -> forall k, f k <= f m.
Proof.
  intros U D k. destruct (le_gt_dec k m) as [L|L].
  - assert (K : forall j, (j <= m - k)%nat -> f k <= f (k + j)%nat).
    { induction j as [|j IH]; intros Hj; [rewrite Nat.add_0_r; lra|]. rewrite Nat.add_succ_r. apply Rle_trans with (1 := IH ltac:(lia)). apply U. lia. }
    specialize (K (m - k)%nat ltac:(lia)). replace (k + (m - k))%nat with m in K by lia. exact K.
  - assert (K : forall j, f (m + j)%nat <= f m).
    { induction j as [|j IH]; [rewrite Nat.add_0_r; lra|]. rewrite Nat.add_succ_r. apply Rle_trans with (2 := IH). apply D. lia. }
    specialize (K (k - m)%nat). replace (m + (k - m))%nat with k in K by lia. exact K.
Qed.
Lemma floor_nat_of x : 0 <= x -> exists m, Int_part x = Z.of_nat m /\ INR m <= x < INR m + 1.
Proof.
  intros H. destruct (base_Int_part x) as [H1 H2]. assert (H0 : (0 <= Int_part x)%Z) by (assert (H3 : -1 < IZR (Int_part x)) by lra; apply lt_IZR in H3; lia). exists (Z.to_nat (Int_part x)). rewrite Z2Nat.id by exact H0. split; [reflexivity|]. rewrite INR_IZR_INZ, Z2Nat.id by exact H0. lra.
Qed.
Lemma pois_step l k : 0 < l -> pois l (S k) * INR (S k) = pois l k * l.
Proof. intros H. unfold pois. cbn [pow]. rewrite fact_simpl, mult_INR. pose proof (INR_fact_lt_0 k). pose proof (lt_0_INR (S k) ltac:(lia)). field. lra. Qed.
Lemma bino_step n p k : (k < n)%nat -> bino n p (S k) * (INR (S k) * (1 - p)) = bino n p k * (INR (n - k) * p).
Proof.
  intros L. unfold bino. rewrite (proj2 (Nat.leb_le (S k) n)) by lia. rewrite (proj2 (Nat.leb_le k n)) by lia. unfold Binomial.C. replace (n - k)%nat with (S (n - S k)) by lia. cbn [pow]. rewrite !(fact_simpl), !mult_INR. pose proof (INR_fact_lt_0 k). pose proof (INR_fact_lt_0 (n - S k)). pose proof (lt_0_INR (S k) ltac:(lia)). pose proof (lt_0_INR (S (n - S k)) ltac:(lia)). field. repeat split; lra.
Qed.
Theorem c121_discrete (s : special) (d : dist) : ordinary d -> d_kind d <> KUniformDis -> gamma_function (s_tgamma s) -> log_gamma (s_lgamma s) (s_tgamma s) ->
  exists m M, mode d = Fin (INR m) /\ density s d (INR m) = Fin M /\ 0 < M /\ (forall k, exists y, density s d (INR k) = Fin y /\ y <= M).
Proof.
  intros O N GF LG. assert (F : forall (pm : nat -> R) m, (forall k, density s d (INR k) = Fin (pm k)) -> mode d = Fin (INR m) -> 0 < pm m -> (forall k, pm k <= pm m) -> exists m M, mode d = Fin (INR m) /\ density s d (INR m) = Fin M /\ 0 < M /\ (forall k, exists y, density s d (INR k) = Fin y /\ y <= M)).
  { intros pm m D E P L. exists m, (pm m). split; [exact E|]. split; [apply D|]. split; [exact P|]. intros k. exists (pm k). auto. }
  destruct d as [kd a b]. unfold ordinary in O. cbn [d_kind p1 p2] in *. destruct kd; try contradiction.
  - pose proof (fun k => bernoulli_density s (Dist KBernoulli a b) k eq_refl) as D. cbn [p1] in D. assert (B0 : bino 1 a 0 = 1 - a) by (unfold bino, Binomial.C; cbn; field). assert (B1 : bino 1 a 1 = a) by (unfold bino, Binomial.C; cbn; field). assert (B2 : forall k, bino 1 a (S (S k)) = 0) by (intros; reflexivity).
    destruct (Rle_lt_dec a (1 / 2)) as [L|L].
    + apply (F (bino 1 a) 0%nat D); [|rewrite B0; lra|intros [|[|k]]; rewrite ?B0, ?B1, ?B2; lra]. unfold mode. cbn [d_kind p1]. cbv zeta. destruct (Rlt_dec a (1 / 2)); [rewrite fin_lt by assumption; reflexivity|]. rewrite !fin_ge by lra. reflexivity.
    + apply (F (bino 1 a) 1%nat D); [|rewrite B1; lra|intros [|[|k]]; rewrite ?B0, ?B1, ?B2; lra]. unfold mode. cbn [d_kind p1]. cbv zeta. rewrite fin_ge by lra. rewrite fin_lt by lra. reflexivity.
  - pose proof (fun k => poisson_density s (Dist KPoisson a b) k eq_refl O GF LG) as D. cbn [p1] in D. destruct (floor_nat_of a ltac:(lra)) as (m & Em & Bm). assert (Q : forall k, 0 < pois a k) by (intros; unfold pois; apply Rmult_lt_0_compat; [apply exp_pos|]; apply Rdiv_lt_0_compat; [apply pow_lt; exact O|apply INR_fact_lt_0]).
    apply (F (pois a) m D); [unfold mode; cbn [d_kind p1 xfloor]; rewrite Em, <- INR_IZR_INZ; reflexivity|apply Q|]. apply peak; intros k Hk; pose proof (pois_step a k O) as St; pose proof (Q k); pose proof (Q (S k)).
    + assert (INR (S k) <= INR m) by (apply le_INR; lia). pose proof (lt_0_INR (S k) ltac:(lia)). apply (Rmult_le_reg_r a); [exact O|]. rewrite <- St. apply Rmult_le_compat_l; lra.
    + apply le_INR in Hk. rewrite S_INR in St. apply (Rmult_le_reg_r (INR k + 1)); [pose proof (pos_INR k); lra|]. rewrite St. apply Rmult_le_compat_l; lra.
  - pose proof (fun k => geometric_density s (Dist KGeometric a b) k eq_refl ltac:(cbn; lra)) as D. cbn [p1] in D. apply (F (geo a) 0%nat D); [reflexivity|unfold geo; cbn; lra|]. apply peak; [lia|]. intros k _. unfold geo. cbn [pow]. assert (0 < (1 - a) ^ k) by (apply pow_lt; lra). nra.
  - destruct O as (Pa & Ib & Pb). destruct (integer_nat 0 b) as (n & En); [exists 0%Z; reflexivity|exact Ib|lra|]. rewrite Rplus_0_l in En. pose proof (fun k => binomial_density s (Dist KBinomial a b) n k eq_refl En ltac:(cbn; lra)) as D. cbn [p1] in D. subst b. pose proof (pos_INR n) as Pn.
    destruct (floor_nat_of ((INR n + 1) * a) ltac:(nra)) as (m & Em & Bm). assert (Mn : (m <= n)%nat) by (assert (H : INR m < INR (S n)) by (rewrite S_INR; nra); apply INR_lt in H; lia).
    assert (Q : forall k, (k <= n)%nat -> 0 < bino n a k) by (intros k Hk; unfold bino; rewrite (proj2 (Nat.leb_le k n)) by exact Hk; apply Rmult_lt_0_compat; [apply Rmult_lt_0_compat; [apply C_pos|apply pow_lt; lra]|apply pow_lt; lra]).
    apply (F (bino n a) m D); [unfold mode; cbn [d_kind p1 p2 xadd xmul xfloor]; rewrite Em, <- INR_IZR_INZ; reflexivity|apply Q; exact Mn|]. apply peak; intros k Hk.
    + pose proof (bino_step n a k ltac:(lia)) as St. pose proof (Q k ltac:(lia)). assert (INR (S k) <= INR m) by (apply le_INR; lia). pose proof (lt_0_INR (S k) ltac:(lia)). rewrite minus_INR in St by lia. apply (Rmult_le_reg_r (INR (S k) * (1 - a))); [nra|]. rewrite St. apply Rmult_le_compat_l; [lra|]. rewrite S_INR in *. nra.
    + destruct (le_lt_dec n k) as [L|L]; [assert (Z : bino n a (S k) = 0) by (unfold bino; rewrite (proj2 (Nat.leb_gt (S k) n)) by lia; reflexivity); rewrite Z; apply bino_pos; lra|]. pose proof (bino_step n a k L) as St. pose proof (Q k ltac:(lia)). apply le_INR in Hk. pose proof (lt_0_INR (S k) ltac:(lia)). rewrite minus_INR in St by lia. apply (Rmult_le_reg_r (INR (S k) * (1 - a))); [nra|]. rewrite St. apply Rmult_le_compat_l; [lra|]. rewrite S_INR in *. nra.
Qed.
Print Assumptions c121_discrete.
(** Beta with parameters 2 and 1/2: the mode is 2, greater than the maximum; with 1 and 1/2 it is 0, where the density is less than at 1/2. *)
Theorem c121_beta_refuted (s : special) : gamma_function (s_tgamma s) -> (exists d, dist_new KBeta 2 (1 / 2) = Ok d /\ mode d = Fin 2 /\ maximum d = Fin 1) /\
  (exists d y z, dist_new KBeta 1 (1 / 2) = Ok d /\ mode d = Fin 0 /\ density s d 0 = Fin y /\ density s d (1 / 2) = Fin z /\ y < z).
Proof.
  intros (_ & _ & GP). pose proof (GP 1 ltac:(lra)) as G1. pose proof (GP (1 / 2) ltac:(lra)) as G2. pose proof (GP (1 + 1 / 2) ltac:(lra)) as G3. split.
  - exists (Dist KBeta 2 (1 / 2)). split; [unfold dist_new; rewrite !fin_gt by lra; reflexivity|]. split; [|reflexivity]. unfold mode. cbn [d_kind p1 p2]. cbv zeta. rewrite (fin_ne 2 1) by lra. cbn [andb]. rewrite (fin_gt 2 1) by lra. cbn [andb]. rewrite (fin_gt (1 / 2) 0) by lra. rewrite Bool.andb_false_r. rewrite (fin_ge 2 1) by lra. cbn [andb xsub xopp xadd]. rewrite fin_div by lra. f_equal. field.
  - set (c := s_tgamma s (1 + 1 / 2) / (s_tgamma s 1 * s_tgamma s (1 / 2))). assert (G12 : 0 < s_tgamma s 1 * s_tgamma s (1 / 2)) by nra. assert (C0 : 0 < c) by (apply Rdiv_lt_0_compat; lra). exists (Dist KBeta 1 (1 / 2)), (c * 1 * Rpower (1 + - 0) (1 / 2 + - (1))), (c * Rpower (1 / 2) (1 + - (1)) * Rpower (1 + - (1 / 2)) (1 / 2 + - (1))). split; [unfold dist_new; rewrite !fin_gt by lra; reflexivity|]. split; [|split; [|split]].
    + unfold mode. cbn [d_kind p1 p2]. cbv zeta. rewrite fin_eq by reflexivity. rewrite fin_ne by lra. cbn [andb]. rewrite fin_le by lra. rewrite fin_lt by lra. reflexivity.
    + den0. cbn [xopp xadd xsub lift1 xmul]. rewrite pow00. rewrite fin_pow by lra. rewrite fin_div by lra. reflexivity.
    + den0. cbn [xopp xadd xsub lift1 xmul]. rewrite !fin_pow by lra. rewrite fin_div by lra. reflexivity.
    + replace (1 + - (1)) with 0 by ring. rewrite Rpower_O by lra. rewrite Rmult_1_r. apply Rmult_lt_compat_l; [exact C0|]. unfold Rpower. apply exp_increasing. replace (1 + - 0) with 1 by ring. rewrite ln_1, Rmult_0_r. replace (1 + - (1 / 2)) with (1 / 2) by field. assert (ln (1 / 2) < 0) by (rewrite <- ln_1; apply ln_increasing; lra). nra.
Qed.
Print Assumptions c121_beta_refuted.
(** Success probability 1: the mode is greater than the number of trials. *)
Theorem c121_binomial_refuted (n : nat) : exists d, dist_new KBinomial 1 (INR n) = Ok d /\ mode d = Fin (INR n + 1) /\ maximum d = Fin (INR n).
Proof.
  exists (Dist KBinomial 1 (INR n)). pose proof (pos_INR n). split; [unfold dist_new; rewrite !fin_ge by lra; reflexivity|]. split; [|reflexivity]. unfold mode. cbn [d_kind p1 p2 xadd xmul xfloor]. rewrite (int_part_eq _ (Z.of_nat n + 1)); rewrite ?plus_IZR, <- ?INR_IZR_INZ; [reflexivity|lra].
Qed.
Print Assumptions c121_binomial_refuted.
Example c121_case : unimodal (Dist KBeta 2 3) /\ proper (Dist KBeta 2 3) /\ mode (Dist KBeta 2 3) = Fin (1 / 3) /\ ordinary (Dist KPoisson (5 / 2) 0) /\ mode (Dist KPoisson (5 / 2) 0) = Fin 2 /\ gamma_function (s_tgamma some_special) /\ log_gamma (s_lgamma some_special) (s_tgamma some_special).
Proof.
  split; [cbn; lra|]. split; [cbn; lra|]. split; [|split; [cbn; lra|split; [|split; [exact gam_ok|intros x _; reflexivity]]]].
  - unfold mode. cbn [d_kind p1 p2]. cbv zeta. rewrite (fin_ne 2 1) by lra. cbn [andb]. rewrite (fin_gt 2 1) by lra. cbn [andb]. rewrite (fin_gt 3 0) by lra. rewrite Bool.andb_false_r. rewrite (fin_ge 2 1) by lra. cbn [andb xsub xopp xadd]. rewrite fin_div by lra. f_equal. field.
  - unfold mode. cbn [d_kind p1 xfloor]. rewrite (int_part_eq _ 2) by lra. reflexivity.
Qed.
