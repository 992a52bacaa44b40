(** Normal, log-normal, beta, F and t distributions. *)
From Coq Require Import Reals Lra Lia.
From Coquelicot Require Import Coquelicot.
From Verif Require Import UdModel UdSpec UdSpec2 UdProofs2 UdProofs3 UdProofs4 UdProofs5.
Local Open Scope R_scope.

Lemma derive_eq (f : R -> R) (x l l' : R) : is_derive f x l -> l = l' -> is_derive f x l'.
Proof. intros H <-. exact H. Qed.
Lemma line_low a k : 0 < k -> filterlim (fun y => (a - y) / k) (Rbar_locally m_infty) (Rbar_locally p_infty).
Proof.
  intros K P [M HM]. exists (a - M * k). intros y Hy. apply HM. apply (Rmult_lt_reg_r k); [exact K|]. unfold Rdiv. rewrite Rmult_assoc, Rinv_l by lra. lra.
Qed.
Lemma line_high a k : 0 < k -> filterlim (fun y => (a - y) / k) (Rbar_locally p_infty) (Rbar_locally m_infty).
Proof.
  intros K P [M HM]. exists (a - M * k). intros y Hy. apply HM. apply (Rmult_lt_reg_r k); [exact K|]. unfold Rdiv. rewrite Rmult_assoc, Rinv_l by lra. lra.
Qed.
Lemma half_lim (g : R -> R) (F : (R -> Prop) -> Prop) {FF : Filter F} (a : R) : filterlim g F (locally a) -> filterlim (fun t => 1 / 2 * g t) F (locally (1 / 2 * a)).
Proof. intros H. apply (filterlim_comp _ _ _ g (fun y => 1 / 2 * y) F (locally a)); [exact H|]. apply (filterlim_scal_r (1 / 2) a). Qed.
Definition gauss (a b y : R) : R := exp (- (1 / 2) * ((y - a) / b) * ((y - a) / b)) / (sqrt_2pi * b).
Lemma sqrt_2pi_eq : sqrt_2pi = sqrt 2 * sqrt PI.
Proof. unfold sqrt_2pi. apply sqrt_mult; [lra|left; apply PI_RGT_0]. Qed.
Lemma sqrt2_pos : 0 < sqrt 2. Proof. apply sqrt_lt_R0. lra. Qed.
Lemma sqrtpi_pos : 0 < sqrt PI. Proof. apply sqrt_lt_R0. apply PI_RGT_0. Qed.
Lemma gauss_pos a b y : 0 < b -> 0 < gauss a b y.
Proof. intros B. unfold gauss. rewrite sqrt_2pi_eq. pose proof sqrt2_pos. pose proof sqrtpi_pos. apply Rdiv_lt_0_compat; [apply exp_pos|]. apply Rmult_lt_0_compat; [|exact B]. apply Rmult_lt_0_compat; auto. Qed.
Lemma gauss_derive E a b (y : R) : error_function E -> 0 < b -> is_derive (fun t => 1 / 2 * E ((a - t) / (b * sqrt 2))) y (gauss a b y).
Proof.
  intros (D & _) B. pose proof sqrt2_pos as S2. pose proof sqrtpi_pos as SP. assert (K : b * sqrt 2 <> 0) by nra.
  assert (D1 : is_derive (fun t => (a - t) / (b * sqrt 2)) y (- / (b * sqrt 2))) by (auto_derive; [trivial|field; lra]).
  pose proof (is_derive_comp E (fun t => (a - t) / (b * sqrt 2)) y _ _ (D _) D1) as D2. pose proof (is_derive_scal _ y (1 / 2) _ D2) as D3.
  replace (gauss a b y) with (1 / 2 * scal (- / (b * sqrt 2)) (- (2 / sqrt PI) * exp (- ((a - y) / (b * sqrt 2)) ^ 2))); [exact D3|].
  unfold scal. cbn [Ring.sort]. unfold mult. cbn. unfold gauss. rewrite sqrt_2pi_eq. replace (- ((a - y) / (b * sqrt 2) * ((a - y) / (b * sqrt 2) * 1))) with (- (1 / 2) * ((y - a) / b) * ((y - a) / b)); [field; repeat split; lra|].
  replace ((a - y) / (b * sqrt 2) * ((a - y) / (b * sqrt 2) * 1)) with ((a - y) * (a - y) / (b * b * (sqrt 2 * sqrt 2))) by (field; lra). rewrite sqrt_sqrt by lra. field. lra.
Qed.
Lemma gauss_limits E a b : error_function E -> 0 < b -> is_lim (fun t => 1 / 2 * E ((a - t) / (b * sqrt 2))) m_infty 0 /\ is_lim (fun t => 1 / 2 * E ((a - t) / (b * sqrt 2))) p_infty 1.
Proof.
  intros (_ & L2 & L0) B. assert (K : 0 < b * sqrt 2) by (apply Rmult_lt_0_compat; [exact B|apply sqrt2_pos]). split.
  - replace 0 with (1 / 2 * 0) by ring. unfold is_lim. apply (half_lim (fun t => E ((a - t) / (b * sqrt 2)))); [apply filter_filter|]. apply (filterlim_comp _ _ _ (fun t => (a - t) / (b * sqrt 2)) E _ (Rbar_locally p_infty)); [apply line_low; exact K|exact L0].
  - replace (Finite 1) with (Finite (1 / 2 * 2)) by (f_equal; field). unfold is_lim. apply (half_lim (fun t => E ((a - t) / (b * sqrt 2)))); [apply filter_filter|]. apply (filterlim_comp _ _ _ (fun t => (a - t) / (b * sqrt 2)) E _ (Rbar_locally m_infty)); [apply line_high; exact K|exact L2].
Qed.
Lemma normal_good s a b : 0 < b -> error_function (s_erfc s) -> good s (Dist KNormal a b) m_infty p_infty (gauss a b).
Proof.
  intros B E. pose proof sqrt2_pos as S2. pose proof sqrtpi_pos as SP. assert (K : b * sqrt 2 <> 0) by nra. set (d := Dist KNormal a b).
  assert (C0 : forall x, cdf s d (Fin x) = Fin (1 / 2 * s_erfc s ((a - x) / (b * sqrt 2)))) by (intros x; unfold d; cdf0; cbn [xopp xadd xsub xmul]; rewrite fin_div by exact K; reflexivity).
  destruct (gauss_limits (s_erfc s) a b E B) as [L0 L1]. split; [reflexivity|]. split; [reflexivity|]. split; [exact Logic.I|]. split; [|split; [|split; [|split; [|split]]]].
  - intros x _. split; [|split; [apply gauss_pos; exact B|]].
    + unfold d. den0. cbn [xopp xadd xsub]. rewrite (fin_div _ b) by lra. cbn [xopp xadd xsub xmul xexp]. rewrite fin_div by (rewrite sqrt_2pi_eq; assert (0 < sqrt 2 * sqrt PI) by (apply Rmult_lt_0_compat; assumption); nra). reflexivity.
    + apply (is_derive_ext (fun t => 1 / 2 * s_erfc s ((a - t) / (b * sqrt 2)))); [intros t; unfold dfun; rewrite C0; reflexivity|]. apply gauss_derive; auto.
  - intros x. eexists. apply C0.
  - intros x [].
  - intros x [].
  - apply (filterlim_ext (fun t => 1 / 2 * s_erfc s ((a - t) / (b * sqrt 2)))); [intros t; unfold dfun; rewrite C0; reflexivity|exact L0].
  - apply (filterlim_ext (fun t => 1 / 2 * s_erfc s ((a - t) / (b * sqrt 2)))); [intros t; unfold dfun; rewrite C0; reflexivity|exact L1].
Qed.
Lemma lognormal_good s a b : 0 < b -> error_function (s_erfc s) -> good s (Dist KLogNormal a b) 0 p_infty (fun x => gauss a b (ln x) / x).
Proof.
  intros B E. pose proof sqrt2_pos as S2. pose proof sqrtpi_pos as SP. assert (K : b * sqrt 2 <> 0) by nra. destruct (gauss_limits (s_erfc s) a b E B) as [L0 L1].
  apply (positive_good s _ (fun t => 1 / 2 * s_erfc s ((a - ln t) / (b * sqrt 2)))); try reflexivity.
  - intros x Hx. den0. rewrite fin_log by exact Hx. cbn [xopp xadd xsub]. rewrite (fin_div _ b) by lra. cbn [xopp xadd xsub xmul xexp].
    assert (P2 : 0 < sqrt_2pi) by (rewrite sqrt_2pi_eq; apply Rmult_lt_0_compat; auto). assert (0 < x * sqrt_2pi) by (apply Rmult_lt_0_compat; auto). rewrite fin_div by nra. f_equal. unfold gauss. unfold Rminus. field. repeat split; lra.
  - intros x Hx. apply Rdiv_lt_0_compat; [apply gauss_pos; exact B|exact Hx].
  - intros x Hx. assert (D1 : is_derive ln x (/ x)) by (auto_derive; [exact Hx|field; lra]). pose proof (is_derive_comp _ ln x _ _ (gauss_derive (s_erfc s) a b (ln x) E B) D1) as D2. cbv beta in D2.
    replace (gauss a b (ln x) / x) with (scal (/ x) (gauss a b (ln x))); [exact D2|]. unfold scal. cbn. unfold mult. cbn. unfold Rdiv. ring.
  - intros x Hx. cdf0. rewrite fin_log by exact Hx. cbn [xopp xadd xsub xmul]. rewrite fin_div by exact K. reflexivity.
  - cdf0. cbn [xlog]. destruct (Rlt_dec 0 0); [lra|]. cbn [xopp xadd xsub xmul]. cbn [xdiv]. destruct (Rlt_dec (b * sqrt 2) 0); [nra|]. cbn [xerfc xmul]. f_equal. ring.
  - apply (filterlim_comp _ _ _ ln (fun t => 1 / 2 * s_erfc s ((a - t) / (b * sqrt 2))) _ (Rbar_locally m_infty)); [exact is_lim_ln_0|exact L0].
  - apply (is_lim_comp (fun t => 1 / 2 * s_erfc s ((a - t) / (b * sqrt 2))) ln p_infty 1 p_infty); [exact L1|exact is_lim_ln_p|exists 0; intros; discriminate].
Qed.
(** ** Beta *)
Lemma beta_good s a b : 0 < a -> 0 < b -> 0 < s_tgamma s a -> 0 < s_tgamma s b -> 0 < s_tgamma s (a + b) -> incomplete_beta (s_ibeta s a b) a b (s_tgamma s a * s_tgamma s b / s_tgamma s (a + b)) ->
  good s (Dist KBeta a b) 0 1 (fun x => Rpower x (a - 1) * Rpower (1 - x) (b - 1) / (s_tgamma s a * s_tgamma s b / s_tgamma s (a + b))).
Proof.
  intros A B G1 G2 G3 (I0 & I1 & L0 & L1 & D). set (d := Dist KBeta a b). assert (E : forall x, 0 <= x <= 1 -> cdf s d (Fin x) = Fin (s_ibeta s a b x)) by (intros x Hx; unfold d; cdf0; reflexivity).
  assert (G12 : 0 < s_tgamma s a * s_tgamma s b) by (apply Rmult_lt_0_compat; auto).
  split; [reflexivity|]. split; [reflexivity|]. split; [cbn; lra|]. split; [|split; [|split; [|split; [|split]]]].
  - intros x [H1 H2]. cbn in H1, H2. split; [|split].
    + unfold d. den0. cbn [xopp xadd xsub lift1 xmul]. rewrite fin_div by lra. rewrite !fin_pow by lra. cbn [xmul]. f_equal. unfold Rminus. field. lra.
    + apply Rdiv_lt_0_compat; [apply Rmult_lt_0_compat; apply exp_pos|apply Rdiv_lt_0_compat; auto].
    + apply (is_derive_ext_loc (s_ibeta s a b)); [|apply D; lra]. apply (local_in 0 1); [lra|]. intros t Ht. unfold dfun. rewrite E by lra. reflexivity.
  - intros x. destruct (Rlt_dec x 0) as [K|K]; [rewrite (cdf_below s d 0 x eq_refl K); eexists; reflexivity|]. destruct (Rlt_dec 1 x) as [K2|K2]; [|rewrite E by lra; eexists; reflexivity].
    rewrite (cdf_above s d 1 x eq_refl); [eexists; reflexivity| |discriminate|exact K2]. intros l El. injection El as <-. lra.
  - intros x Hx. cbn in Hx. unfold dfun. destruct (Req_dec x 0) as [->|N]; [rewrite E by lra; cbn; exact I0|]. rewrite (cdf_below s d 0 x eq_refl) by lra. reflexivity.
  - intros x Hx. cbn in Hx. unfold dfun. destruct (Req_dec x 1) as [->|N]; [rewrite E by lra; cbn; exact I1|]. rewrite (cdf_above s d 1 x eq_refl); [reflexivity| |discriminate|lra]. intros l El. injection El as <-. lra.
  - cbn [toward_low]. apply (filterlim_ext_loc (s_ibeta s a b)); [apply (local_right 0 1); [lra|]; intros t Ht; unfold dfun; rewrite E by lra; reflexivity|exact L0].
  - cbn [toward_high]. apply (filterlim_ext_loc (s_ibeta s a b)); [apply (local_left 0 1); [lra|]; intros t Ht; unfold dfun; rewrite E by lra; reflexivity|exact L1].
Qed.
(** ** F *)
Lemma into_right (g : R -> R) (F : (R -> Prop) -> Prop) {FF : Filter F} (l : R) : filterlim g F (locally l) -> F (fun t => l < g t) -> filterlim g F (at_right l).
Proof. intros H K P [e He]. specialize (H (ball l e)). assert (HH : F (fun t => ball l e (g t))) by (apply H; apply locally_ball). unfold filtermap. generalize (filter_and _ _ HH K). apply filter_imp. intros t [A B]. apply He; assumption. Qed.
Lemma into_left (g : R -> R) (F : (R -> Prop) -> Prop) {FF : Filter F} (l : R) : filterlim g F (locally l) -> F (fun t => g t < l) -> filterlim g F (at_left l).
Proof. intros H K P [e He]. specialize (H (ball l e)). assert (HH : F (fun t => ball l e (g t))) by (apply H; apply locally_ball). unfold filtermap. generalize (filter_and _ _ HH K). apply filter_imp. intros t [A B]. apply He; assumption. Qed.
Lemma ratio_lim a b : 0 < a -> 0 < b -> is_lim (fun t => a * t / (a * t + b)) p_infty 1.
Proof.
  intros A B. apply (is_lim_ext_loc (fun t => 1 - b * / (a * t + b))); [exists 0; intros t Ht; field; nra|]. replace (Finite 1) with (Finite (1 - 0)) by (f_equal; ring). apply is_lim_minus'; [apply is_lim_const|].
  replace (Finite 0) with (Rbar_mult b 0) by (cbn; f_equal; ring). apply is_lim_scal_l. apply (is_lim_inv (fun t => a * t + b) p_infty p_infty); [|discriminate]. intros P [M HM]. exists ((M - b) / a). intros t Ht. apply HM.
  apply (Rmult_lt_compat_l a) in Ht; [|exact A]. replace (a * ((M - b) / a)) with (M - b) in Ht by (field; lra). lra.
Qed.
Lemma f_good s a b : 0 < a -> 0 < b -> 0 < s_beta s (a / 2) (b / 2) -> incomplete_beta (s_ibeta s (a / 2) (b / 2)) (a / 2) (b / 2) (s_beta s (a / 2) (b / 2)) ->
  good s (Dist KF a b) 0 p_infty (fun x => Rpower (a * x / (a * x + b)) (a / 2 - 1) * Rpower (1 - a * x / (a * x + b)) (b / 2 - 1) / s_beta s (a / 2) (b / 2) * (a * b / (a * x + b) ^ 2)).
Proof.
  intros A B G (I0 & I1 & L0 & L1 & D). set (c := s_beta s (a / 2) (b / 2)) in *. assert (Z : forall x, 0 < x -> 0 < a * x / (a * x + b) < 1).
  { intros x Hx. assert (P1 : 0 < a * x) by nra. split; [apply Rdiv_lt_0_compat; lra|]. apply (Rmult_lt_reg_r (a * x + b)); [lra|]. unfold Rdiv. rewrite Rmult_assoc, Rinv_l by lra. lra. }
  apply (positive_good s _ (fun x => s_ibeta s (a / 2) (b / 2) (a * x / (a * x + b)))); try reflexivity.
  - intros x Hx. assert (P1 : 0 < a * x) by nra. den0. cbn [xmul xadd]. rewrite !fin_pow by lra. rewrite !(fin_div _ 2) by lra. cbn [xmul lift2]. assert (P2 : 0 < Rpower (a * x + b) (a + b)) by apply exp_pos. rewrite fin_div by lra. fold c.
    rewrite fin_sqrt by (apply Rlt_le, Rdiv_lt_0_compat; [apply Rmult_lt_0_compat; apply exp_pos|exact P2]). rewrite fin_div by nra. f_equal.
    assert (S1 : sqrt (Rpower (a * x) a * Rpower b b / Rpower (a * x + b) (a + b)) = exp (a / 2 * ln (a * x) + b / 2 * ln b - (a + b) / 2 * ln (a * x + b))).
    { apply sqrt_lem_1; [apply Rlt_le, Rdiv_lt_0_compat; [apply Rmult_lt_0_compat; apply exp_pos|exact P2]|left; apply exp_pos|]. match goal with |- ?e = _ => transitivity e; [reflexivity|] end. change (Rpower (a * x) a * Rpower b b / Rpower (a * x + b) (a + b)) with (Rpower (a * x) a * Rpower b b * / Rpower (a * x + b) (a + b)). rewrite <- Rpower_Ropp. unfold Rpower. rewrite <- !exp_plus. f_equal. field. }
    rewrite S1. clear S1. assert (E1 : 1 - a * x / (a * x + b) = b / (a * x + b)) by (field; lra). rewrite E1. set (w := a * x + b) in *. assert (W : 0 < w) by (unfold w; lra).
    assert (Lz : ln (a * x / w) = ln (a * x) - ln w) by (unfold Rdiv; rewrite ln_mult, ln_Rinv by (auto using Rinv_0_lt_compat); ring). assert (Lb : ln (b / w) = ln b - ln w) by (unfold Rdiv; rewrite ln_mult, ln_Rinv by (auto using Rinv_0_lt_compat); ring).
    unfold Rpower. rewrite Lz, Lb. assert (E2 : exp (a / 2 * ln (a * x) + b / 2 * ln b - (a + b) / 2 * ln w) = exp ((a / 2 - 1) * (ln (a * x) - ln w)) * exp ((b / 2 - 1) * (ln b - ln w)) * (exp (ln (a * x)) * exp (ln b) * (exp (- ln w) * exp (- ln w)))).
    { rewrite <- !exp_plus. f_equal. field. }
    rewrite E2. rewrite !exp_Ropp, !exp_ln by assumption. field. repeat split; lra.
  - intros x Hx. apply Rmult_lt_0_compat; [apply Rdiv_lt_0_compat; [apply Rmult_lt_0_compat; apply exp_pos|exact G]|]. apply Rdiv_lt_0_compat; [nra|]. apply pow_lt. nra.
  - intros x Hx. specialize (Z x Hx). assert (P1 : 0 < a * x) by nra. assert (D1 : is_derive (fun t => a * t / (a * t + b)) x (a * b / (a * x + b) ^ 2)) by (auto_derive; [lra|field; lra]).
    pose proof (is_derive_comp _ (fun t => a * t / (a * t + b)) x _ _ (D _ Z) D1) as D2. cbv beta in D2. eapply derive_eq; [exact D2|]. unfold scal. cbn. unfold mult. cbn. ring.
  - intros x Hx. assert (P1 : 0 < a * x) by nra. cdf0. cbn [xmul xadd]. rewrite !fin_div by lra. reflexivity.
  - cdf0. cbn [xmul xadd]. rewrite !fin_div by lra. cbn [lift3]. replace (a * 0 / (a * 0 + b)) with 0 by (field; lra). rewrite I0. reflexivity.
  - apply (filterlim_comp _ _ _ (fun t => a * t / (a * t + b)) (s_ibeta s (a / 2) (b / 2)) _ (at_right 0)); [|exact L0]. apply into_right; [apply at_right_proper_filter| |apply (local_right 0 1); [lra|]; intros t Ht; apply Z; lra].
    replace 0 with (a * 0 / (a * 0 + b)) at 2 by (field; lra). apply (right_of (fun t => a * t / (a * t + b))). apply (ex_derive_continuous (fun t => a * t / (a * t + b))). auto_derive. lra.
  - unfold is_lim. apply (filterlim_comp _ _ _ (fun t => a * t / (a * t + b)) (s_ibeta s (a / 2) (b / 2)) _ (at_left 1)); [|exact L1]. apply into_left; [apply filter_filter|exact (ratio_lim a b A B)|]. exists 0. intros t Ht. apply Z. exact Ht.
Qed.
