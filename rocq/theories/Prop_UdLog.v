(** C119: logarithms of densities and probabilities. *)
From Coq Require Import Reals Lra Lia.
From Verif Require Import UdModel UdSpec UdProofs UdProofs2 UdProofs5 UdProofs6 Prop_UdMoments Prop_UdCont.
Local Open Scope R_scope.

Ltac log0 := unfold log_density, minimum, maximum; cbn [d_kind p1 p2]; cbv zeta; rewrite ?fin_ge by lra; cbn [orb xlt].
Lemma ln_power x y : ln (Rpower x y) = y * ln x.
Proof. unfold Rpower. apply ln_exp. Qed.
Lemma ln_div x y : 0 < x -> 0 < y -> ln (x / y) = ln x - ln y.
Proof. intros A B. unfold Rdiv. rewrite ln_mult, ln_Rinv by (auto using Rinv_0_lt_compat). ring. Qed.
Lemma ln_root x : 0 < x -> ln (sqrt x) = 1 / 2 * ln x.
Proof. intros H. rewrite <- Rpower_sqrt by exact H. rewrite ln_power. field. Qed.
Definition logs (s : special) (d : dist) (x : R) : Prop := exists y, density s d x = Fin y /\ 0 < y /\ log_density s d x = Fin (ln y).
Lemma power_pos x y : 0 < Rpower x y. Proof. apply exp_pos. Qed.
(** Between minimum and maximum the density is a positive number and the log density its logarithm. *)
Theorem c119_continuous (s : special) (d : dist) (x : R) : proper d -> gamma_function (s_tgamma s) -> log_gamma (s_lgamma s) (s_tgamma s) -> (d_kind d = KF -> 0 < s_beta s (p1 d / 2) (p2 d / 2)) -> xlt (minimum d) (Fin x) = true -> xlt (Fin x) (maximum d) = true ->
  exists y, density s d x = Fin y /\ 0 < y /\ log_density s d x = Fin (ln y).
Proof.
  intros P (_ & _ & GP) LG SB A B. destruct d as [k a b]. unfold proper in P. cbn [d_kind p1 p2] in *. unfold minimum, maximum in A, B. cbn [d_kind p1 p2] in *. pose proof sqrt2_pos as S2. pose proof sqrtpi_pos as SP. assert (S2P : 0 < sqrt_2pi) by (rewrite sqrt_2pi_eq; nra). pose proof PI_RGT_0 as PP.
  assert (X : forall l, xlt (Fin l) (Fin x) = true -> l < x) by (intros l H; cbn in H; destruct (Rlt_dec l x); [assumption|discriminate]). assert (Y : forall l, xlt (Fin x) (Fin l) = true -> x < l) by (intros l H; cbn in H; destruct (Rlt_dec x l); [assumption|discriminate]).
  destruct k; try contradiction; try (apply X in A); try (apply Y in B).
  - exists (1 / (b - a)). assert (D : density s (Dist KUniformCon a b) x = Fin (1 / (b - a))) by (den0; cbn [xsub xopp xadd]; rewrite fin_div by lra; reflexivity). split; [exact D|]. assert (Q : 0 < 1 / (b - a)) by (apply Rdiv_lt_0_compat; lra). split; [exact Q|].
    log0. rewrite D. apply fin_log. exact Q.
  - exists (exp (- (1 / 2) * ((x - a) / b) * ((x - a) / b)) / (sqrt_2pi * b)). split; [den0; cbn [xsub xopp xadd]; rewrite fin_div by lra; cbn [xmul xexp]; rewrite fin_div by nra; reflexivity|]. split; [apply Rdiv_lt_0_compat; [apply exp_pos|nra]|].
    log0. cbn [xsub xopp xadd]. rewrite fin_div by lra. rewrite fin_log by exact P. cbn [xmul xsub xopp xadd]. f_equal. rewrite ln_div by (try apply exp_pos; nra). rewrite ln_exp, ln_mult by assumption. unfold ln_sqrt_2pi. fold sqrt_2pi. unfold Rminus. ring.
  - pose proof (GP (a / 2) ltac:(lra)) as G1. exists (exp (- x / 2) * Rpower x (a / 2 - 1) / (Rpower 2 (a / 2) * s_tgamma s (a / 2))). pose proof (power_pos 2 (a / 2)) as PW. pose proof (power_pos x (a / 2 - 1)) as PX. pose proof (exp_pos (- x / 2)) as PE.
    split; [den0; cbn [xopp]; rewrite !fin_div by lra; cbn [xopp xadd xsub xexp lift1]; rewrite !fin_pow by lra; cbn [xmul]; rewrite fin_div by nra; reflexivity|]. split; [apply Rdiv_lt_0_compat; nra|].
    log0. cbn [xopp]. rewrite !fin_div by lra. rewrite !fin_log by lra. cbn [xmul xsub xopp xadd lift1]. f_equal. rewrite ln_div by nra. rewrite !ln_mult by assumption. rewrite !ln_power, ln_exp. rewrite LG by lra. unfold Rminus. ring.
  - pose proof (GP (a / 2) ltac:(lra)) as G1. pose proof (GP ((a + 1) / 2) ltac:(lra)) as G2. pose proof (Rle_0_sqr x) as Q. unfold Rsqr in Q. assert (W : 0 < 1 + x * x / a) by (assert (0 <= x * x / a) by (apply Rmult_le_pos; [exact Q|left; apply Rinv_0_lt_compat; exact P]); lra).
    pose proof (power_pos (1 + x * x / a) (- ((a + 1) / 2))) as PW. assert (AP : 0 < a * PI) by nra. assert (SA : 0 < sqrt (a * PI)) by (apply sqrt_lt_R0; exact AP).
    exists (s_tgamma s ((a + 1) / 2) * Rpower (1 + x * x / a) (- ((a + 1) / 2)) / (s_tgamma s (a / 2) * sqrt (a * PI))).
    split; [den0; cbn [xmul xadd]; rewrite !fin_div by lra; cbn [xadd xopp lift1]; rewrite fin_pow by lra; rewrite fin_sqrt by lra; cbn [xmul]; rewrite fin_div by nra; reflexivity|]. split; [apply Rdiv_lt_0_compat; nra|].
    log0. cbn [xmul xadd]. rewrite !fin_div by lra. cbn [xadd lift1]. rewrite !fin_log by lra. cbn [xmul xsub xopp xadd]. f_equal. rewrite ln_div by nra. rewrite !ln_mult by assumption. rewrite !ln_power, ln_root by exact AP. rewrite !LG by lra. rewrite !ln_mult by assumption. unfold Rminus. ring.
  - exists (a * exp (- a * x)). split; [den0; reflexivity|]. split; [pose proof (exp_pos (- a * x)); nra|]. log0. rewrite fin_ne by lra. rewrite fin_log by exact P. cbn [xmul xsub xopp xadd]. f_equal. rewrite ln_mult by (try apply exp_pos; exact P). rewrite ln_exp. ring.
  - exists (exp (- (1 / 2) * ((ln x - a) / b) * ((ln x - a) / b)) / (x * sqrt_2pi * b)). assert (X2 : 0 < x * sqrt_2pi) by nra. split; [den0; rewrite fin_log by exact A; cbn [xsub xopp xadd]; rewrite fin_div by lra; cbn [xmul xexp]; rewrite fin_div by nra; reflexivity|]. split; [apply Rdiv_lt_0_compat; [apply exp_pos|nra]|].
    log0. rewrite (fin_log x) by exact A. cbn [xsub xopp xadd]. rewrite fin_div by lra. cbn [xmul]. rewrite fin_log by nra. cbn [xmul xsub xopp xadd]. f_equal. rewrite ln_div by (try apply exp_pos; nra). rewrite ln_exp, !ln_mult by assumption. unfold ln_sqrt_2pi. fold sqrt_2pi. unfold Rminus. ring.
  - specialize (SB eq_refl). destruct P as [P1 P2]. assert (AX : 0 < a * x) by nra. exists (sqrt (Rpower (a * x) a * Rpower b b / Rpower (a * x + b) (a + b)) / (x * s_beta s (a / 2) (b / 2))). pose proof (power_pos (a * x) a). pose proof (power_pos b b). pose proof (power_pos (a * x + b) (a + b)).
    assert (Q0 : 0 < Rpower (a * x) a * Rpower b b / Rpower (a * x + b) (a + b)) by (apply Rdiv_lt_0_compat; nra). assert (Q : 0 < sqrt (Rpower (a * x) a * Rpower b b / Rpower (a * x + b) (a + b)) / (x * s_beta s (a / 2) (b / 2))) by (apply Rdiv_lt_0_compat; [apply sqrt_lt_R0; exact Q0|nra]).
    assert (D : density s (Dist KF a b) x = Fin (sqrt (Rpower (a * x) a * Rpower b b / Rpower (a * x + b) (a + b)) / (x * s_beta s (a / 2) (b / 2)))).
    { den0. cbn [xmul xadd]. rewrite !fin_pow by lra. rewrite !(fin_div _ 2) by lra. cbn [xmul lift2]. rewrite fin_div by lra. rewrite fin_sqrt by lra. rewrite fin_div by nra. reflexivity. }
    split; [exact D|]. split; [exact Q|]. log0. rewrite D. apply fin_log. exact Q.
  - destruct P as [P1 P2]. pose proof (GP a P1) as G1. exists (Rpower b (- a) * Rpower x (a - 1) * exp (- x / b) / s_tgamma s a). pose proof (power_pos b (- a)) as Q1. pose proof (power_pos x (a - 1)) as Q2. pose proof (exp_pos (- x / b)) as Q3. assert (Q4 : 0 < Rpower b (- a) * Rpower x (a - 1)) by nra.
    split; [den0; cbn [xopp xadd xsub]; rewrite !fin_pow by lra; rewrite (fin_div _ b) by lra; cbn [xmul xexp lift1]; rewrite fin_div by lra; reflexivity|]. split; [apply Rdiv_lt_0_compat; nra|].
    log0. rewrite !fin_log by lra. rewrite !fin_div by lra. cbn [xmul xsub xopp xadd lift1]. f_equal. rewrite ln_div by nra. rewrite !ln_mult by assumption. rewrite !ln_power, ln_exp. rewrite LG by lra. unfold Rminus, Rdiv. ring.
  - destruct P as [P1 P2]. pose proof (GP a P1) as G1. pose proof (GP b P2) as G2. pose proof (GP (a + b) ltac:(lra)) as G3. pose proof (power_pos x (a - 1)) as Q1. pose proof (power_pos (1 - x) (b - 1)) as Q2. assert (G12 : 0 < s_tgamma s a * s_tgamma s b) by nra. assert (Q3 : 0 < s_tgamma s (a + b) / (s_tgamma s a * s_tgamma s b)) by (apply Rdiv_lt_0_compat; lra). assert (Q4 : 0 < s_tgamma s (a + b) / (s_tgamma s a * s_tgamma s b) * Rpower x (a - 1)) by nra.
    exists (s_tgamma s (a + b) / (s_tgamma s a * s_tgamma s b) * Rpower x (a - 1) * Rpower (1 - x) (b - 1)). split; [den0; cbn [xopp xadd xsub lift1 xmul]; rewrite fin_div by lra; rewrite !fin_pow by lra; reflexivity|]. split; [nra|].
    log0. cbn [xmul xsub xopp xadd lift1]. rewrite !fin_log by lra. cbn [xmul xsub xopp xadd lift1]. f_equal. rewrite !ln_mult by assumption. rewrite ln_div by assumption. rewrite ln_mult by assumption. rewrite !ln_power. rewrite !LG by lra. unfold Rminus. ring.
Qed.
Print Assumptions c119_continuous.
Lemma C_n_0 n : Binomial.C n 0 = 1.
Proof. unfold Binomial.C. rewrite Nat.sub_0_r. cbn [fact INR]. field. apply INR_fact_neq_0. Qed.
Lemma C_n_n n : Binomial.C n n = 1.
Proof. unfold Binomial.C. rewrite Nat.sub_diag. cbn [fact INR]. field. apply INR_fact_neq_0. Qed.
(** Discrete distributions with more than one possible value: at the possible values (minimum, minimum + 1, ...) the log of the probability; minus infinity if it is 0. *)
Theorem c119_discrete (s : special) (d : dist) (lo : R) (k : nat) : ordinary d -> gamma_function (s_tgamma s) -> log_gamma (s_lgamma s) (s_tgamma s) -> minimum d = Fin lo ->
  exists y, density s d (lo + INR k) = Fin y /\ 0 <= y /\ (0 < y -> log_density s d (lo + INR k) = Fin (ln y)) /\ (y = 0 -> log_density s d (lo + INR k) = NInf).
Proof.
  intros O GF LG Mi. pose proof (pos_INR k) as K0. destruct d as [kd a b]. unfold ordinary in O. unfold minimum in Mi. cbn [d_kind p1 p2] in *. destruct kd; try contradiction; injection Mi as <-.
  - destruct O as (Ia & Ib & Lt). destruct (integer_nat a b Ia Ib ltac:(lra)) as (n & En). exists (unif n k). pose proof (uniform_density s (Dist KUniformDis a b) n k eq_refl En) as D. split; [exact D|]. unfold unif. destruct (Nat.leb_spec k n) as [L|L].
    + apply le_INR in L. assert (Q : 0 < / (INR n + 1)) by (apply Rinv_0_lt_compat; pose proof (pos_INR n); lra). split; [unfold Rdiv; lra|]. split; [intros _|unfold Rdiv; intros; lra]. log0. rewrite !fin_le by lra. cbn [andb xsub xopp xadd]. rewrite fin_log by lra. cbn [xopp]. f_equal. rewrite ln_Rinv by (pose proof (pos_INR n); lra). f_equal. f_equal. lra.
    + split; [lra|]. split; [lra|]. intros _. apply lt_INR in L. unfold log_density, minimum, maximum. cbn [d_kind p1 p2]. cbv zeta. rewrite (fin_ge (a + INR k)) by lra. rewrite fin_lt by lra. reflexivity.
  - replace (0 + INR k) with (INR k) by ring. exists (bino 1 a k). split; [apply (bernoulli_density s (Dist KBernoulli a b)); reflexivity|]. split; [apply bino_pos; lra|]. destruct k as [|[|k]].
    + unfold bino. cbn [Nat.leb]. rewrite C_n_0. cbn [INR pow Nat.sub]. replace (1 * 1 * ((1 - a) * 1)) with (1 - a) by ring. split; [|lra]. intros _. log0. rewrite fin_eq by reflexivity. cbn [xsub xopp xadd]. rewrite fin_log by lra. reflexivity.
    + unfold bino. cbn [Nat.leb]. rewrite C_n_n. cbn [INR pow Nat.sub]. replace (1 * (a * 1) * 1) with a by ring. split; [|lra]. intros _. log0. rewrite fin_ne by lra. rewrite fin_eq by reflexivity. rewrite fin_log by lra. reflexivity.
    + unfold bino. cbn [Nat.leb]. split; [lra|]. intros _. rewrite !S_INR in *. pose proof (pos_INR k). unfold log_density, minimum, maximum. cbn [d_kind p1 p2]. cbv zeta. rewrite (fin_ge (INR k + 1 + 1)) by lra. rewrite fin_lt by lra. reflexivity.
  - replace (0 + INR k) with (INR k) by ring. pose proof (poisson_density s (Dist KPoisson a b) k eq_refl O GF LG) as D. exists (pois a k). split; [exact D|]. assert (Q : 0 < pois a k) by (unfold pois; apply Rmult_lt_0_compat; [apply exp_pos|]; apply Rdiv_lt_0_compat; [apply pow_lt; exact O|apply INR_fact_lt_0]). split; [lra|]. split; [intros _|lra].
    revert D. den0. log0. rewrite fin_log by exact O. cbn [xmul xsub xopp xadd lift1 xexp]. intros D. injection D as D. f_equal. rewrite <- D. symmetry. apply ln_exp.
  - replace (0 + INR k) with (INR k) by ring. pose proof (geometric_density s (Dist KGeometric a b) k eq_refl ltac:(cbn; lra)) as D. exists (geo a k). split; [exact D|]. cbn [p1] in *. assert (Q : 0 < geo a k) by (unfold geo; apply Rmult_lt_0_compat; [apply pow_lt|]; lra). split; [lra|]. split; [intros _|lra].
    log0. cbn [xsub xopp xadd]. rewrite !fin_log by lra. cbn [xmul xadd]. f_equal. unfold geo. rewrite ln_mult by (try apply pow_lt; lra). rewrite <- Rpower_pow by lra. rewrite ln_power. reflexivity.
  - replace (0 + INR k) with (INR k) by ring. destruct O as (Pa & Ib & Pb). destruct (integer_nat 0 b) as (n & En); [exists 0%Z; reflexivity|exact Ib|lra|]. rewrite Rplus_0_l in En. pose proof (binomial_density s (Dist KBinomial a b) n k eq_refl En ltac:(cbn; lra)) as D. exists (bino n a k). split; [exact D|]. split; [apply bino_pos; cbn; lra|]. cbn [p1] in *. unfold bino. destruct (Nat.leb_spec k n) as [L|L].
    + pose proof (C_pos n k) as Cp. assert (P1 : 0 < a ^ k) by (apply pow_lt; lra). assert (P2 : 0 < (1 - a) ^ (n - k)) by (apply pow_lt; lra). assert (P3 : 0 < Binomial.C n k * a ^ k) by nra. split; [intros _|nra]. pose proof (le_INR _ _ L) as LR. subst b. unfold log_density, minimum, maximum. cbn [d_kind p1 p2]. cbv zeta. rewrite (fin_ge (INR k) 0) by lra. rewrite !(fin_ge (INR n)) by lra. cbn [orb lift2]. rewrite binom_nat. cbn [xsub xopp xadd]. rewrite !fin_log by lra. cbn [xmul xadd]. f_equal. rewrite !ln_mult by assumption. rewrite <- !Rpower_pow by lra. rewrite !ln_power. rewrite minus_INR by exact L. unfold Rminus. ring.
    + split; [lra|]. intros _. apply lt_INR in L. subst b. unfold log_density, minimum, maximum. cbn [d_kind p1 p2]. cbv zeta. rewrite (fin_ge (INR k)) by lra. rewrite fin_lt by lra. reflexivity.
Qed.
Print Assumptions c119_discrete.
(** At 0 the density of an exponential distribution is positive, the log density is minus infinity; for gamma with shape 1, chi-squared with 2 degrees of freedom and beta with first parameter 1 it is NaN. *)
Lemma nan_zero : xmul (Fin (1 + - (1))) (xlog (Fin 0)) = NaN.
Proof. cbn [xlog]. destruct (Rlt_dec 0 0); [lra|]. cbn [xmul]. unfold xinf. destruct (Rlt_dec 0 (- (1 + - (1)))); [lra|]. destruct (Rlt_dec (- (1 + - (1))) 0); [lra|]. reflexivity. Qed.
Lemma pow00 : xpow (Fin 0) (Fin (1 + - (1))) = Fin 1.
Proof. cbn [xpow]. destruct (Rlt_dec 0 0); [lra|]. destruct (Rlt_dec 0 (1 + - (1))); [lra|]. destruct (Rlt_dec (1 + - (1)) 0); [lra|]. reflexivity. Qed.
Theorem c119_zero_refuted (s : special) (a b : R) : 0 < a -> 0 < b -> 0 < s_tgamma s 1 ->
  (density s (Dist KExponential a 0) 0 = Fin a /\ log_density s (Dist KExponential a 0) 0 = NInf) /\
  (exists y, density s (Dist KGamma 1 b) 0 = Fin y /\ 0 < y /\ log_density s (Dist KGamma 1 b) 0 = NaN) /\
  (exists y, density s (Dist KChi2 2 0) 0 = Fin y /\ 0 < y /\ log_density s (Dist KChi2 2 0) 0 = NaN) /\
  (0 < s_tgamma s b -> 0 < s_tgamma s (1 + b) -> exists y, density s (Dist KBeta 1 b) 0 = Fin y /\ 0 < y /\ log_density s (Dist KBeta 1 b) 0 = NaN).
Proof.
  intros A B G1. assert (NN : forall x, xadd x NaN = NaN) by (intros []; reflexivity). assert (E22 : 2 / 2 = 1) by field. split; [|split; [|split]].
  - split; [den0; cbn [xopp xmul xexp]; rewrite Rmult_0_r, exp_0; f_equal; ring|]. log0. rewrite fin_eq by reflexivity. reflexivity.
  - exists (Rpower b (- (1)) * 1 * exp (- 0 / b) / s_tgamma s 1). pose proof (power_pos b (- (1))). pose proof (exp_pos (- 0 / b)). split; [|split].
    + den0. cbn [xsub xopp xadd]. rewrite pow00. rewrite fin_pow by exact B. rewrite (fin_div _ b) by lra. cbn [xmul xexp lift1]. rewrite fin_div by lra. reflexivity.
    + apply Rdiv_lt_0_compat; nra.
    + log0. cbn [xsub xopp xadd]. rewrite nan_zero. rewrite NN. reflexivity.
  - exists (exp (- 0 / 2) * 1 / (Rpower 2 1 * s_tgamma s 1)). pose proof (power_pos 2 1). pose proof (exp_pos (- 0 / 2)). split; [|split].
    + den0. cbn [xopp]. rewrite !fin_div by lra. cbn [xopp xadd xsub xexp lift1]. rewrite E22, pow00. rewrite fin_pow by lra. cbn [xmul]. rewrite fin_div by nra. reflexivity.
    + apply Rdiv_lt_0_compat; nra.
    + log0. cbn [xopp]. rewrite !fin_div by lra. rewrite E22. cbn [xsub xopp xadd]. rewrite nan_zero. reflexivity.
  - intros G2 G3. exists (s_tgamma s (1 + b) / (s_tgamma s 1 * s_tgamma s b) * 1 * Rpower (1 + - 0) (b + - (1))). pose proof (power_pos (1 + - 0) (b + - (1))). assert (Q : 0 < s_tgamma s (1 + b) / (s_tgamma s 1 * s_tgamma s b)) by (apply Rdiv_lt_0_compat; nra). split; [|split].
    + den0. cbn [xopp xadd xsub lift1 xmul]. rewrite pow00. rewrite fin_pow by lra. rewrite fin_div by nra. reflexivity.
    + nra.
    + log0. cbn [xopp xadd xsub lift1]. rewrite nan_zero. reflexivity.
Qed.
Print Assumptions c119_zero_refuted.
(** Success probability 1: the only possible values of the geometric (0) and the binomial distribution (all trials) have probability 1, the logarithm is NaN. *)
Theorem c119_certain_refuted (s : special) (n : nat) :
  density s (Dist KGeometric 1 0) 0 = Fin 1 /\ log_density s (Dist KGeometric 1 0) 0 = NaN /\ density s (Dist KBinomial 1 (INR n)) (INR n) = Fin 1 /\ log_density s (Dist KBinomial 1 (INR n)) (INR n) = NaN.
Proof.
  assert (Z : xmul (Fin 0) (xlog (Fin (1 + - (1)))) = NaN). { replace (1 + - (1)) with 0 by ring. cbn [xlog]. destruct (Rlt_dec 0 0); [lra|]. cbn [xmul]. unfold xinf. destruct (Rlt_dec 0 (- 0)); [lra|]. destruct (Rlt_dec (- 0) 0); [lra|]. reflexivity. }
  assert (NN : forall x, xadd x NaN = NaN) by (intros []; reflexivity). pose proof (pos_INR n). split; [|split; [|split]].
  - pose proof (geometric_density s (Dist KGeometric 1 0) 0%nat eq_refl ltac:(cbn; lra)) as D. cbn [INR p1] in D. rewrite D. unfold geo. cbn. f_equal. ring.
  - log0. cbn [xsub xopp xadd]. rewrite Z. reflexivity.
  - rewrite (binomial_density s (Dist KBinomial 1 (INR n)) n n eq_refl eq_refl ltac:(cbn; lra)). unfold bino. cbn [p1]. rewrite Nat.leb_refl, C_n_n, pow1, Nat.sub_diag. cbn. f_equal. ring.
  - log0. cbn [xsub xopp xadd]. replace (INR n + - INR n) with 0 by ring. rewrite Z, NN. reflexivity.
Qed.
Print Assumptions c119_certain_refuted.
Example c119_case : ordinary (Dist KBinomial (1 / 2) 1) /\ proper (Dist KNormal 0 1) /\ gamma_function (s_tgamma some_special) /\ log_gamma (s_lgamma some_special) (s_tgamma some_special) /\ log_density some_special (Dist KBernoulli (1 / 2) 0) 1 = Fin (ln (1 / 2)).
Proof.
  split; [cbn; split; [lra|]; split; [exists 1%Z; reflexivity|lra]|]. split; [cbn; lra|]. split; [exact gam_ok|]. split; [intros x _; reflexivity|]. log0. rewrite fin_ne by lra. rewrite fin_eq by reflexivity. apply fin_log. lra.
Qed.
