(** The densities of the model at the points of the support. *)
From Coq Require Import Reals Lra Lia ZArith.
From Coquelicot Require Import Coquelicot.
From Verif Require Import UdModel UdSpec UdProofs.
Local Open Scope R_scope.

Lemma fin_lt a b : a < b -> xlt (Fin a) (Fin b) = true.
Proof. intros H. cbn. destruct (Rlt_dec a b); [reflexivity|lra]. Qed.
Lemma fin_ge a b : b <= a -> xlt (Fin a) (Fin b) = false.
Proof. intros H. cbn. destruct (Rlt_dec a b); [lra|reflexivity]. Qed.
Lemma fin_eq a b : a = b -> xeq (Fin a) (Fin b) = true.
Proof. intros H. cbn. destruct (Req_EM_T a b); [reflexivity|contradiction]. Qed.
Lemma fin_ne a b : a <> b -> xeq (Fin a) (Fin b) = false.
Proof. intros H. cbn. destruct (Req_EM_T a b); [contradiction|reflexivity]. Qed.
Lemma fin_le a b : a <= b -> xle (Fin a) (Fin b) = true.
Proof. intros H. unfold xle. destruct (Req_dec a b) as [E|E]; [rewrite (fin_eq a b E); apply Bool.orb_true_r|]. rewrite fin_lt by lra. reflexivity. Qed.
Lemma fin_gt a b : b < a -> xle (Fin a) (Fin b) = false.
Proof. intros H. unfold xle. rewrite fin_ge, fin_ne by lra. reflexivity. Qed.
Lemma fin_div a b : b <> 0 -> xdiv (Fin a) (Fin b) = Fin (a / b).
Proof. intros H. cbn. destruct (Req_EM_T b 0); [contradiction|reflexivity]. Qed.
Lemma fin_log a : 0 < a -> xlog (Fin a) = Fin (ln a).
Proof. intros H. cbn. destruct (Rlt_dec 0 a); [reflexivity|contradiction]. Qed.
Lemma fin_sqrt a : 0 <= a -> xsqrt (Fin a) = Fin (sqrt a).
Proof. intros H. cbn. destruct (Rlt_dec a 0); [lra|reflexivity]. Qed.
Lemma fin_pow a b : 0 < a -> xpow (Fin a) (Fin b) = Fin (Rpower a b).
Proof. intros H. cbn. destruct (Rlt_dec 0 a); [reflexivity|contradiction]. Qed.
Lemma pow_nat a k : 0 <= a -> xpow (Fin a) (Fin (INR k)) = Fin (a ^ k).
Proof.
  intros H. destruct (Req_dec a 0) as [->|E].
  - cbn. destruct (Rlt_dec 0 0); [lra|]. destruct k as [|k]; [cbn; destruct (Rlt_dec 0 0); [lra|reflexivity]|]. rewrite pow_i by lia. destruct (Rlt_dec 0 (INR (S k))); [reflexivity|]. exfalso. apply n0. apply lt_0_INR. lia.
  - rewrite fin_pow by lra. f_equal. apply Rpower_pow. lra.
Qed.
Lemma floor_nat k : Int_part (INR k) = Z.of_nat k.
Proof. rewrite INR_IZR_INZ. unfold Int_part. rewrite <- (tech_up (IZR (Z.of_nat k)) (Z.of_nat k + 1)); [lia| |]; rewrite plus_IZR; lra. Qed.
Lemma binom_nat n k : binomial_coefficient (INR n) (INR k) = Binomial.C n k.
Proof. unfold binomial_coefficient. rewrite !floor_nat, !Nat2Z.id. reflexivity. Qed.
Lemma gamma_fact G n : gamma_function G -> G (INR n + 1) = INR (fact n).
Proof.
  intros (G1 & GS & _). induction n as [|n IH].
  - cbn [INR fact]. rewrite Rplus_0_l. exact G1.
  - rewrite GS by (apply lt_0_INR; lia). rewrite S_INR at 2. rewrite IH, fact_simpl, mult_INR. reflexivity.
Qed.
Lemma factorials_ext f g m1 m2 m3 m4 : (forall k, f k = g k) -> factorials f m1 m2 m3 m4 -> factorials g m1 m2 m3 m4.
Proof.
  intros H (F0 & F1 & F2 & F3 & F4 & F5). split; [intros; rewrite <- H; apply F0|]. repeat split; (eapply series_eq; [|reflexivity|eassumption]); intros; cbv beta; rewrite ?H; reflexivity.
Qed.
Lemma poisson_density s d k : d_kind d = KPoisson -> 0 < p1 d -> gamma_function (s_tgamma s) -> log_gamma (s_lgamma s) (s_tgamma s) -> density s d (INR k) = Fin (pois (p1 d) k).
Proof.
  intros Hk Hl G LG. unfold density, minimum, maximum. rewrite Hk. cbv zeta. rewrite fin_ge by apply pos_INR. cbn [orb xlt]. rewrite fin_log by exact Hl. cbn [xopp xmul xadd xsub xexp lift1]. f_equal.
  rewrite LG by (pose proof (pos_INR k); lra). rewrite gamma_fact by exact G. unfold pois. unfold Rdiv. rewrite <- (Rpower_pow k (p1 d) Hl). unfold Rpower. rewrite <- Ropp_involutive, <- (exp_ln (/ INR (fact k))) at 1 by (apply Rinv_0_lt_compat, INR_fact_lt_0).
  rewrite Ropp_involutive. rewrite ln_Rinv by apply INR_fact_lt_0. rewrite <- exp_plus, <- exp_plus. f_equal. ring.
Qed.
Lemma geometric_density s d k : d_kind d = KGeometric -> 0 <= p1 d <= 1 -> density s d (INR k) = Fin (geo (p1 d) k).
Proof.
  intros Hk Hp. unfold density, minimum, maximum. rewrite Hk. cbv zeta. rewrite fin_ge by apply pos_INR. cbn [orb xlt]. cbn [xsub xopp xadd]. rewrite pow_nat by lra. cbn [xmul]. unfold geo. do 2 f_equal.
Qed.
Lemma binomial_density s d n k : d_kind d = KBinomial -> p2 d = INR n -> 0 <= p1 d <= 1 -> density s d (INR k) = Fin (bino n (p1 d) k).
Proof.
  intros Hk Hn Hp. unfold density, minimum, maximum. rewrite Hk, Hn. cbv zeta. rewrite fin_ge by apply pos_INR. cbn [orb]. unfold bino. destruct (Nat.leb_spec k n) as [L|L].
  - rewrite fin_ge by (apply le_INR; exact L). cbn [xsub xopp xadd lift2]. rewrite binom_nat, pow_nat by lra. replace (INR n + - INR k) with (INR (n - k)) by (rewrite minus_INR by exact L; ring). rewrite pow_nat by lra. cbn [xmul]. f_equal.
  - rewrite fin_lt by (apply lt_INR; exact L). reflexivity.
Qed.
Lemma bernoulli_density s d k : d_kind d = KBernoulli -> density s d (INR k) = Fin (bino 1 (p1 d) k).
Proof.
  intros Hk. unfold density, minimum, maximum. rewrite Hk. cbv zeta. rewrite fin_ge by apply pos_INR. cbn [orb]. destruct k as [|[|k]].
  - rewrite fin_ge by (cbn; lra). rewrite fin_eq by reflexivity. cbn [xsub xopp xadd]. unfold bino, Binomial.C. cbn. f_equal. field.
  - rewrite fin_ge by (cbn; lra). rewrite fin_ne by (cbn; lra). rewrite fin_eq by reflexivity. unfold bino, Binomial.C. cbn. f_equal. field.
  - rewrite fin_lt by (apply (lt_INR 1); lia). reflexivity.
Qed.
Lemma uniform_density s d n k : d_kind d = KUniformDis -> p2 d = p1 d + INR n -> density s d (p1 d + INR k) = Fin (unif n k).
Proof.
  intros Hk Hn. unfold density, minimum, maximum. rewrite Hk, Hn. cbv zeta. pose proof (pos_INR k) as Pk. pose proof (pos_INR n) as Pn. rewrite fin_ge by lra. cbn [orb]. unfold unif. destruct (Nat.leb_spec k n) as [L|L].
  - apply le_INR in L. rewrite fin_ge by lra. rewrite !fin_le by lra. cbn [andb xsub xopp xadd]. rewrite fin_div by lra. f_equal. field. lra.
  - apply lt_INR in L. rewrite fin_lt by lra. reflexivity.
Qed.
