(** C122: quantiles of the discrete distributions. *)
From Coq Require Import Reals Lra Lia ZArith.
From Verif Require Import UdModel UdSpec UdProofs UdProofs2 UdProofs3 UdProofs5 Prop_UdMoments Prop_UdMedian Prop_UdLog Prop_UdMode.
Local Open Scope R_scope.

Definition whole (x : xr) : Prop := exists n : nat, x = Fin (INR n).
(** What the searches return: a whole number, the function is at least p there and at most p one before; or NaN *)
Definition found (F : xr -> xr) (p : R) (r : xr) : Prop := r = NaN \/ exists n c, r = Fin (INR n) /\ F r = Fin c /\ p <= c /\ (forall c', F (r - #1)%x = Fin c' -> c' <= p).
Definition numbers (F : xr -> xr) : Prop := forall x, exists c, F (Fin x) = Fin c.
Lemma xlt_fin a b : xlt (Fin a) (Fin b) = true -> a < b.
Proof. cbn. destruct (Rlt_dec a b); [auto|discriminate]. Qed.
Lemma xlt_fin_f a b : xlt (Fin a) (Fin b) = false -> b <= a.
Proof. cbn. destruct (Rlt_dec a b); [discriminate|lra]. Qed.
Lemma xle_fin a b : xle (Fin a) (Fin b) = true -> a <= b.
Proof. intros H. destruct (Rlt_le_dec b a) as [L|L]; [rewrite fin_gt in H by exact L; discriminate|exact L]. Qed.
Lemma xle_fin_f a b : xle (Fin a) (Fin b) = false -> b < a.
Proof. intros H. destruct (Rlt_le_dec b a) as [L|L]; [exact L|rewrite fin_le in H by exact L; discriminate]. Qed.
Lemma decrease_found F p n q : numbers F -> (forall x, x < 0 -> F (Fin x) = Fin 0) -> 0 < p -> (forall k, q = Fin (INR k) -> forall c, F q = Fin c -> p <= c) -> whole q -> found F p (decrease F (Fin p) n q).
Proof.
  intros HF H0 Hp. revert q. induction n as [|n IH]; intros q Hq [k ->]; [left; reflexivity|]. specialize (Hq k eq_refl). cbn [decrease]. cbv zeta. destruct (HF (INR k)) as (c & Ec). destruct (HF (INR k + - (1))) as (c' & Ec'). cbn [xsub xopp xadd]. rewrite Ec'. destruct (xlt (Fin c') (Fin p)) eqn:E.
  - right. exists k, c. apply xlt_fin in E. replace (INR k + - (1) + 1) with (INR k) by ring. split; [reflexivity|]. split; [exact Ec|]. split; [apply Hq; exact Ec|]. cbn [xsub xopp xadd]. rewrite Ec'. intros ? [= <-]. lra.
  - apply xlt_fin_f in E. destruct k as [|k]; [exfalso; rewrite H0 in Ec' by (cbn; lra); injection Ec' as <-; lra|]. replace (INR (S k) + - (1)) with (INR k) in * by (rewrite S_INR; ring). apply IH; [|exists k; reflexivity]. intros k' _ c2 Ec2. rewrite Ec' in Ec2. injection Ec2 as <-. exact E.
Qed.
Lemma increase_found F p n q : numbers F -> (forall k, q = Fin (INR k) -> forall c, F q = Fin c -> c <= p) -> whole q -> found F p (increase F (Fin p) n q).
Proof.
  intros HF. revert q. induction n as [|n IH]; intros q Hq [k ->]; [left; reflexivity|]. specialize (Hq k eq_refl). cbn [increase]. cbv zeta. destruct (HF (INR k)) as (c & Ec). destruct (HF (INR k + 1)) as (c' & Ec'). cbn [xsub xopp xadd]. rewrite Ec'. destruct (xle (Fin p) (Fin c')) eqn:E.
  - right. exists (S k), c'. apply xle_fin in E. rewrite S_INR. split; [reflexivity|]. split; [exact Ec'|]. split; [exact E|]. cbn [xsub xopp xadd]. replace (INR k + 1 + - (1)) with (INR k) by ring. rewrite Ec. intros ? [= <-]. apply (Hq c Ec).
  - apply xle_fin_f in E. replace (INR k + 1) with (INR (S k)) in * by (rewrite S_INR; ring). apply IH; [|exists (S k); reflexivity]. intros k' _ c2 Ec2. rewrite Ec' in Ec2. injection Ec2 as <-. lra.
Qed.
Lemma start_whole m v : exists n : nat, xmin PInf (xmax (Fin 0) (xfloor (Fin m + Fin v * Fin 1))%x) = Fin (INR n).
Proof.
  cbn [xmul xadd xfloor]. unfold xmax. destruct (xlt (Fin 0) (Fin (IZR (Int_part (m + v * 1))))) eqn:E; cbn [xmin xlt].
  - apply xlt_fin in E. apply lt_IZR in E. exists (Z.to_nat (Int_part (m + v * 1))). unfold xmin. cbn [xlt]. rewrite INR_IZR_INZ, Z2Nat.id by lia. reflexivity.
  - exists 0%nat. reflexivity.
Qed.
(** Poisson and geometric distributions: the quantile is a whole number at which the distribution function is at least p, one before it is at most p; or it is NaN. *)
Theorem c122_search (s : special) (d : dist) (p : R) : (d_kind d = KPoisson /\ 0 < p1 d) \/ (d_kind d = KGeometric /\ 0 < p1 d < 1) -> 0 < p < 1 ->
  quantile s d p = NaN \/ exists n c, quantile s d p = Fin (INR n) /\ cdf s d (Fin (INR n)) = Fin c /\ p <= c /\ (forall c', cdf s d (Fin (INR n - 1)) = Fin c' -> c' <= p).
Proof.
  intros K Hp. assert (NF : numbers (cdf s d)).
  { intros x. destruct d as [k a b]. cbn [d_kind p1] in K. destruct (Rlt_dec x 0) as [L|L]; [exists 0; apply (cdf_below s _ 0); [destruct K as [[-> _]|[-> _]]; reflexivity|exact L]|]. destruct K as [[-> A]|[-> A]]; cdf0.
    - cbn [xadd lift2 xsub xopp]. eexists. reflexivity.
    - cbn [xsub xopp xadd]. rewrite fin_pow by lra. cbn [xopp xadd]. eexists. reflexivity. }
  assert (N0 : forall x, x < 0 -> cdf s d (Fin x) = Fin 0) by (intros x L; apply (cdf_below s _ 0); [destruct d as [k a b]; cbn [d_kind p1] in K; destruct K as [[-> _]|[-> _]]; reflexivity|exact L]).
  assert (Q : exists q, whole q /\ quantile s d p = if xlt (Fin p) (cdf s d q) then decrease (cdf s d) (Fin p) 100 q else increase (cdf s d) (Fin p) 100 q).
  { exists (xmin (maximum d) (xmax (minimum d) (xfloor (normal_quantile s (mean d) (variance d) p)))). split.
    - destruct d as [k a b]. cbn [d_kind p1] in K. destruct K as [[-> A]|[-> A]]; unfold minimum, maximum, mean, variance, normal_quantile; cbn [d_kind p1]; cbv zeta.
      + cbn [xmul xadd xfloor]. destruct (start_whole a (a * sqrt 2 * s_erfinv s (2 * p - 1))) as (n & En). rewrite Rmult_1_r in En || idtac. cbn [xmul xadd xfloor] in En. rewrite Rmult_1_r in En. exists n. exact En.
      + cbn [xsub xopp xadd xmul]. rewrite !fin_div by nra. cbn [xmul xadd]. destruct (start_whole ((1 + - a) / a) ((1 + - a) / (a * a) * sqrt 2 * s_erfinv s (2 * p - 1))) as (n & En). cbn [xmul xadd xfloor] in En. rewrite Rmult_1_r in En. exists n. exact En.
    - unfold quantile. cbv zeta. rewrite (fin_gt p 0) by lra. rewrite (fin_gt 1 p) by lra. destruct d as [k a b]. cbn [d_kind p1] in K |- *. destruct K as [[-> A]|[-> A]]; reflexivity. }
  destruct Q as (q & Hw & E). rewrite E. clear E. destruct Hw as [k ->]. destruct (NF (INR k)) as (c & Ec). rewrite Ec. assert (X : found (cdf s d) p (if xlt (Fin p) (Fin c) then decrease (cdf s d) (Fin p) 100 (Fin (INR k)) else increase (cdf s d) (Fin p) 100 (Fin (INR k)))).
  { destruct (xlt (Fin p) (Fin c)) eqn:L.
    - apply xlt_fin in L. apply decrease_found; auto; [lra| |exists k; reflexivity]. intros k' _ c2 E2. rewrite Ec in E2. injection E2 as <-. lra.
    - apply xlt_fin_f in L. apply increase_found; auto; [|exists k; reflexivity]. intros k' _ c2 E2. rewrite Ec in E2. injection E2 as <-. lra. }
  destruct X as [X|(n & c2 & X1 & X2 & X3 & X4)]; [left; exact X|right]. exists n, c2. rewrite X1 in X2, X4. cbn [xsub xopp xadd] in X4. change (INR n - 1) with (INR n + - (1)). auto.
Qed.
Print Assumptions c122_search.
(** The geometric distribution with p = 1/1000: no median is found, for any inverse error function with the value 0 at 0. *)
Lemma decrease_nan F p n m : (n <= m)%nat -> (forall k, (m - n <= k)%nat -> exists c, F (Fin (INR k)) = Fin c /\ p <= c) -> decrease F (Fin p) n (Fin (INR m)) = NaN.
Proof.
  revert m. induction n as [|n IH]; intros m L H; [reflexivity|]. cbn [decrease]. cbv zeta. cbn [xsub xopp xadd]. destruct m as [|m]; [lia|]. replace (INR (S m) + - (1)) with (INR m) by (rewrite S_INR; ring). destruct (H m ltac:(lia)) as (c & Ec & Lc). rewrite Ec, fin_ge by exact Lc. apply IH; [lia|]. intros k Hk. apply H. lia.
Qed.
Theorem c122_nan_refuted (s : special) (b : R) : s_erfinv s 0 = 0 -> exists d, dist_new KGeometric (1 / 1000) b = Ok d /\ quantile s d (1 / 2) = NaN.
Proof.
  intros E0. set (d := Dist KGeometric (1 / 1000) b). exists d. split; [unfold dist_new; rewrite !fin_ge by lra; reflexivity|].
  assert (Q : forall k, (899 <= k)%nat -> exists c, cdf s d (Fin (INR k)) = Fin c /\ 1 / 2 < c).
  { intros k Hk. pose proof (le_INR _ _ Hk) as L. rewrite (INR_IZR_INZ 899) in L. change (Z.of_nat 899) with 899%Z in L. unfold d. cdf0. cbn [xsub xopp xadd]. rewrite fin_pow by lra. cbn [xopp xadd]. eexists. split; [reflexivity|]. set (q := Rpower (1 + - (1 / 1000)) (INR k + 1)).
    assert (X : q * 2 < 1); [|lra]. unfold q, Rpower. pose proof (ln_below (1 + - (1 / 1000)) ltac:(lra)) as LB. assert (A : (INR k + 1) * ln (1 + - (1 / 1000)) <= - (9 / 10)) by nra. apply exp_mono in A. pose proof (exp_ineq1 (9 / 20) ltac:(lra)) as E1. assert (E2 : exp (9 / 10) = exp (9 / 20) * exp (9 / 20)) by (rewrite <- exp_plus; f_equal; field).
    assert (E3 : exp (- (9 / 10)) * exp (9 / 10) = 1) by (rewrite <- exp_plus; replace (- (9 / 10) + 9 / 10) with 0 by ring; apply exp_0). pose proof (exp_pos (- (9 / 10))). assert (2 < exp (9 / 10)) by nra. nra. }
  assert (S : xmin (maximum d) (xmax (minimum d) (xfloor (normal_quantile s (mean d) (variance d) (1 / 2)))) = Fin (INR 999)).
  { unfold d, minimum, maximum, mean, variance, normal_quantile. cbn [d_kind p1]. cbv zeta. cbn [xsub xopp xadd xmul]. rewrite !fin_div by lra. cbn [xmul xadd xfloor]. replace (2 * (1 / 2) - 1) with 0 by field. rewrite E0, Rmult_0_r, Rplus_0_r. replace ((1 + - (1 / 1000)) / (1 / 1000)) with 999 by field. rewrite (int_part_eq 999 999) by lra. unfold xmax. rewrite fin_lt by lra. unfold xmin. cbn [xlt]. rewrite INR_IZR_INZ. reflexivity. }
  unfold quantile. cbv zeta. rewrite (fin_gt (1 / 2) 0) by lra. rewrite (fin_gt 1) by lra. change (d_kind d) with KGeometric. cbv iota. rewrite S. destruct (Q 999%nat ltac:(lia)) as (c & Ec & Lc). rewrite Ec, fin_lt by lra. apply decrease_nan; [lia|]. intros k Hk. destruct (Q k ltac:(lia)) as (c2 & Ec2 & L2). exists c2. split; [exact Ec2|lra].
Qed.
Print Assumptions c122_nan_refuted.
(** Every quantile of a Bernoulli distribution is 1, also for probabilities less than the probability of 0. *)
Theorem c122_bernoulli_refuted (s : special) (a b p : R) : 0 < a < 1 -> 0 < p < 1 -> quantile s (Dist KBernoulli a b) p = Fin 1 /\ density s (Dist KBernoulli a b) 0 = Fin (1 - a).
Proof.
  intros A Hp. split; [|den0; rewrite fin_eq by reflexivity; reflexivity]. set (d := Dist KBernoulli a b).
  assert (F0 : cdf s d (Fin 0) = Fin 0) by (unfold d; cdf0; destruct (Req_EM_T 0 0); [reflexivity|lra]). assert (F1 : cdf s d (Fin 1) = Fin 1) by (unfold d; cdf0; destruct (Req_EM_T 1 0); [lra|]; destruct (Req_EM_T 1 1); [reflexivity|lra]).
  assert (S : xmin (maximum d) (xmax (minimum d) (xfloor (normal_quantile s (mean d) (variance d) p))) = Fin 0 \/ xmin (maximum d) (xmax (minimum d) (xfloor (normal_quantile s (mean d) (variance d) p))) = Fin 1).
  { unfold d, minimum, maximum, mean, variance, normal_quantile. cbn [d_kind p1]. cbv zeta. cbn [xsub xopp xadd xmul xfloor]. match goal with |- context [Int_part ?zz] => set (z := Int_part zz) end. unfold xmax. destruct (xlt (Fin 0) (Fin (IZR z))) eqn:L; unfold xmin.
    - apply xlt_fin in L. apply lt_IZR in L. assert (H : 1 <= IZR z) by (apply (IZR_le 1); lia). rewrite (fin_ge (IZR z) 1) by exact H. right. reflexivity.
    - rewrite fin_lt by lra. left. reflexivity. }
  unfold quantile. cbv zeta. rewrite (fin_gt p 0) by lra. rewrite (fin_gt 1) by lra. change (d_kind d) with KBernoulli. cbv iota. destruct S as [-> | ->].
  - rewrite F0, fin_ge by lra. cbn [increase]. cbv zeta. cbn [xadd]. replace (0 + 1) with 1 by ring. rewrite F1, fin_le by lra. reflexivity.
  - rewrite F1, fin_lt by lra. cbn [decrease]. cbv zeta. cbn [xsub xopp xadd]. replace (1 + - (1)) with 0 by ring. rewrite F0, fin_lt by lra. f_equal. ring.
Qed.
Print Assumptions c122_bernoulli_refuted.
(** Uniform on 0, 1: the quantile of 6/10 is 0, where the distribution function is 1/2. *)
Theorem c122_uniform_refuted (s : special) : exists d, dist_new KUniformDis 0 1 = Ok d /\ quantile s d (6 / 10) = Fin 0 /\ cdf s d (Fin 0) = Fin (1 / 2).
Proof.
  exists (Dist KUniformDis 0 1). split; [unfold dist_new; rewrite fin_ge by lra; reflexivity|]. split.
  - unfold quantile. cbn [d_kind p1 p2]. cbv zeta. rewrite (fin_gt (6 / 10) 0) by lra. rewrite (fin_gt 1) by lra. cbn [xsub xopp xadd xmul xfloor]. rewrite (int_part_eq _ 0) by lra. reflexivity.
  - cdf0. cbn [xfloor xsub xopp xadd]. rewrite (int_part_eq _ 0) by lra. cbn [xadd]. rewrite fin_div by lra. match goal with |- context [Fin (?n / ?m)] => replace (n / m) with (1 / 2) by field end. unfold xmin. rewrite fin_lt by lra. reflexivity.
Qed.
Print Assumptions c122_uniform_refuted.
Example c122_case : exists s, quantile s (Dist KGeometric (1 / 2) 0) (1 / 4) = Fin (INR 0) /\ cdf s (Dist KGeometric (1 / 2) 0) (Fin (INR 0)) = Fin (1 / 2).
Proof.
  exists some_special. change (INR 0) with 0. assert (P1 : Rpower (1 + - (1 / 2)) (0 + 1) = 1 / 2) by (replace (0 + 1) with 1 by ring; rewrite Rpower_1 by lra; field).
  assert (F0 : cdf some_special (Dist KGeometric (1 / 2) 0) (Fin 0) = Fin (1 / 2)) by (cdf0; cbn [xsub xopp xadd]; rewrite fin_pow by lra; cbn [xopp xadd]; rewrite P1; f_equal; field). split; [|exact F0].
  assert (F1 : cdf some_special (Dist KGeometric (1 / 2) 0) (Fin 1) = Fin (3 / 4)).
  { cdf0. cbn [xsub xopp xadd]. rewrite fin_pow by lra. cbn [xopp xadd]. f_equal. replace (1 + - (1 / 2)) with (1 / 2) by field. replace (1 + 1) with (INR 2) by (cbn; ring). rewrite Rpower_pow by lra. cbn. field. }
  assert (Fm : cdf some_special (Dist KGeometric (1 / 2) 0) (Fin (-1)) = Fin 0) by (apply (cdf_below _ _ 0); [reflexivity|lra]).
  assert (S : xmin (maximum (Dist KGeometric (1 / 2) 0)) (xmax (minimum (Dist KGeometric (1 / 2) 0)) (xfloor (normal_quantile some_special (mean (Dist KGeometric (1 / 2) 0)) (variance (Dist KGeometric (1 / 2) 0)) (1 / 4)))) = Fin 1).
  { unfold minimum, maximum, mean, variance, normal_quantile. cbn [d_kind p1 some_special s_erfinv]. cbv zeta. cbn [xsub xopp xadd xmul]. rewrite !fin_div by lra. cbn [xmul xadd xfloor]. rewrite ?Rmult_0_r, ?Rplus_0_r. replace ((1 + - (1 / 2)) / (1 / 2)) with 1 by field. rewrite (int_part_eq 1 1) by lra. unfold xmax. rewrite fin_lt by lra. reflexivity. }
  unfold quantile. cbv zeta. rewrite (fin_gt (1 / 4) 0) by lra. rewrite (fin_gt 1) by lra. cbn [d_kind]. cbv iota. rewrite S, F1, fin_lt by lra.
  cbn [decrease]. cbv zeta. cbn [xsub xopp xadd]. replace (1 + - (1)) with 0 by ring. rewrite F0, fin_ge by lra. replace (0 + - (1)) with (-1) by ring. rewrite Fm, fin_lt by lra. f_equal. ring.
Qed.
