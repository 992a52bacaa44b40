(** C115: moments of the discrete distributions. *)
From Coq Require Import Reals Lra Lia ZArith.
From Coquelicot Require Import Coquelicot.
From Verif Require Import UdModel UdSpec UdProofs UdProofs2.
Local Open Scope R_scope.

(** A discrete distribution with more than one possible value; the bounds of the uniform distribution and the number of trials are integers. *)
Definition ordinary (d : dist) : Prop :=
  match d_kind d with
  | KUniformDis => integer (p1 d) /\ integer (p2 d) /\ p1 d < p2 d
  | KBernoulli | KGeometric => 0 < p1 d < 1
  | KPoisson => 0 < p1 d
  | KBinomial => 0 < p1 d < 1 /\ integer (p2 d) /\ 0 < p2 d
  | _ => False
  end.
(** the number in a double *)
Definition fin (a : xr) : R := match a with Fin x => x | _ => 0 end.
Lemma integer_nat a b : integer a -> integer b -> a <= b -> exists n, b = a + INR n.
Proof. intros [x ->] [y ->] H. exists (Z.to_nat (y - x)). apply le_IZR in H. rewrite INR_IZR_INZ, Z2Nat.id by lia. rewrite minus_IZR. ring. Qed.
Lemma sqrt3 x : 0 <= x -> sqrt x ^ 3 = x * sqrt x.
Proof. intros H. rewrite <- (sqrt_sqrt x H) at 2. ring. Qed.
Lemma via lo (g : R -> xr) (pm : nat -> R) m1 m2 m3 m4 : (forall k, g (lo + INR k) = Fin (pm k)) -> factorials pm m1 m2 m3 m4 -> factorials (fun k => fin (g (lo + INR k))) m1 m2 m3 m4.
Proof. intros H. apply factorials_ext. intros k. rewrite H. reflexivity. Qed.
Lemma zero_plus (g : R -> xr) (pm : nat -> R) : (forall k, g (INR k) = Fin (pm k)) -> forall k, g (0 + INR k) = Fin (pm k).
Proof. intros H k. rewrite Rplus_0_l. apply H. Qed.
Definition conclusion (s : special) (d : dist) : Prop :=
  exists lo mu v sk ku, minimum d = Fin lo /\ mean d = Fin mu /\ variance d = Fin v /\ deviation d = Fin (sqrt v) /\ skewness d = Fin sk /\ kurtosis d = Fin ku /\
    (forall k, exists y, density s d (lo + INR k) = Fin y) /\ has_moments lo (fun x => fin (density s d x)) mu v sk ku.
Lemma finish s d lo pm m1 m2 m3 m4 mu v sk ku : minimum d = Fin lo -> (forall k, density s d (lo + INR k) = Fin (pm k)) -> factorials pm m1 m2 m3 m4 -> deviation d = xsqrt (variance d) ->
  mean d = Fin mu -> variance d = Fin v -> skewness d = Fin sk -> kurtosis d = Fin ku -> mu = lo + m1 -> v = m2 + m1 - m1 ^ 2 -> 0 < v ->
  sk * (v * sqrt v) = m3 + (3 - 3 * m1) * m2 + (1 - 3 * m1 + 3 * m1 ^ 2) * m1 - m1 ^ 3 ->
  (ku + 3) * v ^ 2 = m4 + (6 - 4 * m1) * m3 + (7 - 12 * m1 + 6 * m1 ^ 2) * m2 + (1 - 4 * m1 + 6 * m1 ^ 2 - 4 * m1 ^ 3) * m1 + m1 ^ 4 -> conclusion s d.
Proof.
  intros L D F Dv M V S K Em Ev Pv Es Ek. exists lo, mu, v, sk, ku. split; [exact L|]. split; [exact M|]. split; [exact V|]. split; [rewrite Dv, V; apply fin_sqrt; lra|]. split; [exact S|]. split; [exact K|]. split; [intros k; eexists; apply D|].
  apply (moments_full lo (fun x => fin (density s d x)) m1 m2 m3 m4); auto; [exact (via lo (density s d) pm m1 m2 m3 m4 D F)|]. rewrite sqrt3 by lra. exact Es.
Qed.
Ltac fins := unfold mean, variance, skewness, kurtosis; cbn [d_kind p1 p2]; cbv zeta; repeat (cbn [xopp xadd xsub xmul]; first [rewrite fin_div by nra | rewrite fin_sqrt by nra]); cbn [xopp xadd xsub xmul].
Theorem c115_moments (s : special) (d : dist) : gamma_function (s_tgamma s) -> log_gamma (s_lgamma s) (s_tgamma s) -> ordinary d ->
  exists lo mu v sk ku, minimum d = Fin lo /\ mean d = Fin mu /\ variance d = Fin v /\ deviation d = Fin (sqrt v) /\ skewness d = Fin sk /\ kurtosis d = Fin ku /\
    (forall k, exists y, density s d (lo + INR k) = Fin y) /\ has_moments lo (fun x => fin (density s d x)) mu v sk ku.
Proof.
  intros G LG O. change (conclusion s d). destruct d as [k a b]. unfold ordinary in O. cbn [d_kind p1 p2] in O. destruct k; try contradiction.
  - destruct O as (Ia & Ib & L). destruct (integer_nat a b Ia Ib ltac:(lra)) as [n ->]. pose proof (uniform_density s (Dist KUniformDis a (a + INR n)) n) as D. specialize (fun k => D k eq_refl eq_refl). cbn [p1] in D. pose proof (unif_factorials n) as F. cbv zeta in F.
    set (x := INR n) in *. assert (Px : 1 <= x) by (unfold x; destruct n; [unfold x in L; cbn in L; lra|rewrite S_INR; pose proof (pos_INR n); lra]). clearbody x.
    eapply finish; [reflexivity|exact D|exact F|reflexivity|fins; reflexivity|fins; reflexivity|fins; reflexivity|fins; reflexivity|cbn [p1]; field|field| |field|field; nra].
    apply Rdiv_lt_0_compat; nra.
  - pose proof (bernoulli_density s (Dist KBernoulli a b)) as D. specialize (fun k => D k eq_refl). cbn [p1] in D. pose proof (bino_factorials 1 a ltac:(lra)) as F. cbv zeta in F. cbn [INR] in F.
    assert (P : 0 < a * (1 + - a)) by nra. assert (Q : 0 < sqrt (a * (1 + - a))) by (apply sqrt_lt_R0; exact P).
    eapply finish; [reflexivity|apply zero_plus; exact D|exact F|reflexivity|fins; reflexivity|fins; reflexivity| | |ring|ring|lra| |].
    + fins. rewrite ?fin_div by lra. reflexivity.
    + fins. reflexivity.
    + field. lra.
    + field. lra.
  - pose proof (poisson_density s (Dist KPoisson a b)) as D. specialize (fun k => D k eq_refl O G LG). cbn [p1] in D. pose proof (pois_factorials a ltac:(lra)) as F.
    assert (Q : 0 < sqrt a) by (apply sqrt_lt_R0; exact O).
    eapply finish; [reflexivity|apply zero_plus; exact D|exact F|reflexivity|fins; reflexivity|fins; reflexivity| | |ring|ring|lra| |].
    + fins. rewrite ?fin_div by lra. reflexivity.
    + fins. reflexivity.
    + field. lra.
    + field. lra.
  - pose proof (geometric_density s (Dist KGeometric a b)) as D. specialize (fun k => D k eq_refl ltac:(cbn; lra)). cbn [p1] in D. pose proof (geo_factorials a ltac:(lra)) as F. cbv zeta in F.
    assert (Q : 0 < sqrt (1 + - a)) by (apply sqrt_lt_R0; lra). assert (Q2 : sqrt ((1 + - a) / (a * a)) = sqrt (1 + - a) / a) by (rewrite sqrt_div by nra; f_equal; apply sqrt_square; lra).
    eapply finish; [reflexivity|apply zero_plus; exact D|exact F|reflexivity|fins; reflexivity|fins; reflexivity| | |unfold Rminus; field; lra|field; lra| | |].
    + fins. rewrite ?fin_div by lra. reflexivity.
    + fins. reflexivity.
    + apply Rdiv_lt_0_compat; nra.
    + rewrite Q2. unfold Rminus. field. lra.
    + field. lra.
  - destruct O as (Pa & Ib & L). destruct (integer_nat 0 b (ex_intro _ 0%Z eq_refl) Ib ltac:(lra)) as [n Hn]. rewrite Rplus_0_l in Hn. pose proof (binomial_density s (Dist KBinomial a b) n) as D. specialize (fun k => D k eq_refl Hn ltac:(cbn; lra)). cbn [p1] in D.
    pose proof (bino_factorials n a ltac:(lra)) as F. cbv zeta in F. rewrite <- Hn in F. assert (P : 0 < a * (1 + - a)) by nra. assert (P2 : 0 < b * a * (1 + - a)) by (rewrite Rmult_assoc; nra). assert (P3 : 0 < b * (a * (1 + - a))) by nra. assert (Q : 0 < sqrt (b * a * (1 + - a))) by (apply sqrt_lt_R0; exact P2).
    eapply finish; [reflexivity|apply zero_plus; exact D|exact F|reflexivity|fins; reflexivity|fins; reflexivity| | |ring|ring|lra| |].
    + fins. rewrite ?fin_sqrt by lra. cbn [xopp xadd xsub xmul]. rewrite ?fin_div by lra. reflexivity.
    + fins. reflexivity.
    + replace (a * (1 + - a) * b) with (b * a * (1 + - a)) by ring. field. lra.
    + field. lra.
Qed.
Print Assumptions c115_moments.

(** A distribution with one possible value: mean and variance are right too (the variance is zero). *)
Definition constant (d : dist) : Prop :=
  match d_kind d with
  | KUniformDis => integer (p1 d) /\ p1 d = p2 d
  | KBernoulli => p1 d = 0 \/ p1 d = 1
  | KGeometric => p1 d = 1
  | KBinomial => integer (p2 d) /\ ((p2 d = 0 /\ 0 <= p1 d <= 1) \/ (0 <= p2 d /\ (p1 d = 0 \/ p1 d = 1)))
  | _ => False
  end.
Lemma finish2 s d lo pm m1 m2 m3 m4 mu : minimum d = Fin lo -> (forall k, density s d (lo + INR k) = Fin (pm k)) -> factorials pm m1 m2 m3 m4 -> deviation d = xsqrt (variance d) ->
  mean d = Fin mu -> variance d = Fin 0 -> mu = lo + m1 -> 0 = m2 + m1 - m1 ^ 2 ->
  exists lo mu, minimum d = Fin lo /\ mean d = Fin mu /\ variance d = Fin 0 /\ deviation d = Fin 0 /\ (forall k, exists y, density s d (lo + INR k) = Fin y) /\ has_mean_variance lo (fun x => fin (density s d x)) mu 0.
Proof.
  intros L D F Dv M V Em Ev. exists lo, mu. split; [exact L|]. split; [exact M|]. split; [exact V|]. split; [rewrite Dv, V, fin_sqrt by lra; rewrite sqrt_0; reflexivity|]. split; [intros k; eexists; apply D|].
  apply (moments_from lo (fun x => fin (density s d x)) m1 m2 m3 m4); auto. exact (via lo (density s d) pm m1 m2 m3 m4 D F).
Qed.
Theorem c115_constant (s : special) (d : dist) : constant d ->
  exists lo mu, minimum d = Fin lo /\ mean d = Fin mu /\ variance d = Fin 0 /\ deviation d = Fin 0 /\ (forall k, exists y, density s d (lo + INR k) = Fin y) /\ has_mean_variance lo (fun x => fin (density s d x)) mu 0.
Proof.
  intros O. destruct d as [k a b]. unfold constant in O. cbn [d_kind p1 p2] in O. destruct k; try contradiction.
  - destruct O as [_ <-]. pose proof (uniform_density s (Dist KUniformDis a a) 0) as D. specialize (fun k => D k eq_refl ltac:(cbn; ring)). cbn [p1] in D. pose proof (unif_factorials 0) as F. cbv zeta in F. cbn [INR] in F.
    eapply finish2; [reflexivity|exact D|exact F|reflexivity|fins; reflexivity| |cbn [p1]; field|field]. fins. f_equal. field.
  - pose proof (bernoulli_density s (Dist KBernoulli a b)) as D. specialize (fun k => D k eq_refl). cbn [p1] in D. pose proof (bino_factorials 1 a ltac:(lra)) as F. cbv zeta in F. cbn [INR] in F.
    eapply finish2; [reflexivity|apply zero_plus; exact D|exact F|reflexivity|fins; reflexivity| |ring|]; [fins; f_equal|]; destruct O as [-> | ->]; ring.
  - subst a. pose proof (geometric_density s (Dist KGeometric 1 b)) as D. specialize (fun k => D k eq_refl ltac:(cbn; lra)). cbn [p1] in D. pose proof (geo_factorials 1 ltac:(lra)) as F. cbv zeta in F.
    eapply finish2; [reflexivity|apply zero_plus; exact D|exact F|reflexivity|fins; reflexivity| |field|field]. fins. f_equal. field.
  - destruct O as [Ib O]. assert (B0 : 0 <= b) by lra. assert (A0 : 0 <= a <= 1) by lra. destruct (integer_nat 0 b (ex_intro _ 0%Z eq_refl) Ib ltac:(lra)) as [n Hn]. rewrite Rplus_0_l in Hn. pose proof (binomial_density s (Dist KBinomial a b) n) as D. specialize (fun k => D k eq_refl Hn ltac:(cbn; lra)). cbn [p1] in D.
    pose proof (bino_factorials n a ltac:(lra)) as F. cbv zeta in F. rewrite <- Hn in F.
    eapply finish2; [reflexivity|apply zero_plus; exact D|exact F|reflexivity|fins; reflexivity| |ring|]; [fins; f_equal|]; destruct O as [(-> & _) | (_ & [-> | ->])]; ring.
Qed.
Print Assumptions c115_constant.
(** Every accepted discrete distribution with integer bounds and trials is one of these two kinds, except Poisson and geometric distributions with parameter 0. *)
Definition discrete (k : kind) : Prop := match k with KUniformDis | KBernoulli | KPoisson | KGeometric | KBinomial => True | _ => False end.
Theorem c115_accepted (k : kind) (a b : R) : discrete k -> (k = KUniformDis -> integer a /\ integer b) -> (k = KBinomial -> integer b) ->
  (exists d, dist_new k a b = Ok d /\ d = Dist k a b) /\ (ordinary (Dist k a b) \/ constant (Dist k a b) \/ (a = 0 /\ (k = KPoisson \/ k = KGeometric))) \/ dist_new k a b = Throw /\ ~ ordinary (Dist k a b) /\ ~ constant (Dist k a b).
Proof.
  intros K I1 I2. unfold dist_new, ordinary, constant. cbn [d_kind p1 p2]. destruct k; try contradiction.
  - destruct (I1 eq_refl) as [Ia Ib]. destruct (Rlt_dec b a) as [L|L].
    + right. rewrite fin_lt by exact L. split; [reflexivity|]. split; [intros (_ & _ & H); lra|intros (_ & H); lra].
    + left. rewrite fin_ge by lra. split; [eexists; split; reflexivity|]. destruct (Req_dec a b); [right; left; auto|left; repeat split; auto; lra].
  - destruct (Rlt_dec a 0) as [L|L]; [right; rewrite fin_lt by exact L; split; [reflexivity|lra]|]. rewrite fin_ge by lra. destruct (Rlt_dec 1 a) as [L1|L1]; [right; rewrite fin_lt by exact L1; split; [reflexivity|lra]|]. rewrite fin_ge by lra.
    left. split; [eexists; split; reflexivity|]. destruct (Req_dec a 0); [right; left; auto|]. destruct (Req_dec a 1); [right; left; auto|]. left. lra.
  - destruct (Rlt_dec a 0) as [L|L]; [right; rewrite fin_lt by exact L; split; [reflexivity|split; [lra|tauto]]|]. rewrite fin_ge by lra. left. split; [eexists; split; reflexivity|]. destruct (Req_dec a 0); [right; right; auto|]. left. lra.
  - destruct (Rlt_dec a 0) as [L|L]; [right; rewrite fin_lt by exact L; split; [reflexivity|lra]|]. rewrite fin_ge by lra. destruct (Rlt_dec 1 a) as [L1|L1]; [right; rewrite fin_lt by exact L1; split; [reflexivity|lra]|]. rewrite fin_ge by lra.
    left. split; [eexists; split; reflexivity|]. destruct (Req_dec a 0); [right; right; auto|]. destruct (Req_dec a 1); [right; left; auto|]. left. lra.
  - specialize (I2 eq_refl). destruct (Rlt_dec a 0) as [L|L]; [right; rewrite fin_lt by exact L; split; [reflexivity|split; [lra|intros [_ H]; lra]]|]. rewrite fin_ge by lra. destruct (Rlt_dec 1 a) as [L1|L1]; [right; rewrite fin_lt by exact L1; split; [reflexivity|split; [lra|intros [_ H]; lra]]|]. rewrite (fin_ge 1 a) by lra.
    destruct (Rlt_dec b 0) as [L2|L2]; [right; rewrite fin_lt by exact L2; split; [reflexivity|split; [lra|intros [_ H]; lra]]|]. rewrite fin_ge by lra.
    left. split; [eexists; split; reflexivity|]. destruct (Req_dec b 0); [right; left; split; auto; left; split; [auto|lra]|]. destruct (Req_dec a 0); [right; left; split; auto; right; split; [lra|auto]|]. destruct (Req_dec a 1); [right; left; split; auto; right; split; [lra|auto]|]. left. repeat split; auto; lra.
Qed.
Print Assumptions c115_accepted.
(** These two are accepted, but their probabilities are wrong: the only value of the Poisson distribution has the probability NaN, ... *)
Theorem c115_poisson_zero_refuted (s : special) (b : R) : exists d, dist_new KPoisson 0 b = Ok d /\ density s d 0 = NaN.
Proof.
  eexists. unfold dist_new. rewrite fin_ge by lra. split; [reflexivity|]. unfold density, minimum, maximum. cbn [d_kind p1 p2]. cbv zeta. rewrite fin_ge by lra. cbn [orb xlt]. cbn [xlog]. destruct (Rlt_dec 0 0); [lra|]. cbn [xmul]. unfold xinf. rewrite Ropp_0. destruct (Rlt_dec 0 0); [lra|]. reflexivity.
Qed.
Print Assumptions c115_poisson_zero_refuted.
(** ... all those of the geometric distribution are zero. *)
Theorem c115_geometric_zero_refuted (s : special) (b : R) : exists d, dist_new KGeometric 0 b = Ok d /\ (forall k, density s d (INR k) = Fin 0) /\ mean d = PInf.
Proof.
  exists (Dist KGeometric 0 b). unfold dist_new. rewrite !fin_ge by lra. split; [reflexivity|]. split.
  - intros k. rewrite geometric_density by (cbn; auto; lra). unfold geo. cbn [p1]. f_equal. ring.
  - unfold mean. cbn [d_kind p1 p2]. cbv zeta. cbn [xsub xopp xadd xdiv]. destruct (Req_EM_T 0 0); [|contradiction]. unfold xinf. destruct (Rlt_dec 0 (1 + - 0)); [reflexivity|lra].
Qed.
Print Assumptions c115_geometric_zero_refuted.
(** The bounds of the discrete uniform distribution are not checked to be integers: with 0 and 1/2 the sum of the probabilities is 2/3. *)
Theorem c115_fraction_refuted (s : special) : exists d, dist_new KUniformDis 0 (1 / 2) = Ok d /\ forall m, expectation 0 (fun x => fin (density s d x)) (fun _ => 1) m -> m = 2 / 3.
Proof.
  exists (Dist KUniformDis 0 (1 / 2)). unfold dist_new. rewrite fin_ge by lra. split; [reflexivity|]. intros m Hm. set (d := Dist KUniformDis 0 (1 / 2)) in *.
  assert (D0 : density s d (0 + INR 0) = Fin (2 / 3)).
  { unfold density, minimum, maximum, d. cbn [d_kind p1 p2 INR]. cbv zeta. rewrite !fin_ge by lra. rewrite !fin_le by lra. cbn [orb andb xsub xopp xadd]. rewrite fin_div by lra. f_equal. field. }
  assert (D1 : forall k, (0 < k)%nat -> density s d (0 + INR k) = Fin 0).
  { intros k Hk. apply (le_INR 1) in Hk. cbn [INR] in Hk. unfold density, minimum, maximum, d. cbn [d_kind p1 p2]. cbv zeta. rewrite (fin_lt (1 / 2)) by lra. rewrite Bool.orb_true_r. reflexivity. }
  assert (H : is_series (fun k => fin (density s d (0 + INR k)) * 1) (2 / 3)).
  { eapply series_eq; [reflexivity| |apply (series_finite _ 0)]; [cbn [sum_f_R0]; rewrite D0; cbn [fin]; ring|]. intros k Hk. rewrite D1 by exact Hk. cbn [fin]. ring. }
  exact (eq_trans (eq_sym (is_series_unique _ _ Hm)) (is_series_unique _ _ H)).
Qed.
Print Assumptions c115_fraction_refuted.
(** GetProperty returns the values of the other functions; only the property Maximum has the value of the minimum. *)
Theorem c115_properties (d : dist) : get_property d PMean = mean d /\ get_property d PVariance = variance d /\ get_property d PStandardError = deviation d /\ get_property d PSkewness = skewness d /\
  get_property d PKurtosis = kurtosis d /\ get_property d PMinimum = minimum d /\ get_property d PMedian = median d /\ get_property d PMode = mode d.
Proof. repeat split. Qed.
Print Assumptions c115_properties.
Theorem c115_maximum_refuted : exists d, dist_new KBinomial (1 / 2) 5 = Ok d /\ maximum d = Fin 5 /\ get_property d PMaximum = Fin 0.
Proof. eexists. unfold dist_new. rewrite !fin_ge by lra. repeat split. Qed.
Print Assumptions c115_maximum_refuted.

(** A function with the equation of the gamma function: it is 1 in (0, 1]. *)
Definition gam (x : R) : R := ff (Z.to_nat (- Int_part (- x) - 1)) (x - 1).
Lemma gam_ok : gamma_function gam.
Proof.
  assert (B : forall x, IZR (- Int_part (- x)) - 1 < x <= IZR (- Int_part (- x))) by (intros x; rewrite opp_IZR; destruct (base_Int_part (- x)); lra).
  assert (P : forall x, 0 < x -> (1 <= - Int_part (- x))%Z) by (intros x Hx; specialize (B x); assert (H : 0 < IZR (- Int_part (- x))) by lra; apply (lt_IZR 0) in H; lia).
  split; [|split].
  - unfold gam. replace (Z.to_nat (- Int_part (- (1)) - 1)) with 0%nat; [reflexivity|]. specialize (B 1). assert (H : IZR (- Int_part (- (1))) < 2) by lra. apply lt_IZR in H. lia.
  - intros x Hx. specialize (P x Hx) as Px. unfold gam. assert (E : (- Int_part (- (x + 1)) = - Int_part (- x) + 1)%Z).
    { pose proof (B x) as B1. pose proof (B (x + 1)) as B2. apply Z.le_antisymm; apply Z.lt_succ_r; apply lt_IZR; rewrite ?succ_IZR, ?plus_IZR; lra. }
    rewrite E. replace (Z.to_nat (- Int_part (- x) + 1 - 1)) with (S (Z.to_nat (- Int_part (- x) - 1))) by lia. cbn [ff]. replace (x + 1 - 1) with x by ring. reflexivity.
  - intros x Hx. unfold gam. assert (G : forall n y, INR n < y + 1 -> 0 < ff n y).
    { induction n as [|n IH]; intros y Hy; cbn [ff]; [lra|]. rewrite S_INR in Hy. pose proof (pos_INR n). apply Rmult_lt_0_compat; [lra|apply IH; lra]. }
    apply G. rewrite INR_IZR_INZ, Z2Nat.id by (specialize (P x Hx); lia). rewrite minus_IZR. specialize (B x). lra.
Qed.
Definition some_special : special := Special (fun _ => 0) (fun _ => 0) gam (fun x => ln (gam x)) (fun _ _ => 0) (fun _ _ _ => 0) (fun _ _ _ => 0) (fun _ _ => 0) (fun _ _ => 0).
Example c115_case : gamma_function (s_tgamma some_special) /\ log_gamma (s_lgamma some_special) (s_tgamma some_special) /\ ordinary (Dist KBinomial (1 / 2) 4) /\ ordinary (Dist KPoisson 3 0) /\ ordinary (Dist KGeometric (1 / 4) 0) /\ ordinary (Dist KUniformDis (-2) 5) /\
  constant (Dist KUniformDis 3 3) /\ mean (Dist KBinomial (1 / 2) 4) = Fin 2 /\ variance (Dist KBinomial (1 / 2) 4) = Fin 1 /\ density some_special (Dist KBinomial (1 / 2) 4) 2 = Fin (6 / 16).
Proof.
  split; [exact gam_ok|]. split; [intros x Hx; reflexivity|]. unfold ordinary, constant. cbn [d_kind p1 p2].
  split; [repeat split; try lra; exists 4%Z; reflexivity|]. split; [lra|]. split; [lra|]. split; [repeat split; try lra; [exists (-2)%Z|exists 5%Z]; reflexivity|]. split; [split; [exists 3%Z; reflexivity|reflexivity]|].
  split; [fins; f_equal; field|]. split; [fins; f_equal; field|].
  pose proof (binomial_density some_special (Dist KBinomial (1 / 2) 4) 4 2 eq_refl ltac:(cbn; lra) ltac:(cbn; lra)) as D. cbn [INR p1] in D. replace (1 + 1) with 2 in D by ring. rewrite D. f_equal. unfold bino, Binomial.C. cbn. field.
Qed.
