(** C120: standard deviations and medians. *)
From Coq Require Import Reals Lra Lia ZArith.
From Coquelicot Require Import Coquelicot.
From Verif Require Import UdModel UdSpec UdSpec2 UdSpec3 UdProofs UdProofs2 UdProofs3 UdProofs4 UdProofs5 UdProofs6 UdProofs7 UdProofs8 UdProofs9 Prop_UdMoments Prop_UdCdf Prop_UdCont Prop_UdQuant.
Local Open Scope R_scope.

(** The standard deviation is the square root of the variance. *)
Theorem c120_deviation (k : kind) (a b : R) (d : dist) : dist_new k a b = Ok d -> k <> KLogNormal -> deviation d = xsqrt (variance d).
Proof.
  intros H N. assert (E : d = Dist k a b) by (unfold dist_new in H; cbv zeta in H; match type of H with (if ?c then _ else _) = _ => destruct c end; [discriminate|injection H as <-; reflexivity]). subst d. destruct k; try reflexivity; [|congruence].
  unfold deviation, variance. cbn [d_kind p1 p2 xmul]. assert (B : 0 <= b) by (destruct (Rlt_le_dec b 0) as [L|L]; [|exact L]; unfold dist_new in H; rewrite fin_lt in H by exact L; discriminate). rewrite fin_sqrt by nra. rewrite sqrt_square by exact B. reflexivity.
Qed.
Print Assumptions c120_deviation.
(** For log-normal distributions it does not depend on the second parameter. *)
Theorem c120_lognormal_refuted : exists d v, dist_new KLogNormal 1 1 = Ok d /\ deviation d = Fin 1 /\ variance d = Fin v /\ sqrt v <> 1.
Proof.
  exists (Dist KLogNormal 1 1), ((exp (1 * 1) + - (1)) * exp (1 + 1 + 1 * 1)). split; [unfold dist_new; rewrite fin_ge by lra; reflexivity|]. split; [unfold deviation; cbn [d_kind p1]; rewrite fin_div by lra; f_equal; field|]. split; [reflexivity|].
  replace (1 * 1) with 1 by ring. pose proof (exp_ineq1 1 ltac:(lra)) as E1. pose proof (exp_ineq1 (1 + 1 + 1) ltac:(lra)) as E3. intros E. assert (Q : 0 <= (exp 1 + - (1)) * exp (1 + 1 + 1)) by nra. pose proof (sqrt_sqrt _ Q) as S. rewrite E in S. nra.
Qed.
Print Assumptions c120_lognormal_refuted.
(** ** Continuous distributions: the distribution function is 1/2 at the median, and nowhere else. *)
Definition with_median (k : kind) : Prop := match k with KNormal | KLogNormal | KT | KUniformCon | KExponential => True | _ => False end.
Lemma erfc_0 E : error_function E -> E 0 = 1.
Proof. intros H. pose proof (erfc_neg E 0 H) as K. rewrite Ropp_0 in K. lra. Qed.
Lemma half_unique s d x y : proper d -> library_ok s d -> cdf s d (Fin x) = Fin (1 / 2) -> cdf s d (Fin y) = Fin (1 / 2) -> y = x.
Proof.
  intros P L Ex Ey. destruct (all_good s d P L) as (l & u & f & Mi & Ma & Lu & D & _ & Lo & Hig & _). assert (Fx : dfun s d x = 1 / 2) by (unfold dfun; rewrite Ex; reflexivity). assert (Fy : dfun s d y = 1 / 2) by (unfold dfun; rewrite Ey; reflexivity).
  assert (In : forall z, dfun s d z = 1 / 2 -> between l u z). { intros z Fz. split; [destruct (Rbar_lt_le_dec l z) as [A|A]; [exact A|specialize (Lo z A); lra]|destruct (Rbar_lt_le_dec z u) as [A|A]; [exact A|specialize (Hig z A); lra]]. }
  apply (inject_in l u (dfun s d) f); [intros t Ht; destruct (D t Ht) as (_ & F1 & F2); auto|auto|auto|lra].
Qed.
Theorem c120_continuous (s : special) (d : dist) : proper d -> library_ok s d -> with_median (d_kind d) ->
  exists m, median d = Fin m /\ cdf s d (Fin m) = Fin (1 / 2) /\ (forall y, cdf s d (Fin y) = Fin (1 / 2) -> y = m).
Proof.
  intros P L W. assert (T : exists m, median d = Fin m /\ cdf s d (Fin m) = Fin (1 / 2)); [|destruct T as (m & E & C0); exists m; split; [exact E|]; split; [exact C0|]; intros y Hy; exact (half_unique s d m y P L C0 Hy)].
  pose proof sqrt2_pos as S2. destruct d as [k a b]. unfold proper, library_ok, with_median in *. cbn [d_kind p1 p2] in *. cbv zeta in *. destruct k; try contradiction.
  - exists ((a + b) / 2). split; [unfold median; cbn [d_kind p1 p2 xadd]; rewrite fin_div by lra; reflexivity|]. cdf0. cbn [xsub xopp xadd]. rewrite fin_div by lra. f_equal. field. lra.
  - exists a. split; [reflexivity|]. cdf0. cbn [xsub xopp xadd xmul]. rewrite fin_div by nra. cbn [xerfc xmul]. replace ((a + - a) / (b * sqrt 2)) with 0 by (field; lra). rewrite erfc_0 by exact L. f_equal. ring.
  - destruct L as (G1 & G2 & HI). exists 0. split; [reflexivity|]. rewrite t_cdf by exact P. unfold tcdf. destruct (Rle_dec 0 0); [|lra]. f_equal. apply (G_zero _ a _ P HI).
  - exists (ln 2 / a). assert (L2 : 0 < ln 2) by (rewrite <- ln_1; apply ln_increasing; lra). assert (Q : 0 < ln 2 / a) by (apply Rdiv_lt_0_compat; assumption). split; [unfold median; cbn [d_kind p1 p2]; rewrite fin_div by lra; reflexivity|]. cdf0. cbn [xsub xopp xadd xmul xexp]. replace (- a * (ln 2 / a)) with (- ln 2) by (field; lra). rewrite exp_Ropp, exp_ln by lra. f_equal. field.
  - exists (exp a). pose proof (exp_pos a). split; [reflexivity|]. cdf0. rewrite fin_log by lra. rewrite ln_exp. cbn [xsub xopp xadd xmul]. rewrite fin_div by nra. cbn [xerfc xmul]. replace ((a + - a) / (b * sqrt 2)) with 0 by (field; lra). rewrite erfc_0 by exact L. f_equal. ring.
Qed.
Print Assumptions c120_continuous.
(** The chi-squared distribution with two degrees of freedom: an approximation. *)
Theorem c120_chi2_refuted : exists s m c, library_ok s (Dist KChi2 2 0) /\ median (Dist KChi2 2 0) = Fin m /\ cdf s (Dist KChi2 2 0) (Fin m) = Fin c /\ c <> 1 / 2.
Proof.
  exists simple_special, (1024 / 729), (1 - exp (- (512 / 729))). split; [apply c117_case|]. split; [|split].
  - unfold median. cbn [d_kind p1]. cbv zeta. cbn [xmul]. rewrite fin_div by lra. cbn [xsub xopp xadd xmul]. f_equal. field.
  - cdf0. rewrite !fin_div by lra. cbn [lift2 simple_special s_gammap]. f_equal. f_equal. f_equal. field.
  - intros E. assert (X : exp (512 / 729) = 2) by (rewrite <- (Ropp_involutive (512 / 729)), exp_Ropp; replace (exp (- (512 / 729))) with (/ 2) by lra; field). 
    pose proof (exp_ge_taylor (512 / 729) 3 ltac:(lra)) as Tay. cbn in Tay. lra.
Qed.
Print Assumptions c120_chi2_refuted.
(** ** Discrete distributions *)
Lemma median_from lo (f : R -> R) (pm : nat -> R) (v : R) (m : nat) : (forall k, f (lo + INR k) = pm k) -> (forall k, 0 <= pm k) -> lo + INR m <= v < lo + INR (S m) -> 1 / 2 <= sum_f_R0 pm m ->
  (m = 0%nat \/ sum_f_R0 pm (m - 1) <= 1 / 2) -> (v = lo + INR m \/ sum_f_R0 pm m <= 1 / 2) -> discrete_median lo f v.
Proof.
  intros Hf Pp Hv H1 H2 H3. assert (E : forall n, sum_f_R0 (fun k => f (lo + INR k)) n = sum_f_R0 pm n) by (intros n; apply sum_eq; intros; apply Hf). split.
  - intros c [_ Hc]. rewrite (Hc m Hv), E. exact H1.
  - intros x c Lx [Hl Hc]. destruct (Rlt_dec x lo) as [L|L]; [rewrite (Hl L); lra|]. destruct (floor_between lo x ltac:(lra)) as (n & Hn). rewrite (Hc n Hn), E.
    assert (Hnm : (n < S m)%nat) by (apply INR_lt; lra). destruct (Nat.eq_dec n m) as [->|N].
    + destruct H3 as [H3|H3]; [lra|exact H3].
    + destruct H2 as [->|H2]; [lia|]. apply Rle_trans with (2 := H2). assert (M : forall i j, (i <= j)%nat -> sum_f_R0 pm i <= sum_f_R0 pm j) by (intros i j Hij; induction Hij as [|j Hij IH]; [lra|]; cbn [sum_f_R0]; specialize (Pp (S j)); lra). apply M. lia.
Qed.
Lemma int_part_eq x z : IZR z <= x < IZR z + 1 -> Int_part x = z.
Proof. intros H. unfold Int_part. rewrite <- (tech_up x (z + 1)); [lia| |]; rewrite plus_IZR; lra. Qed.
(** A Bernoulli distribution, a uniform distribution on integers, a geometric distribution with 0 < p < 1: the median of the probabilities which the density function gives. *)
Theorem c120_discrete (s : special) (d : dist) : match d_kind d with KBernoulli => 0 <= p1 d <= 1 | KUniformDis => integer (p1 d) /\ integer (p2 d) /\ p1 d <= p2 d | KGeometric => 0 < p1 d < 1 | _ => False end ->
  exists lo m, minimum d = Fin lo /\ median d = Fin m /\ (forall k, exists y, density s d (lo + INR k) = Fin y) /\ discrete_median lo (fun x => fin (density s d x)) m.
Proof.
  destruct d as [k a b]. cbn [d_kind p1 p2]. destruct k; try contradiction; intros H.
  - destruct H as (Ia & Ib & Lt). destruct (integer_nat a b Ia Ib Lt) as (n & En). pose proof (fun k => uniform_density s (Dist KUniformDis a b) n k eq_refl En) as D. cbn [p1] in D. exists a, ((a + b) / 2). split; [reflexivity|]. split; [unfold median; cbn [d_kind p1 p2 xadd]; rewrite fin_div by lra; reflexivity|]. split; [intros k; eexists; apply D|].
    pose proof (Nat.div_mod_eq n 2) as Dm. pose proof (Nat.mod_upper_bound n 2 ltac:(lia)) as Dr. set (m := (n / 2)%nat) in *. set (r := (n mod 2)%nat) in *. assert (Rn : INR n = 2 * INR m + INR r) by (rewrite Dm, plus_INR, mult_INR; cbn; ring). assert (Mn : (m <= n)%nat) by lia. pose proof (pos_INR n) as Pn. pose proof (pos_INR m) as Pm.
    assert (Rr : INR r = 0 \/ INR r = 1) by (destruct r as [|[|r']]; [left|right|lia]; reflexivity).
    apply (median_from a _ (unif n) _ m).
    + intros k. rewrite D. reflexivity.
    + intros k. unfold unif. destruct (k <=? n)%nat; [left; apply Rinv_0_lt_compat; lra|lra].
    + rewrite S_INR. subst b. lra.
    + rewrite unif_sum by exact Mn. apply (Rmult_le_reg_r (INR n + 1)); [lra|]. unfold Rdiv. rewrite !Rmult_assoc, Rinv_l by lra. lra.
    + destruct m as [|m']; [left; reflexivity|right]. rewrite unif_sum by lia. replace (S m' - 1)%nat with m' by lia. rewrite S_INR in *. apply (Rmult_le_reg_r (INR n + 1)); [lra|]. unfold Rdiv. rewrite !Rmult_assoc, Rinv_l by lra. lra.
    + destruct Rr as [R|R]; [left; subst b; lra|right]. rewrite unif_sum by exact Mn. right. rewrite Rn, R. field. lra.
  - pose proof (fun k => bernoulli_density s (Dist KBernoulli a b) k eq_refl) as D. cbn [p1] in D. assert (D0 := zero_plus (density s (Dist KBernoulli a b)) (bino 1 a) D). exists 0. assert (B0 : bino 1 a 0 = 1 - a) by (unfold bino, Binomial.C; cbn; field). assert (B1 : bino 1 a 1 = a) by (unfold bino, Binomial.C; cbn; field).
    assert (Pp : forall k, 0 <= bino 1 a k) by (intros; apply bino_pos; lra). unfold median. cbn [d_kind p1 p2]. cbv zeta. destruct (Rlt_dec a (1 / 2)) as [L|L]; [rewrite fin_lt by exact L|rewrite fin_ge by lra; destruct (Rlt_dec (1 / 2) a) as [L2|L2]; [rewrite fin_lt by exact L2|rewrite fin_ge by lra]]; (eexists; split; [reflexivity|]; split; [reflexivity|]; split; [intros k; eexists; apply D0|]).
    + apply (median_from 0 _ (bino 1 a) _ 0); [intros k; rewrite D0; reflexivity|exact Pp|cbn; lra|cbn [sum_f_R0]; rewrite B0; lra|left; reflexivity|left; cbn; ring].
    + apply (median_from 0 _ (bino 1 a) _ 1); [intros k; rewrite D0; reflexivity|exact Pp|cbn; lra|cbn [sum_f_R0]; rewrite B0, B1; lra|right; cbn [Nat.sub sum_f_R0]; rewrite B0; lra|left; cbn; ring].
    + apply (median_from 0 _ (bino 1 a) _ 0); [intros k; rewrite D0; reflexivity|exact Pp|cbn; lra|cbn [sum_f_R0]; rewrite B0; lra|left; reflexivity|right; cbn [sum_f_R0]; rewrite B0; lra].
  - pose proof (fun k => geometric_density s (Dist KGeometric a b) k eq_refl ltac:(cbn; lra)) as D. cbn [p1] in D. assert (D0 := zero_plus (density s (Dist KGeometric a b)) (geo a) D). assert (L2 : 0 < ln 2) by (rewrite <- ln_1; apply ln_increasing; lra). assert (Lq : ln (1 - a) < 0) by (rewrite <- ln_1; apply ln_increasing; lra).
    set (r := - ln 2 / ln (1 - a)). assert (Rp : 0 < r) by (unfold r; replace (- ln 2 / ln (1 - a)) with (ln 2 / (- ln (1 - a))) by (field; lra); apply Rdiv_lt_0_compat; lra).
    destruct (base_Int_part (- r)) as [I1 I2]. set (z := Int_part (- r)) in *. assert (Zn : (z < 0)%Z) by (apply lt_IZR; lra). set (m := Z.to_nat (- z - 1)). assert (Em : INR m = - IZR z - 1) by (unfold m; rewrite INR_IZR_INZ, Z2Nat.id by lia; rewrite minus_IZR, opp_IZR; ring).
    exists 0, (INR m). split; [reflexivity|]. split; [|split; [intros k; eexists; apply D0|]].
    + unfold median. cbn [d_kind p1 p2]. cbv zeta. rewrite !fin_ne by lra. cbn [xsub xopp xadd]. rewrite fin_log by lra. rewrite fin_div by (change (1 + - a) with (1 - a); lra). change (1 + - a) with (1 - a). fold r. unfold xceil. cbn [xopp xfloor]. fold z. cbn [xopp xadd xsub]. f_equal. rewrite Em. ring.
    + assert (K : forall j, (1 - a) ^ j = exp (INR j * ln (1 - a))) by (intros j; rewrite <- Rpower_pow by lra; reflexivity). assert (Half : exp (- ln 2) = 1 / 2) by (rewrite exp_Ropp, exp_ln by lra; field). assert (Rl : r * ln (1 - a) = - ln 2) by (unfold r; field; lra).
      apply (median_from 0 _ (geo a) _ m); [intros k; rewrite D0; reflexivity| |rewrite S_INR; lra| | |left; ring].
      * intros k. unfold geo. apply Rmult_le_pos; [apply pow_le|]; lra.
      * rewrite geo_sum, K. assert (Q : exp (INR (S m) * ln (1 - a)) <= exp (- ln 2)); [|lra]. assert (X : INR (S m) * ln (1 - a) <= - ln 2) by (rewrite S_INR, Em; rewrite <- Rl; nra). destruct X as [X|X]; [left; apply exp_increasing; exact X|rewrite X; lra].
      * destruct m as [|m'] eqn:Hm; [left; reflexivity|right]. replace (S m' - 1)%nat with m' by lia. rewrite geo_sum, K. assert (Q : exp (- ln 2) <= exp (INR (S m') * ln (1 - a))); [|lra]. assert (X : - ln 2 <= INR (S m') * ln (1 - a)) by (rewrite Em; rewrite <- Rl; nra). destruct X as [X|X]; [left; apply exp_increasing; exact X|rewrite X; lra].
Qed.
Print Assumptions c120_discrete.
(** The Poisson distribution with mean 1/100: the median is negative. The binomial distribution with one trial and p = 9/10: value 0 with probability 1/10 only. The geometric distribution with p = 1: value 1 instead of 0. *)
Theorem c120_discrete_refuted (s : special) (b : R) : (exists d, dist_new KPoisson (1 / 100) b = Ok d /\ median d = Fin (-2) /\ minimum d = Fin 0) /\
  (exists d, dist_new KBinomial (9 / 10) 1 = Ok d /\ median d = Fin 0 /\ density s d 0 = Fin (1 / 10) /\ ~ discrete_median 0 (fun x => fin (density s d x)) 0) /\
  (exists d, dist_new KGeometric 1 b = Ok d /\ median d = Fin 1 /\ density s d 0 = Fin 1 /\ ~ discrete_median 0 (fun x => fin (density s d x)) 1).
Proof.
  split; [|split].
  - exists (Dist KPoisson (1 / 100) b). split; [unfold dist_new; rewrite fin_ge by lra; reflexivity|]. split; [|reflexivity]. unfold median. cbn [d_kind p1]. cbv zeta. rewrite !fin_div by lra. cbn [xadd xsub xopp xfloor]. rewrite (int_part_eq _ (-2)) by lra. reflexivity.
  - exists (Dist KBinomial (9 / 10) 1). split; [unfold dist_new; rewrite !fin_ge by lra; reflexivity|]. assert (D : density s (Dist KBinomial (9 / 10) 1) 0 = Fin (1 / 10)).
    { pose proof (binomial_density s (Dist KBinomial (9 / 10) 1) 1 0 eq_refl eq_refl ltac:(cbn; lra)) as D. cbn [INR] in D. rewrite D. cbn [p1]. unfold bino, Binomial.C. cbn. f_equal. field. }
    split; [unfold median; cbn [d_kind p1 p2 xmul xfloor]; rewrite (int_part_eq _ 0) by lra; reflexivity|]. split; [exact D|]. intros [H _]. specialize (H (1 / 10)). assert (X : 1 / 2 <= 1 / 10); [|lra]. apply H. split; [intros; lra|]. intros n Hn. destruct n as [|n]; [|rewrite S_INR in Hn; pose proof (pos_INR n); lra]. cbn [sum_f_R0 INR]. rewrite Rplus_0_r, D. reflexivity.
  - exists (Dist KGeometric 1 b). split; [unfold dist_new; rewrite !fin_ge by lra; reflexivity|]. assert (D : density s (Dist KGeometric 1 b) 0 = Fin 1).
    { pose proof (geometric_density s (Dist KGeometric 1 b) 0 eq_refl ltac:(cbn; lra)) as D. cbn [INR] in D. rewrite D. cbn [p1]. unfold geo. cbn. f_equal. ring. }
    split; [unfold median; cbn [d_kind p1]; cbv zeta; rewrite fin_ne by lra; rewrite fin_eq by reflexivity; reflexivity|]. split; [exact D|]. intros [_ H]. specialize (H 0 1 ltac:(lra)). assert (X : 1 <= 1 / 2); [|lra]. apply H. split; [intros; lra|]. intros n Hn. destruct n as [|n]; [|rewrite S_INR in Hn; pose proof (pos_INR n); lra]. cbn [sum_f_R0 INR]. rewrite Rplus_0_r, D. reflexivity.
Qed.
Print Assumptions c120_discrete_refuted.
Example c120_case : median (Dist KBernoulli (3 / 4) 0) = Fin 1 /\ median (Dist KUniformDis 1 4) = Fin (5 / 2) /\ library_ok simple_special (Dist KNormal 3 2) /\ median (Dist KNormal 3 2) = Fin 3 /\ deviation (Dist KNormal 3 2) = Fin 2.
Proof.
  split; [unfold median; cbn [d_kind p1]; cbv zeta; rewrite fin_ge by lra; rewrite fin_lt by lra; reflexivity|]. split; [unfold median; cbn [d_kind p1 p2 xadd]; rewrite fin_div by lra; f_equal; field|]. split; [apply c117_case; lra|]. split; reflexivity.
Qed.
