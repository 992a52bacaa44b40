(** C116: distribution functions of the discrete distributions. *)
From Coq Require Import Reals Lra Lia ZArith.
From Coquelicot Require Import Coquelicot.
From Verif Require Import UdModel UdSpec UdProofs UdProofs2 UdProofs3 Prop_UdMoments.
Local Open Scope R_scope.

(** The functions of boost at the arguments which occur for integers: the incomplete gamma function and the incomplete beta function. *)
Definition integer_gamma (s : special) : Prop := forall n, incomplete_gamma (s_gammap s (INR n + 1)) (INR n + 1) (INR (fact n)).
Definition integer_beta (s : special) : Prop := forall n m, (m < n)%nat -> incomplete_beta (s_ibeta s (INR (n - m)) (INR m + 1)) (INR (n - m)) (INR m + 1) (INR (fact (n - m - 1)) * INR (fact m) / INR (fact n)).
(** The arguments for which the distribution function is right. *)
Definition cdf_domain (d : dist) (x : R) : Prop :=
  match d_kind d with
  | KUniformDis => True
  | KBernoulli => x <> 0
  | KGeometric | KPoisson => x < 0 \/ integer x
  | KBinomial => x < 0 \/ p2 d < x \/ (integer x /\ x <> p2 d)
  | _ => False
  end.
Lemma floor_between lo x : lo <= x -> exists n, lo + INR n <= x < lo + INR (S n).
Proof.
  intros H. exists (Z.to_nat (Int_part (x - lo))). destruct (base_Int_part (x - lo)) as [H1 H2]. assert (H0 : (0 <= Int_part (x - lo))%Z) by (assert (H3 : -1 < IZR (Int_part (x - lo))) by lra; apply lt_IZR in H3; lia).
  rewrite S_INR, INR_IZR_INZ, Z2Nat.id by exact H0. lra.
Qed.
Lemma nat_between lo (x : R) n m : lo + INR n <= x < lo + INR (S n) -> lo + INR m <= x < lo + INR (S m) -> n = m.
Proof. intros [A B] [C0 D]. assert (H1 : INR n < INR (S m)) by lra. assert (H2 : INR m < INR (S n)) by lra. apply INR_lt in H1, H2. lia. Qed.
Lemma up_to_at lo f pm x m c : (forall k, f (lo + INR k) = pm k) -> lo + INR m <= x < lo + INR (S m) -> c = sum_f_R0 pm m -> probability_up_to lo f x c.
Proof.
  intros H Hm E. split; [pose proof (pos_INR m); lra|]. intros n Hn. rewrite (nat_between lo x n m Hn Hm), E. apply sum_eq. intros i _. symmetry. apply H.
Qed.
Lemma up_to_low lo f (x : R) : x < lo -> probability_up_to lo f x 0.
Proof. intros H. split; [reflexivity|]. intros n Hn. pose proof (pos_INR n). lra. Qed.
Lemma unif_all n m : (n <= m)%nat -> sum_f_R0 (unif n) m = 1.
Proof.
  intros H. induction H as [|m H IH]; [rewrite unif_sum by lia; field; pose proof (pos_INR n); lra|]. cbn [sum_f_R0]. rewrite IH. unfold unif. rewrite (proj2 (Nat.leb_gt (S m) n)) by lia. ring.
Qed.
Lemma bino_all n p m : (n <= m)%nat -> sum_f_R0 (bino n p) m = 1.
Proof.
  intros H. induction H as [|m H IH].
  - pose proof (bino_ff p 0 n) as F. cbn [ff pow] in F. rewrite Rmult_1_r in F. rewrite <- F. apply sum_eq. intros. ring.
  - cbn [sum_f_R0]. rewrite IH. unfold bino. rewrite (proj2 (Nat.leb_gt (S m) n)) by lia. ring.
Qed.
Lemma floor_is x n : INR n <= x < INR (S n) -> Int_part x = Z.of_nat n.
Proof. rewrite S_INR, INR_IZR_INZ. intros H. unfold Int_part. rewrite <- (tech_up x (Z.of_nat n + 1)); [lia| |]; rewrite plus_IZR; lra. Qed.
Theorem c116_cdf (s : special) (d : dist) (x : R) : gamma_function (s_tgamma s) -> log_gamma (s_lgamma s) (s_tgamma s) -> integer_gamma s -> integer_beta s -> ordinary d -> cdf_domain d x ->
  exists lo c, minimum d = Fin lo /\ cdf s d (Fin x) = Fin c /\ (forall k, exists y, density s d (lo + INR k) = Fin y) /\ probability_up_to lo (fun x => fin (density s d x)) x c.
Proof.
  intros G LG IG IB O CD. destruct d as [k a b]. unfold ordinary in O. unfold cdf_domain in CD. cbn [d_kind p1 p2] in O, CD. destruct k; try contradiction.
  - destruct O as (Ia & Ib & L). destruct (integer_nat a b Ia Ib ltac:(lra)) as [n ->]. set (d := Dist KUniformDis a (a + INR n)). pose proof (uniform_density s d n) as D. specialize (fun k => D k eq_refl eq_refl). cbn [p1 d] in D.
    assert (D' : forall k, fin (density s d (a + INR k)) = unif n k) by (intros k; rewrite D; reflexivity). exists a. unfold cdf, minimum, maximum. cbn [d_kind p1 p2 d]. cbv zeta.
    destruct (Rlt_dec x a) as [Lx|Lx]; [rewrite fin_lt by exact Lx; exists 0; split; [reflexivity|]; split; [reflexivity|]; split; [intros k; eexists; apply D|apply up_to_low; exact Lx]|].
    rewrite (fin_ge x a) by lra. destruct (floor_between a x ltac:(lra)) as [m Hm]. pose proof (pos_INR n) as Pn. destruct (Rlt_dec (a + INR n) x) as [L2|L2].
    + rewrite fin_lt by exact L2. exists 1. split; [reflexivity|]. split; [reflexivity|]. split; [intros k; eexists; apply D|]. apply (up_to_at a _ (unif n) x m); auto. symmetry. apply unif_all. assert (H : INR n < INR (S m)) by lra. apply INR_lt in H. lia.
    + rewrite (fin_ge (a + INR n)) by lra. cbn [xeq]. destruct Ia as [za Za]. assert (F : Int_part x = (za + Z.of_nat m)%Z) by (unfold Int_part; rewrite <- (tech_up x (za + Z.of_nat m + 1)); [lia| |]; rewrite !plus_IZR, <- INR_IZR_INZ, <- Za; rewrite S_INR in Hm; lra).
      cbn [xfloor]. rewrite F. cbn [xopp xadd xsub xmul]. rewrite fin_div by lra. assert (Hmn : (m <= n)%nat) by (apply INR_le; lra). exists ((INR m + 1) / (INR n + 1)). split; [reflexivity|].
      split; [|split; [intros k; eexists; apply D|apply (up_to_at a _ (unif n) x m); auto; symmetry; apply unif_sum; exact Hmn]].
      unfold xmin. replace (IZR (za + Z.of_nat m) + - a + 1) with (INR m + 1) by (rewrite plus_IZR, <- INR_IZR_INZ, <- Za; ring). replace (a + INR n + - a + 1) with (INR n + 1) by ring. apply le_INR in Hmn.
      destruct (Req_dec (INR m) (INR n)) as [Em|Em]; [rewrite Em; rewrite fin_ge by (right; field; lra); f_equal; field; lra|]. rewrite fin_lt; [reflexivity|]. apply (Rmult_lt_reg_r (INR n + 1)); [lra|]. unfold Rdiv. rewrite Rmult_assoc, Rinv_l by lra. lra.
  - set (d := Dist KBernoulli a b). pose proof (bernoulli_density s d) as D. specialize (fun k => D k eq_refl). cbn [p1 d] in D. assert (D0 := zero_plus (density s d) (bino 1 a) D); clear D; rename D0 into D.
    assert (D' : forall k, fin (density s d (0 + INR k)) = bino 1 a k) by (intros k; rewrite D; reflexivity). exists 0. unfold cdf, minimum, maximum. cbn [d_kind p1 p2 d]. cbv zeta.
    destruct (Rlt_dec x 0) as [Lx|Lx]; [rewrite fin_lt by exact Lx; exists 0; split; [reflexivity|]; split; [reflexivity|]; split; [intros k; eexists; apply D|apply up_to_low; exact Lx]|].
    rewrite (fin_ge x 0) by lra. destruct (floor_between 0 x ltac:(lra)) as [m Hm]. destruct (Rlt_dec x 1) as [L2|L2].
    + rewrite fin_ge by lra. cbn [xeq]. destruct (Req_EM_T x 0); [contradiction|]. destruct (Req_EM_T x 1); [lra|]. cbn [xopp xadd xsub]. eexists. split; [reflexivity|]. split; [reflexivity|]. split; [intros k; eexists; apply D|].
      assert (E : m = 0%nat) by (assert (H : INR m < INR 1) by (cbn [INR] in *; lra); apply INR_lt in H; lia). subst m. apply (up_to_at 0 _ (bino 1 a) x 0); auto. cbn [sum_f_R0]. unfold bino, Binomial.C. cbn. field.
    + exists 1. split; [reflexivity|]. split; [|split; [intros k; eexists; apply D|]].
      * destruct (Req_dec x 1) as [->|N]; [rewrite fin_ge by lra; cbn [xeq]; destruct (Req_EM_T 1 0); [lra|]; destruct (Req_EM_T 1 1); [reflexivity|contradiction]|rewrite fin_lt by lra; reflexivity].
      * apply (up_to_at 0 _ (bino 1 a) x m); auto. symmetry. apply bino_all. assert (H : INR 1 < INR (S m)) by (cbn [INR] in *; lra). apply INR_lt in H. lia.
  - set (d := Dist KPoisson a b). pose proof (poisson_density s d) as D. specialize (fun k => D k eq_refl O G LG). cbn [p1 d] in D. assert (D0 := zero_plus (density s d) (pois a) D); clear D; rename D0 into D. assert (D' : forall k, fin (density s d (0 + INR k)) = pois a k) by (intros k; rewrite D; reflexivity).
    exists 0. unfold cdf, minimum, maximum. cbn [d_kind p1 p2 d]. cbv zeta.
    destruct (Rlt_dec x 0) as [Lx|Lx]; [rewrite fin_lt by exact Lx; exists 0; split; [reflexivity|]; split; [reflexivity|]; split; [intros k; eexists; apply D|apply up_to_low; exact Lx]|].
    destruct CD as [CD|CD]; [lra|]. rewrite (fin_ge x 0) by lra. destruct (integer_nat 0 x (ex_intro _ 0%Z eq_refl) CD ltac:(lra)) as [m Hm]. rewrite Rplus_0_l in Hm. subst x. cbn [xlt xeq xadd xsub xopp lift2]. eexists. split; [reflexivity|]. split; [reflexivity|]. split; [intros k; eexists; apply D|].
    apply (up_to_at 0 _ (pois a) (INR m) m); auto; [rewrite S_INR; lra|]. apply (pois_gamma (s_gammap s (INR m + 1)) m a); auto.
  - set (d := Dist KGeometric a b). pose proof (geometric_density s d) as D. specialize (fun k => D k eq_refl ltac:(cbn; lra)). cbn [p1 d] in D. assert (D0 := zero_plus (density s d) (geo a) D); clear D; rename D0 into D. assert (D' : forall k, fin (density s d (0 + INR k)) = geo a k) by (intros k; rewrite D; reflexivity).
    exists 0. unfold cdf, minimum, maximum. cbn [d_kind p1 p2 d]. cbv zeta.
    destruct (Rlt_dec x 0) as [Lx|Lx]; [rewrite fin_lt by exact Lx; exists 0; split; [reflexivity|]; split; [reflexivity|]; split; [intros k; eexists; apply D|apply up_to_low; exact Lx]|].
    destruct CD as [CD|CD]; [lra|]. rewrite (fin_ge x 0) by lra. destruct (integer_nat 0 x (ex_intro _ 0%Z eq_refl) CD ltac:(lra)) as [m Hm]. rewrite Rplus_0_l in Hm. subst x. cbn [xlt xeq xadd xsub xopp]. replace (INR m + 1) with (INR (S m)) by apply S_INR. rewrite pow_nat by lra. cbn [xlt xeq xadd xsub xopp].
    eexists. split; [reflexivity|]. split; [reflexivity|]. split; [intros k; eexists; apply D|]. apply (up_to_at 0 _ (geo a) (INR m) m); auto; [rewrite S_INR; lra|]. rewrite geo_sum. reflexivity.
  - destruct O as (Pa & Ib & L). destruct (integer_nat 0 b (ex_intro _ 0%Z eq_refl) Ib ltac:(lra)) as [n Hn]. rewrite Rplus_0_l in Hn. set (d := Dist KBinomial a b). pose proof (binomial_density s d n) as D. specialize (fun k => D k eq_refl Hn ltac:(cbn; lra)). cbn [p1 d] in D. assert (D0 := zero_plus (density s d) (bino n a) D); clear D; rename D0 into D.
    assert (D' : forall k, fin (density s d (0 + INR k)) = bino n a k) by (intros k; rewrite D; reflexivity). exists 0. unfold cdf, minimum, maximum. cbn [d_kind p1 p2 d]. cbv zeta.
    destruct (Rlt_dec x 0) as [Lx|Lx]; [rewrite fin_lt by exact Lx; exists 0; split; [reflexivity|]; split; [reflexivity|]; split; [intros k; eexists; apply D|apply up_to_low; exact Lx]|].
    destruct CD as [CD|CD]; [lra|]. rewrite (fin_ge x 0) by lra. destruct (Rlt_dec b x) as [L2|L2].
    + rewrite fin_lt by exact L2. exists 1. split; [reflexivity|]. split; [reflexivity|]. split; [intros k; eexists; apply D|]. destruct (floor_between 0 x ltac:(lra)) as [m Hm]. apply (up_to_at 0 _ (bino n a) x m); auto. symmetry. apply bino_all. assert (H : INR n < INR (S m)) by lra. apply INR_lt in H. lia.
    + rewrite (fin_ge b x) by lra. destruct CD as [CD|[CD CN]]; [lra|]. destruct (integer_nat 0 x (ex_intro _ 0%Z eq_refl) CD ltac:(lra)) as [m Hm]. rewrite Rplus_0_l in Hm. assert (Hmn : (m < n)%nat) by (apply INR_lt; lra). rewrite Hm, Hn. cbn [xeq]. assert (Pm : INR m < INR n) by (apply lt_INR; exact Hmn). pose proof (pos_INR m) as Pm0.
      cbn [xopp xadd xsub xmul]. rewrite !fin_div by lra. cbn [xopp xadd xsub xmul].
      assert (P2 : 0 < (1 + - a) / a * ((INR m + 1) / (INR n + - INR m))) by (apply Rmult_lt_0_compat; apply Rdiv_lt_0_compat; lra). assert (P3 : 0 < 2 * (INR n + - INR m) * ((1 + - a) / a * ((INR m + 1) / (INR n + - INR m)))) by (apply Rmult_lt_0_compat; lra).
      rewrite fin_div by lra. cbn [lift3]. replace (2 * (INR n + - INR m) / 2) with (INR (n - m)) by (rewrite minus_INR by lia; field). replace (2 * (INR m + 1) / 2) with (INR m + 1) by field.
      replace (2 * (INR n + - INR m) * ((1 + - a) / a * ((INR m + 1) / (INR n + - INR m))) / (2 * (INR n + - INR m) * ((1 + - a) / a * ((INR m + 1) / (INR n + - INR m))) + 2 * (INR m + 1))) with (1 - a) by (field; repeat split; nra).
      eexists. split; [reflexivity|]. split; [reflexivity|]. split; [intros k; eexists; apply D|]. apply (up_to_at 0 _ (bino n a) (INR m) m); auto; [rewrite S_INR; lra|]. rewrite (bino_beta _ n m (1 - a) Hmn (IB n m Hmn)) by lra. unfold bino_sum_upto. apply sum_eq. intros i _. f_equal. ring.
Qed.
Print Assumptions c116_cdf.

(** ** Order and range *)
Lemma up_to_mono lo (f : R -> R) x y c e : (forall k, 0 <= f (lo + INR k)) -> probability_up_to lo f x c -> probability_up_to lo f y e -> x <= y -> 0 <= c <= e.
Proof.
  intros P [C0 C1] [E0 E1] L. assert (N : forall n, 0 <= sum_f_R0 (fun k => f (lo + INR k)) n) by (intros n; apply cond_pos_sum; intros; apply P).
  destruct (Rlt_dec x lo) as [Hx|Hx].
  - rewrite (C0 Hx). destruct (Rlt_dec y lo) as [Hy|Hy]; [rewrite (E0 Hy); lra|]. destruct (floor_between lo y ltac:(lra)) as [m Hm]. rewrite (E1 m Hm). specialize (N m). lra.
  - destruct (floor_between lo x ltac:(lra)) as [n Hn]. destruct (floor_between lo y ltac:(lra)) as [m Hm]. rewrite (C1 n Hn), (E1 m Hm). split; [apply N|].
    assert (H : (n <= m)%nat) by (assert (H : INR n < INR (S m)) by lra; apply INR_lt in H; lia). clear - P H. induction H as [|m H IH]; [lra|]. cbn [sum_f_R0]. specialize (P (S m)). lra.
Qed.
Lemma up_to_one lo (f : R -> R) x c : (forall k, 0 <= f (lo + INR k)) -> expectation lo f (fun _ => 1) 1 -> probability_up_to lo f x c -> c <= 1.
Proof.
  intros P Ex [C0 C1]. destruct (Rlt_dec x lo) as [Hx|Hx]; [rewrite (C0 Hx); lra|]. destruct (floor_between lo x ltac:(lra)) as [n Hn]. rewrite (C1 n Hn).
  apply is_series_Reals in Ex. rewrite <- (sum_eq (fun k => f (lo + INR k) * 1)) by (intros; ring). apply sum_incr; [exact Ex|]. intros k. rewrite Rmult_1_r. apply P.
Qed.
Theorem c116_order (s : special) (d : dist) (x y : R) : gamma_function (s_tgamma s) -> log_gamma (s_lgamma s) (s_tgamma s) -> integer_gamma s -> integer_beta s -> ordinary d -> cdf_domain d x -> cdf_domain d y -> x <= y ->
  exists c e, cdf s d (Fin x) = Fin c /\ cdf s d (Fin y) = Fin e /\ 0 <= c <= e /\ e <= 1.
Proof.
  intros G LG IG IB O Dx Dy L. destruct (c116_cdf s d x G LG IG IB O Dx) as (lo & c & Hl & Hc & _ & U). destruct (c116_cdf s d y G LG IG IB O Dy) as (lo' & e & Hl' & He & _ & V). rewrite Hl in Hl'. injection Hl' as <-.
  destruct (c115_moments s d G LG O) as (lo' & mu & v & sk & ku & Hl' & _ & _ & _ & _ & _ & _ & (HP & HS & _) & _). rewrite Hl in Hl'. injection Hl' as <-.
  exists c, e. split; [exact Hc|]. split; [exact He|]. split; [exact (up_to_mono lo _ x y c e HP U V L)|exact (up_to_one lo _ y e HP HS V)].
Qed.
Print Assumptions c116_order.
(** At the infinities, for all distributions. *)
Theorem c116_infinity (s : special) (d : dist) : cdf s d NInf = Fin 0 /\ cdf s d PInf = Fin 1.
Proof. destruct d as [k a b]. destruct k; split; reflexivity. Qed.
Print Assumptions c116_infinity.
(** ** Where it is wrong *)
Lemma up_to_nat lo f n c : probability_up_to lo f (lo + INR n) c -> c = sum_f_R0 (fun k => f (lo + INR k)) n.
Proof. intros [_ H]. apply H. rewrite S_INR. lra. Qed.
(** The probability of the value 0 of a Bernoulli variable is 1 - p, the distribution function is 0. *)
Theorem c116_bernoulli_refuted (s : special) (p b : R) : 0 < p < 1 -> exists d, dist_new KBernoulli p b = Ok d /\ cdf s d (Fin 0) = Fin 0 /\ forall c, probability_up_to 0 (fun x => fin (density s d x)) 0 c -> c = 1 - p /\ 0 < c.
Proof.
  intros P. exists (Dist KBernoulli p b). unfold dist_new. rewrite !fin_ge by lra. split; [reflexivity|]. split.
  - unfold cdf, minimum, maximum. cbn [d_kind p1 p2]. cbv zeta. rewrite !fin_ge by lra. cbn [xeq]. destruct (Req_EM_T 0 0); [reflexivity|contradiction].
  - intros c H. assert (H0 : probability_up_to 0 (fun x => fin (density s (Dist KBernoulli p b) x)) (0 + INR 0) c) by (cbn [INR]; rewrite Rplus_0_r; exact H). clear H; rename H0 into H. apply (up_to_nat 0 _ 0) in H. cbn [sum_f_R0] in H. rewrite Rplus_0_l in H. rewrite bernoulli_density in H by reflexivity. cbn [fin p1] in H. unfold bino, Binomial.C in H. cbn in H. replace (1 - p) with c by (rewrite H; field). assert (c = 1 - p) by (rewrite H; field). lra.
Qed.
Print Assumptions c116_bernoulli_refuted.
(** At the number of trials the binomial distribution function is NaN (if boost returns a NaN for NaN). *)
Theorem c116_binomial_refuted (s : special) (n : nat) (p : R) : 0 < p < 1 -> exists d, dist_new KBinomial p (INR n) = Ok d /\ cdf s d (Fin (INR n)) = NaN /\ forall c, probability_up_to 0 (fun x => fin (density s d x)) (INR n) c -> c = 1.
Proof.
  intros P. exists (Dist KBinomial p (INR n)). unfold dist_new. pose proof (pos_INR n) as Pn. rewrite !fin_ge by lra. split; [reflexivity|]. split.
  - unfold cdf, minimum, maximum. cbn [d_kind p1 p2]. cbv zeta. rewrite !fin_ge by lra. cbn [xeq]. cbn [xopp xadd xsub xmul]. rewrite (fin_div _ p) by lra. replace (INR n + - INR n) with 0 by ring. replace (xdiv (Fin (INR n + 1)) (Fin 0)) with PInf.
    + cbn [xmul]. replace (xinf ((1 + - p) / p)) with PInf by (unfold xinf; destruct (Rlt_dec 0 ((1 + - p) / p)) as [_|N]; [reflexivity|exfalso; apply N; apply Rdiv_lt_0_compat; lra]). cbn [xmul]. replace (xinf (2 * 0)) with NaN by (unfold xinf; rewrite Rmult_0_r; destruct (Rlt_dec 0 0); [lra|reflexivity]). cbn [xadd]. rewrite !fin_div by lra. reflexivity.
    + cbn [xdiv]. destruct (Req_EM_T 0 0); [|contradiction]. unfold xinf. destruct (Rlt_dec 0 (INR n + 1)); [reflexivity|lra].
  - intros c H. assert (H0 : probability_up_to 0 (fun x => fin (density s (Dist KBinomial p (INR n)) x)) (0 + INR n) c) by (rewrite Rplus_0_l; exact H). clear H; rename H0 into H. apply (up_to_nat 0 _ n) in H. rewrite H, <- (bino_all n p n) by lia. apply sum_eq. intros i _. rewrite Rplus_0_l.
    rewrite (binomial_density s (Dist KBinomial p (INR n)) n) by (cbn; auto; lra). reflexivity.
Qed.
Print Assumptions c116_binomial_refuted.
(** The geometric distribution function is not constant between integers. *)
Theorem c116_geometric_refuted (s : special) (b : R) : exists d c, dist_new KGeometric (1 / 2) b = Ok d /\ cdf s d (Fin (1 / 2)) = Fin c /\ forall e, probability_up_to 0 (fun x => fin (density s d x)) (1 / 2) e -> e = 1 / 2 /\ e < c.
Proof.
  exists (Dist KGeometric (1 / 2) b). exists (1 - Rpower (1 / 2) (3 / 2)). unfold dist_new. rewrite !fin_ge by lra. split; [reflexivity|]. split.
  - unfold cdf, minimum, maximum. cbn [d_kind p1 p2]. cbv zeta. rewrite !fin_ge by lra. cbn [xeq xlt xopp xadd xsub]. rewrite fin_pow by lra. cbn [xopp xadd]. unfold Rminus. replace (1 + - (1 / 2)) with (1 / 2) by field. replace (1 / 2 + 1) with (3 / 2) by field. reflexivity.
  - intros c [_ H]. specialize (H 0%nat ltac:(cbn; lra)). cbn [sum_f_R0] in H. rewrite Rplus_0_l in H. rewrite geometric_density in H by (cbn; auto; lra). cbn [fin p1] in H. unfold geo in H. cbn in H. assert (E : c = 1 / 2) by (rewrite H; field). split; [exact E|]. rewrite E.
    assert (L : Rpower (1 / 2) (3 / 2) < Rpower (1 / 2) 1); [|rewrite (Rpower_1 (1 / 2)) in L by lra; lra]. unfold Rpower. apply exp_increasing. assert (ln (1 / 2) < 0) by (rewrite <- ln_1; apply ln_increasing; lra). lra.
Qed.
Print Assumptions c116_geometric_refuted.

(** ** Functions with the required properties *)
Lemma pois_lim k : is_lim (fun y => pois y k) p_infty 0.
Proof.
  apply (is_lim_le_le_loc (fun _ => 0) (fun y => INR (S k) * / y)).
  - exists 0. intros y Hy. split; [apply pois_pos; lra|]. unfold pois. pose proof (pois_sum_upto_le y) as _ || idtac.
    assert (H : y ^ S k / INR (fact (S k)) <= exp y).
    { pose proof (sum_incr (fun j => y ^ j / INR (fact j)) (S k) (exp y)) as S1. assert (U : Un_cv (fun n => sum_f_R0 (fun j => y ^ j / INR (fact j)) n) (exp y)).
      { pose proof (is_exp_Reals y) as E. apply is_pseries_R in E. apply is_series_Reals in E. intros e He. destruct (E e He) as [N HN]. exists N. intros n Hn. specialize (HN n Hn). erewrite sum_eq; [exact HN|]. intros i _. cbv beta. field. apply INR_fact_neq_0. }
      specialize (S1 U). assert (P : forall n, 0 <= y ^ n / INR (fact n)) by (intros n; apply Rmult_le_pos; [apply pow_le; lra|left; apply Rinv_0_lt_compat, INR_fact_lt_0]). specialize (S1 P). cbn [sum_f_R0] in S1. pose proof (cond_pos_sum (fun j => y ^ j / INR (fact j)) k P). lra. }
    rewrite exp_Ropp. rewrite fact_simpl, mult_INR in H. cbn [pow] in H. pose proof (exp_pos y) as Pe. pose proof (INR_fact_lt_0 k) as Pf. assert (Ps : 0 < INR (S k)) by (apply lt_0_INR; lia).
    apply (Rmult_le_reg_l (exp y)); [exact Pe|]. rewrite <- Rmult_assoc, Rinv_r, Rmult_1_l by lra. apply (Rmult_le_reg_l (y / INR (S k))); [apply Rdiv_lt_0_compat; lra|].
    replace (y / INR (S k) * (y ^ k / INR (fact k))) with (y * y ^ k / (INR (S k) * INR (fact k))) by (field; lra). replace (y / INR (S k) * (exp y * (INR (S k) * / y))) with (exp y) by (field; lra). exact H.
  - apply is_lim_const.
  - replace (Finite 0) with (Rbar_mult (INR (S k)) 0) by (cbn; f_equal; ring). apply is_lim_scal_l. apply (is_lim_inv (fun y => y) p_infty p_infty); [apply is_lim_id|discriminate].
Qed.
Lemma pois_sum_lim n : is_lim (pois_sum_upto n) p_infty 0.
Proof.
  induction n as [|n IH]; [exact (pois_lim 0)|]. apply (is_lim_ext (fun y => pois_sum_upto n y + pois y (S n))); [reflexivity|]. replace (Finite 0) with (Finite (0 + 0)) by (f_equal; ring). apply is_lim_plus'; [exact IH|apply pois_lim].
Qed.
Definition gammap_n (a y : R) : R := 1 - pois_sum_upto (Z.to_nat (Int_part (a - 1))) y.
Definition ibeta_n (a b q : R) : R := let m := Z.to_nat (Int_part (b - 1)) in bino_sum_upto (Z.to_nat (Int_part a) + m) m q.
Definition discrete_special : special := Special (fun _ => 0) (fun _ => 0) gam (fun x => ln (gam x)) (fun _ _ => 0) ibeta_n (fun _ _ _ => 0) gammap_n (fun _ _ => 0).
Lemma sum_first (f : nat -> R) n : (forall k, f (S k) = 0) -> sum_f_R0 f n = f 0%nat.
Proof. intros H. induction n as [|n IH]; cbn [sum_f_R0]; [reflexivity|]. rewrite IH, H. ring. Qed.
Lemma gammap_ok : integer_gamma discrete_special.
Proof.
  intros n. unfold discrete_special, gammap_n. cbn [s_gammap]. replace (INR n + 1 - 1) with (INR n) by ring. rewrite floor_nat, Nat2Z.id. assert (S0 : pois_sum_upto n 0 = 1).
  { unfold pois_sum_upto. rewrite sum_first; [unfold pois; cbn; rewrite Ropp_0, exp_0; field|]. intros k. unfold pois. rewrite pow_i by lia. unfold Rdiv. ring. }
  assert (D : forall y, is_derive (fun y => 1 - pois_sum_upto n y) y (y ^ n * exp (- y) / INR (fact n))).
  { intros y. replace (y ^ n * exp (- y) / INR (fact n)) with (0 - - (y ^ n * exp (- y) / INR (fact n))) by ring. apply (is_derive_minus (fun _ => 1)); [apply (is_derive_const (K := R_AbsRing) (V := R_NormedModule))|apply pois_derive]. }
  split; [rewrite S0; ring|]. split; [|split].
  - replace 0 with (1 - pois_sum_upto n 0) at 2 by (rewrite S0; ring). apply (right_of (fun y => 1 - pois_sum_upto n y)). apply (ex_derive_continuous (fun y => 1 - pois_sum_upto n y)). eexists. apply D.
  - intros x Hx. replace (INR n + 1 - 1) with (INR n) by ring. rewrite rpower_nat by exact Hx. apply D.
  - replace (Finite 1) with (Finite (1 - 0)) by (f_equal; ring). apply is_lim_minus'; [apply is_lim_const|apply pois_sum_lim].
Qed.
Lemma ibeta_ok : integer_beta discrete_special.
Proof.
  intros n m Hm. unfold discrete_special, ibeta_n. cbn [s_ibeta]. replace (INR m + 1 - 1) with (INR m) by ring. rewrite !floor_nat, !Nat2Z.id. replace (n - m + m)%nat with n by lia.
  assert (B1 : bino_sum_upto n m 1 = 1) by (unfold bino_sum_upto; rewrite sum_first; [unfold bino, Binomial.C; cbn [Nat.leb pow fact INR]; replace (1 - (1 - 1)) with 1 by ring; rewrite pow1, Nat.sub_0_r; field; apply INR_fact_neq_0|]; intros k; unfold bino; replace (1 - 1) with 0 by ring; rewrite (pow_i (S k)) by lia; destruct (S k <=? n)%nat; ring).
  assert (B0 : bino_sum_upto n m 0 = 0).
  { unfold bino_sum_upto. clear B1. revert Hm. induction m as [|m IH]; intros Hm; cbn [sum_f_R0].
    - unfold bino. cbn [Nat.leb]. replace (1 - (1 - 0)) with 0 by ring. rewrite (pow_i (n - 0)) by lia. ring.
    - rewrite IH by lia. unfold bino. replace (1 - (1 - 0)) with 0 by ring. destruct (S m <=? n)%nat eqn:E; [|ring]. rewrite (pow_i (n - S m)) by lia. ring. }
  assert (CC : forall q, continuous (bino_sum_upto n m) q) by (intros q; apply (ex_derive_continuous (bino_sum_upto n m)); eexists; apply bino_derive; exact Hm).
  split; [exact B0|]. split; [exact B1|]. split; [rewrite <- B0 at 2; apply right_of; apply CC|]. split; [rewrite <- B1 at 2; apply left_of; apply CC|]. intros u Hu.
  replace (Rpower u (INR (n - m) - 1) * Rpower (1 - u) (INR m + 1 - 1) / (INR (fact (n - m - 1)) * INR (fact m) / INR (fact n))) with (INR (fact n) / (INR (fact (n - m - 1)) * INR (fact m)) * (u ^ (n - m - 1) * (1 - u) ^ m)); [apply bino_derive; exact Hm|].
  replace (INR (n - m) - 1) with (INR (n - m - 1)) by (rewrite (minus_INR (n - m) 1) by lia; reflexivity). replace (INR m + 1 - 1) with (INR m) by ring. rewrite !rpower_nat by lra. field. repeat split; apply INR_fact_neq_0.
Qed.
Example c116_case : integer_gamma discrete_special /\ integer_beta discrete_special /\ ordinary (Dist KBinomial (1 / 2) 2) /\ cdf_domain (Dist KBinomial (1 / 2) 2) 1 /\ cdf discrete_special (Dist KBinomial (1 / 2) 2) (Fin 1) = Fin (3 / 4) /\
  ordinary (Dist KPoisson 3 0) /\ cdf_domain (Dist KPoisson 3 0) 2 /\ ordinary (Dist KUniformDis (-2) 5) /\ cdf_domain (Dist KUniformDis (-2) 5) (1 / 2).
Proof.
  assert (O : ordinary (Dist KBinomial (1 / 2) 2)) by (unfold ordinary; cbn; repeat split; try lra; exists 2%Z; reflexivity). assert (CD : cdf_domain (Dist KBinomial (1 / 2) 2) 1) by (unfold cdf_domain; cbn; right; right; split; [exists 1%Z; reflexivity|lra]).
  split; [exact gammap_ok|]. split; [exact ibeta_ok|]. split; [exact O|]. split; [exact CD|]. split.
  - destruct (c116_cdf discrete_special _ 1 gam_ok ltac:(intros x Hx; reflexivity) gammap_ok ibeta_ok O CD) as (lo & c & Hl & Hc & _ & U). rewrite Hc. f_equal. injection Hl as <-. assert (U0 : probability_up_to 0 (fun x => fin (density discrete_special (Dist KBinomial (1 / 2) 2) x)) (0 + INR 1) c) by (cbn [INR]; rewrite Rplus_0_l; exact U). clear U; rename U0 into U. apply (up_to_nat 0 _ 1) in U. rewrite U. cbn [sum_f_R0]. rewrite !Rplus_0_l.
    rewrite !(binomial_density _ (Dist KBinomial (1 / 2) 2) 2) by (cbn; auto; lra). cbn [fin p1]. unfold bino, Binomial.C. cbn. field.
  - split; [cbn; lra|]. split; [right; exists 2%Z; reflexivity|]. split; [|cbn; trivial]. unfold ordinary; cbn. repeat split; try lra; [exists (-2)%Z|exists 5%Z]; reflexivity.
Qed.
