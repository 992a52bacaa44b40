(** Quantiles of continuous distributions: general lemmas, the t distribution with 1, 2 and 4 degrees of freedom. *)
From Coq Require Import Reals Ranalysis5 Lra Lia.
From Coquelicot Require Import Coquelicot.
From Verif Require Import UdModel UdSpec UdSpec2 UdProofs2 UdProofs3 UdProofs4 UdProofs5 UdProofs6 UdProofs7.
Local Open Scope R_scope.

(** ** Strictly increasing functions on an interval *)
Section Interval.
Variables (l u : Rbar) (F f : R -> R).
Hypothesis Lu : Rbar_lt l u.
Hypothesis D : forall x, between l u x -> is_derive F x (f x) /\ 0 < f x.
Lemma mid x y t : between l u x -> between l u y -> x <= t <= y -> between l u t.
Proof using.
  intros [A _] [_ B] [H1 H2]. split; [apply (Rbar_lt_le_trans l x t); [exact A|exact H1]|apply (Rbar_le_lt_trans t y u); [exact H2|exact B]].
Qed.
Lemma strict_in x y : between l u x -> between l u y -> x < y -> F x < F y.
Proof using D.
  intros Hx Hy L. destruct (MVT_gen F x y f) as (c & Hc & E).
  - intros t Ht. rewrite Rmin_left, Rmax_right in Ht by lra. apply D. apply (mid x y); auto. lra.
  - intros t Ht. rewrite Rmin_left, Rmax_right in Ht by lra. apply continuity_pt_filterlim. apply (ex_derive_continuous F). exists (f t). apply D. apply (mid x y); auto.
  - rewrite Rmin_left, Rmax_right in Hc by lra. destruct (D c (mid x y c Hx Hy Hc)) as [_ P]. nra.
Qed.
Lemma inject_in x y : between l u x -> between l u y -> F x = F y -> x = y.
Proof using D. intros Hx Hy E. destruct (Rtotal_order x y) as [H|[H|H]]; [|exact H|]; [pose proof (strict_in x y Hx Hy H)|pose proof (strict_in y x Hy Hx H)]; lra. Qed.
Hypothesis LL : filterlim F (toward_low l) (locally 0).
Hypothesis LH : filterlim F (toward_high u) (locally 1).
Lemma lnot : l <> p_infty. Proof using Lu. clear F f D LL LH. intros ->. destruct u; exact Lu. Qed.
Lemma unot : u <> m_infty. Proof using Lu. clear F f D LL LH. intros ->. destruct l; exact Lu. Qed.
Lemma low_lt x : between l u x -> exists t : R, between l u t /\ t < x.
Proof using.
  clear F f D LL LH Lu. intros [A B]. destruct l as [l'| |]; cbn in A; [exists ((l' + x) / 2)|contradiction|exists (x - 1)]; (split; [split; [cbn; lra|]|lra]); apply (Rbar_lt_trans _ x u); try exact B; cbn; lra.
Qed.
Lemma high_gt x : between l u x -> exists t : R, between l u t /\ x < t.
Proof using.
  clear F f D LL LH Lu. intros [A B]. destruct u as [u'| |]; cbn in B; [exists ((u' + x) / 2)|exists (x + 1)|contradiction]; (split; [split; [apply (Rbar_lt_trans _ x); [exact A|]; cbn; lra|cbn; lra]|lra]).
Qed.
Lemma range_le x : between l u x -> 0 <= F x <= 1.
Proof using Lu D LL LH.
  intros Hx. pose proof lnot as N1. pose proof unot as N2. split.
  - assert (Q : Rbar_le 0 (F x)); [|exact Q]. apply (filterlim_le (F := toward_low l) F (fun _ => F x)); [|exact LL|apply filterlim_const].
    generalize (near_low l x (proj1 Hx) N1). apply filter_imp. intros t [A B]. apply Rlt_le, strict_in; [split; [exact A|]|exact Hx|lra]. apply (Rbar_lt_trans t x u); [exact B|apply Hx].
  - assert (Q : Rbar_le (F x) 1); [|exact Q]. apply (filterlim_le (F := toward_high u) (fun _ => F x) F); [|apply filterlim_const|exact LH].
    generalize (near_high u x (proj2 Hx) N2). apply filter_imp. intros t [A B]. apply Rlt_le, strict_in; [exact Hx|split; [|exact A]|lra]. apply (Rbar_lt_trans l x t); [apply Hx|exact B].
Qed.
Lemma range_lt x : between l u x -> 0 < F x < 1.
Proof using Lu D LL LH.
  intros Hx. destruct (low_lt x Hx) as (t & Bt & Lt). destruct (high_gt x Hx) as (w & Bw & Lw). pose proof (strict_in t x Bt Hx Lt). pose proof (strict_in x w Hx Bw Lw). pose proof (range_le t Bt). pose proof (range_le w Bw). lra.
Qed.
Lemma middle : exists m, between l u m.
Proof using Lu.
  clear F f D LL LH. destruct l as [l'| |], u as [u'| |]; cbn in Lu; try contradiction; [exists ((l' + u') / 2)|exists (l' + 1)|exists (u' - 1)|exists 0]; split; cbn; try lra; trivial.
Qed.
Lemma inverse_in p : 0 < p < 1 -> exists x, between l u x /\ F x = p.
Proof using Lu D LL LH.
  intros Hp. pose proof lnot as N1. pose proof unot as N2. destruct middle as (m & Bm). 
  assert (A : exists a : R, between l u a /\ F a < p).
  { assert (T : toward_low l (fun t => F t < p)) by (apply (LL (fun y => y < p)); exists (mkposreal p (proj1 Hp)); intros y Hy; apply ball_pos in Hy; lra).
    assert (PF : ProperFilter (toward_low l)) by typeclasses eauto. destruct (filter_ex _ (filter_and _ _ T (near_low l m (proj1 Bm) N1))) as (a & Fa & La & Lt). exists a. split; [|exact Fa]. split; [exact La|]. apply (Rbar_lt_trans a m u); [exact Lt|apply Bm]. }
  assert (B : exists b : R, between l u b /\ p < F b).
  { assert (T : toward_high u (fun t => p < F t)) by (apply (LH (fun y => p < y)); exists (mkposreal (1 - p) ltac:(lra)); intros y Hy; apply ball_pos in Hy; lra).
    assert (PF : ProperFilter (toward_high u)) by typeclasses eauto. destruct (filter_ex _ (filter_and _ _ T (near_high u m (proj2 Bm) N2))) as (a & Fa & La & Lt). exists a. split; [|exact Fa]. split; [|exact La]. apply (Rbar_lt_trans l m a); [apply Bm|exact Lt]. }
  destruct A as (a & Ba & Fa). destruct B as (b & Bb & Fb). assert (ab : a < b).
  { destruct (Rlt_le_dec a b) as [H|[H|H]]; [exact H| |subst; lra]. pose proof (strict_in b a Bb Ba H). lra. }
  destruct (IVT_interv (fun t => F t - p) a b) as (x & Hx & Ex); [|exact ab|lra|lra|].
  - intros t Ht. apply continuity_pt_filterlim. apply (continuous_minus F (fun _ => p)); [|apply continuous_const]. apply (ex_derive_continuous F). exists (f t). apply D. apply (mid a b); auto.
  - exists x. split; [apply (mid a b); auto|lra].
Qed.
(** the inverse as a least upper bound *)
Definition lub_inverse (p : R) : R := real (Lub_Rbar (fun x => between l u x /\ F x <= p)).
Lemma lub_inverse_ok p : 0 < p < 1 -> between l u (lub_inverse p) /\ F (lub_inverse p) = p.
Proof using Lu D LL LH.
  intros Hp. destruct (inverse_in p Hp) as (x & Bx & Ex). assert (E : lub_inverse p = x); [|rewrite E; auto]. unfold lub_inverse. rewrite (is_lub_Rbar_unique _ (Finite x)); [reflexivity|]. split.
  - intros y [By Fy]. cbn. destruct (Rle_lt_dec y x) as [H|H]; [exact H|]. pose proof (strict_in x y Bx By H). lra.
  - intros b Hb. apply Hb. split; [exact Bx|lra].
Qed.
End Interval.
(** ** Functions with proportional derivatives and the same limits *)
Lemma derive_zero_const (g : R -> R) : (forall t : R, is_derive g t 0) -> forall x y, g x = g y.
Proof.
  intros H. assert (K : forall x y, x < y -> g x = g y).
  { intros x y L. destruct (MVT_gen g x y (fun _ => 0)) as (c & _ & E); [intros t _; apply H|intros t _; apply continuity_pt_filterlim; apply (ex_derive_continuous g); exists 0; apply H|lra]. }
  intros x y. destruct (Rtotal_order x y) as [L|[->|L]]; [apply K; exact L|reflexivity|symmetry; apply K; exact L].
Qed.
Lemma proportional (F H f : R -> R) (k : R) : (forall t, is_derive F t (f t)) -> (forall t, is_derive H t (k * f t)) -> is_lim F m_infty 0 -> is_lim F p_infty 1 -> is_lim H m_infty 0 -> is_lim H p_infty 1 -> forall t, F t = H t.
Proof.
  intros DF DH F0 F1 H0 H1. assert (C0 : forall x y, H x - k * F x = H y - k * F y).
  { apply (derive_zero_const (fun t => H t - k * F t)). intros t. replace 0 with (k * f t - k * f t) by ring. apply (is_derive_minus H); [apply DH|]. apply is_derive_scal. apply DF. }
  assert (L0 : is_lim (fun t => H t - k * F t) m_infty (0 - k * 0)) by (apply is_lim_minus'; [exact H0|]; apply (is_lim_scal_l F k m_infty 0); exact F0).
  assert (L1 : is_lim (fun t => H t - k * F t) p_infty (1 - k * 1)) by (apply is_lim_minus'; [exact H1|]; apply (is_lim_scal_l F k p_infty 1); exact F1).
  assert (E0 : H 0 - k * F 0 = 0 - k * 0).
  { apply is_lim_unique in L0. rewrite (Lim_ext (fun _ => H 0 - k * F 0) (fun t => H t - k * F t)) in L0 by (intros; apply C0). rewrite Lim_const in L0. injection L0. auto. }
  assert (E1 : H 0 - k * F 0 = 1 - k * 1).
  { apply is_lim_unique in L1. rewrite (Lim_ext (fun _ => H 0 - k * F 0) (fun t => H t - k * F t)) in L1 by (intros; apply C0). rewrite Lim_const in L1. injection L1. auto. }
  assert (k = 1) by lra. subst k. intros t. pose proof (C0 t 0). lra.
Qed.
Lemma odd_low (g : R -> R) (L : R) : (forall t, g (- t) = - g t) -> is_lim g p_infty L -> is_lim g m_infty (- L).
Proof.
  intros O H. apply (is_lim_ext (fun t => - g (- t))); [intros t; rewrite O; ring|]. apply (is_lim_opp (fun t => g (- t)) m_infty L). apply (is_lim_comp g (fun t => - t) m_infty L p_infty); [exact H| |exists 0; intros; discriminate].
  apply (is_lim_opp (fun t => t) m_infty m_infty). apply is_lim_id.
Qed.
(** ** Values of the t distribution function *)
Definition ratio (k t : R) : R := t / sqrt (k + t * t).
Lemma kt_pos k t : 0 < k -> 0 < k + t * t.
Proof. intros K. pose proof (Rle_0_sqr t) as Q. unfold Rsqr in Q. lra. Qed.
Lemma ratio_odd k t : ratio k (- t) = - ratio k t.
Proof. unfold ratio. replace (- t * - t) with (t * t) by ring. unfold Rdiv. ring. Qed.
Lemma inv_square_lim k : 0 < k -> is_lim (fun t => k / (k + t * t)) p_infty 0.
Proof.
  intros K. replace (Finite 0) with (Rbar_mult k 0) by (cbn; f_equal; ring). apply (is_lim_scal_l (fun t => / (k + t * t))). apply (is_lim_inv (fun t => k + t * t) p_infty p_infty); [|discriminate].
  intros P [M HM]. exists (Rmax 1 M). intros t Ht. apply HM. pose proof (Rmax_l 1 M). pose proof (Rmax_r 1 M). nra.
Qed.
Lemma ratio_high k : 0 < k -> is_lim (ratio k) p_infty 1.
Proof.
  intros K. apply (is_lim_ext_loc (fun t => sqrt (1 - k / (k + t * t)))).
  - exists 0. intros t Ht. pose proof (kt_pos k t K) as P. unfold ratio. replace (1 - k / (k + t * t)) with ((t * t) / (k + t * t)) by (field; lra). rewrite sqrt_div by nra. change (t * t) with (Rsqr t) at 1. rewrite sqrt_Rsqr by lra. reflexivity.
  - replace (Finite 1) with (Finite (sqrt (1 - 0))) by (rewrite Rminus_0_r, sqrt_1; reflexivity). apply (is_lim_comp_continuous (fun t => 1 - k / (k + t * t)) sqrt p_infty (1 - 0)); [|apply continuous_sqrt].
    apply is_lim_minus'; [apply is_lim_const|apply inv_square_lim; exact K].
Qed.
Lemma ratio_derive k t : 0 < k -> is_derive (ratio k) t (k / ((k + t * t) * sqrt (k + t * t))).
Proof.
  intros K. pose proof (kt_pos k t K) as P. assert (S : 0 < sqrt (k + t * t)) by (apply sqrt_lt_R0; exact P). unfold ratio. auto_derive; [split; [exact P|split; [lra|trivial]]|]. assert (W : sqrt (k + t * t) * sqrt (k + t * t) = k + t * t) by (apply sqrt_sqrt; lra).
  revert S W. generalize (sqrt (k + t * t)). intros w S W. rewrite <- W. replace k with (w * w - t * t) by lra. field. lra.
Qed.
Section Dof.
Variables (I : R -> R) (c : R).
Hypothesis Hc : 0 < c.
Lemma sqrt1 : sqrt 1 = 1. Proof using. apply sqrt_1. Qed.
Lemma atan_high : is_lim atan p_infty (PI / 2).
Proof using.
  apply (is_lim_ext_loc (fun t => PI / 2 - atan (/ t))); [exists 0; intros t Ht; rewrite atan_inv by exact Ht; ring|]. replace (Finite (PI / 2)) with (Finite (PI / 2 - atan 0)) by (rewrite atan_0; f_equal; ring).
  apply is_lim_minus'; [apply is_lim_const|]. apply (is_lim_comp_continuous (fun t => / t) atan p_infty 0); [apply (is_lim_inv (fun t => t) p_infty p_infty); [apply is_lim_id|discriminate]|apply continuity_pt_filterlim; apply derivable_continuous_pt; apply derivable_pt_atan].
Qed.
Lemma atan_low : is_lim atan m_infty (- (PI / 2)).
Proof using. apply (odd_low atan (PI / 2)); [intros; apply atan_opp|exact atan_high]. Qed.
Lemma half_scaled (g : R -> R) (r : Rbar) (k L : R) : is_lim g r L -> is_lim (fun t => 1 / 2 + k * g t) r (1 / 2 + k * L).
Proof using. intros H. apply is_lim_plus'; [apply is_lim_const|]. apply (is_lim_scal_l g k r L H). Qed.
Lemma t1_cdf t : incomplete_beta I (1 / 2) (1 / 2) c -> tcdf I 1 t = 1 / 2 + 1 / PI * atan t.
Proof using Hc.
  intros HI. pose proof PI_RGT_0 as PP. apply (proportional (tcdf I 1) (fun t => 1 / 2 + 1 / PI * atan t) (tden 1 c) (c / PI)).
  - intros y. apply tcdf_derive; auto. lra.
  - intros y. pose proof (kt_pos 1 y Rlt_0_1) as P. apply (derive_eq _ _ (0 + 1 / PI * (/ (1 + y ^ 2)))).
    + apply (is_derive_plus (K := R_AbsRing) (V := R_NormedModule)); [apply (is_derive_const (K := R_AbsRing) (V := R_NormedModule))|]. apply is_derive_scal. apply is_derive_Reals. apply derivable_pt_lim_atan.
    + unfold tden. replace (- ((1 + 1) / 2)) with (- (1)) by field. rewrite Rpower_Ropp, Rpower_1 by (unfold Rdiv; rewrite Rinv_1, Rmult_1_r; exact P). rewrite sqrt1. field. repeat split; lra.
  - apply (tcdf_low I 1 c); auto; lra.
  - apply (tcdf_high I 1 c); auto; lra.
  - replace (Finite 0) with (Finite (1 / 2 + 1 / PI * (- (PI / 2)))) by (f_equal; field; lra). apply half_scaled. exact atan_low.
  - replace (Finite 1) with (Finite (1 / 2 + 1 / PI * (PI / 2))) by (f_equal; field; lra). apply half_scaled. exact atan_high.
Qed.
Lemma power_half k (n : nat) a t : 0 < a -> k = (INR n + 1 / 2) -> Rpower (1 + t * t / a) (- k) = a ^ n * sqrt a / ((a + t * t) ^ n * sqrt (a + t * t)).
Proof using.
  intros A ->. pose proof (kt_pos a t A) as P. assert (Sa : 0 < sqrt a) by (apply sqrt_lt_R0; exact A). assert (S : 0 < sqrt (a + t * t)) by (apply sqrt_lt_R0; exact P). pose proof (pow_lt a n A) as Pa. pose proof (pow_lt _ n P) as Pp.
  replace (1 + t * t / a) with ((a + t * t) / a) by (field; lra). assert (Q : 0 < (a + t * t) / a) by (apply Rdiv_lt_0_compat; lra). rewrite Rpower_Ropp, Rpower_plus, Rpower_pow by exact Q. replace (1 / 2) with (/ 2) by field. rewrite Rpower_sqrt by exact Q. rewrite sqrt_div by lra.
  replace (((a + t * t) / a) ^ n) with ((a + t * t) ^ n / a ^ n) by (unfold Rdiv; rewrite Rpow_mult_distr, pow_inv; reflexivity). field. repeat split; lra.
Qed.
Lemma t2_cdf t : incomplete_beta I 1 (1 / 2) c -> tcdf I 2 t = 1 / 2 + 1 / 2 * ratio 2 t.
Proof using Hc.
  intros HI0. assert (HI : incomplete_beta I (2 / 2) (1 / 2) c) by (replace (2 / 2) with 1 by field; exact HI0). apply (proportional (tcdf I 2) (fun t => 1 / 2 + 1 / 2 * ratio 2 t) (tden 2 c) (c / 2)).
  - intros y. apply tcdf_derive; auto. lra.
  - intros y. pose proof (kt_pos 2 y ltac:(lra)) as P. assert (S : 0 < sqrt (2 + y * y)) by (apply sqrt_lt_R0; exact P). assert (S2 := sqrt2_pos). apply (derive_eq _ _ (0 + 1 / 2 * (2 / ((2 + y * y) * sqrt (2 + y * y))))).
    + apply (is_derive_plus (K := R_AbsRing) (V := R_NormedModule)); [apply (is_derive_const (K := R_AbsRing) (V := R_NormedModule))|]. apply is_derive_scal. apply ratio_derive. lra.
    + unfold tden. rewrite (power_half _ 1 2 y) by (cbn; lra). field. repeat split; lra.
  - apply (tcdf_low I 2 c); auto; lra.
  - apply (tcdf_high I 2 c); auto; lra.
  - replace (Finite 0) with (Finite (1 / 2 + 1 / 2 * (- (1)))) by (f_equal; field). apply half_scaled. apply (odd_low (ratio 2) 1); [apply ratio_odd|]. apply ratio_high. lra.
  - replace (Finite 1) with (Finite (1 / 2 + 1 / 2 * 1)) by (f_equal; field). apply half_scaled. apply ratio_high. lra.
Qed.
Definition cubic (y : R) : R := 3 * y - y * y * y.
Lemma cubic_cont (y : R) : continuous cubic y.
Proof using. apply (ex_derive_continuous cubic). unfold cubic. auto_derive. trivial. Qed.
Lemma t4_cdf t : incomplete_beta I 2 (1 / 2) c -> tcdf I 4 t = 1 / 2 + 1 / 4 * cubic (ratio 4 t).
Proof using Hc.
  intros HI0. assert (HI : incomplete_beta I (4 / 2) (1 / 2) c) by (replace (4 / 2) with 2 by field; exact HI0). 
  assert (H1 : is_lim (fun y => cubic (ratio 4 y)) p_infty 2) by (replace (Finite 2) with (Finite (cubic 1)) by (unfold cubic; f_equal; ring); apply (is_lim_comp_continuous (ratio 4) cubic p_infty 1); [apply ratio_high; lra|apply cubic_cont]).
  apply (proportional (tcdf I 4) (fun t => 1 / 2 + 1 / 4 * cubic (ratio 4 t)) (tden 4 c) (3 * c / 4)).
  - intros y. apply tcdf_derive; auto. lra.
  - intros y. pose proof (kt_pos 4 y ltac:(lra)) as P. assert (S : 0 < sqrt (4 + y * y)) by (apply sqrt_lt_R0; exact P). assert (S4 : sqrt 4 = 2) by (replace 4 with (2 * 2) by ring; apply sqrt_square; lra).
    apply (derive_eq _ _ (0 + 1 / 4 * (4 / ((4 + y * y) * sqrt (4 + y * y)) * (3 - 3 * (ratio 4 y * ratio 4 y))))).
    + apply (is_derive_plus (K := R_AbsRing) (V := R_NormedModule)); [apply (is_derive_const (K := R_AbsRing) (V := R_NormedModule))|]. apply is_derive_scal.
      assert (DC : is_derive cubic (ratio 4 y) (3 - 3 * (ratio 4 y * ratio 4 y))) by (unfold cubic; auto_derive; [trivial|ring]). exact (is_derive_comp cubic (ratio 4) y _ _ DC (ratio_derive 4 y ltac:(lra))).
    + unfold tden. rewrite (power_half _ 2 4 y) by (cbn; lra). rewrite S4. unfold ratio. replace (y / sqrt (4 + y * y) * (y / sqrt (4 + y * y))) with (y * y / (sqrt (4 + y * y) * sqrt (4 + y * y))) by (field; lra). rewrite sqrt_sqrt by lra. field. repeat split; lra.
  - apply (tcdf_low I 4 c); auto; lra.
  - apply (tcdf_high I 4 c); auto; lra.
  - replace (Finite 0) with (Finite (1 / 2 + 1 / 4 * (- (2)))) by (f_equal; field). apply half_scaled. apply (odd_low (fun y => cubic (ratio 4 y)) 2); [|exact H1]. intros y. rewrite ratio_odd. unfold cubic. ring.
  - replace (Finite 1) with (Finite (1 / 2 + 1 / 4 * 2)) by (f_equal; field). apply half_scaled. exact H1.
Qed.
End Dof.
