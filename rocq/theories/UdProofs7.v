(** The t distribution. *)
From Coq Require Import Reals Lra Lia.
From Coquelicot Require Import Coquelicot.
From Verif Require Import UdModel UdSpec UdSpec2 UdProofs2 UdProofs3 UdProofs4 UdProofs5 UdProofs6.
Local Open Scope R_scope.

Section T.
Variables (I : R -> R) (a c : R).
Hypothesis A : 0 < a.
Hypothesis Hc : 0 < c.
Hypothesis HI : incomplete_beta I (a / 2) (1 / 2) c.
Definition zt (t : R) : R := a / (t * t + a).
Definition G (t : R) : R := 1 / 2 * I (zt t).
Definition tden (t : R) : R := Rpower (1 + t * t / a) (- ((a + 1) / 2)) / (c * sqrt a).
Definition tcdf (t : R) : R := if Rle_dec t 0 then G t else 1 - G t.
Lemma zt_range t : 0 < zt t <= 1.
Proof. unfold zt. pose proof (Rle_0_sqr t) as Q. unfold Rsqr in Q. split; [apply Rdiv_lt_0_compat; lra|]. apply (Rmult_le_reg_r (t * t + a)); [lra|]. unfold Rdiv. rewrite Rmult_assoc, Rinv_l by lra. lra. Qed.
Lemma sq_pos t : t <> 0 -> 0 < t * t.
Proof. intros H. pose proof (Rsqr_pos_lt t H) as K. exact K. Qed.
Lemma zt_lt t : t <> 0 -> zt t < 1.
Proof. intros H. apply sq_pos in H. unfold zt. apply (Rmult_lt_reg_r (t * t + a)); [lra|]. unfold Rdiv. rewrite Rmult_assoc, Rinv_l by lra. lra. Qed.
Lemma zt_derive t : is_derive zt t (- (2 * t * a / (t * t + a) ^ 2)).
Proof. pose proof (Rle_0_sqr t) as Q. unfold Rsqr in Q. unfold zt. auto_derive; [lra|field; lra]. Qed.
Lemma tden_pos t : 0 < tden t.
Proof. unfold tden. apply Rdiv_lt_0_compat; [apply exp_pos|]. apply Rmult_lt_0_compat; [exact Hc|apply sqrt_lt_R0; exact A]. Qed.
Lemma G_derive t : t <> 0 -> is_derive G t (if Rlt_dec t 0 then tden t else - tden t).
Proof.
  intros N. destruct HI as (_ & _ & _ & _ & D). pose proof (sq_pos t N) as Q. pose proof (zt_range t) as Z. pose proof (zt_lt t N) as Z1.
  pose proof (is_derive_comp I zt t _ _ (D _ (conj (proj1 Z) Z1)) (zt_derive t)) as D2. pose proof (is_derive_scal _ t (1 / 2) _ D2) as D3. apply (derive_eq _ _ _ _ D3). clear D2 D3 D. unfold scal. cbn [Ring.sort]. unfold mult. cbn -[Rpower].
  set (w := t * t + a). assert (W : 0 < w) by (unfold w; lra). assert (E1 : 1 - zt t = t * t / w) by (unfold zt; fold w; unfold w; field; lra). rewrite E1. unfold tden.
  assert (Ew : 1 + t * t / a = w / a) by (unfold w; field; lra). rewrite Ew. assert (Sa : 0 < sqrt a) by (apply sqrt_lt_R0; exact A). assert (Sw : 0 < sqrt w) by (apply sqrt_lt_R0; exact W).
  assert (R1 : Rpower (t * t / w) (1 / 2 - 1) = sqrt w / Rabs t).
  { replace (1 / 2 - 1) with (- / 2) by field. rewrite Rpower_Ropp, Rpower_sqrt by (apply Rdiv_lt_0_compat; lra). rewrite sqrt_div by lra. change (t * t) with (Rsqr t). rewrite sqrt_Rsqr_abs. pose proof (Rabs_pos_lt t N). field. lra. }
  assert (R2 : Rpower (zt t) (a / 2 - 1) = Rpower (w / a) (- ((a + 1) / 2)) * (Rpower (w / a) (/ 2) * (w / a))).
  { replace (zt t) with (/ (w / a)) by (unfold zt; fold w; field; lra). assert (P : 0 < w / a) by (apply Rdiv_lt_0_compat; lra). rewrite <- (Rpower_1 (w / a)) at 4 by exact P. rewrite <- !Rpower_plus. unfold Rpower. rewrite ln_Rinv by exact P. f_equal. field. }
  rewrite R1, R2. rewrite Rpower_sqrt by (apply Rdiv_lt_0_compat; lra). rewrite sqrt_div by lra. generalize (Rpower (w / a) (- ((a + 1) / 2))). intros K.
  assert (Ww : sqrt w * sqrt w = w) by (apply sqrt_sqrt; lra). assert (Wa : sqrt a * sqrt a = a) by (apply sqrt_sqrt; lra).
  replace (K * (sqrt w / sqrt a * (w / a)) * (sqrt w / Rabs t) / c) with (K * ((sqrt w * sqrt w) / sqrt a * (w / a)) / Rabs t / c) by (pose proof (Rabs_pos_lt t N); field; repeat split; lra). rewrite Ww.
  destruct (Rlt_dec t 0) as [L|L]; [rewrite Rabs_left by exact L|rewrite Rabs_right by lra]; field; repeat split; try lra.
Qed.
Lemma G_zero : G 0 = 1 / 2.
Proof. unfold G, zt. replace (a / (0 * 0 + a)) with 1 by (field; lra). destruct HI as (_ & -> & _). ring. Qed.
Lemma G_cont (t : R) : continuous G t.
Proof.
  destruct (Req_dec t 0) as [->|N]; [|apply (ex_derive_continuous G); eexists; apply G_derive; exact N].
  assert (HL : forall P : R -> Prop, locally 1 P -> P 1 /\ at_left 1 (fun z => P z)) by (intros P [e He]; split; [apply He; apply ball_center|exists e; intros y Hy _; apply He; exact Hy]).
  assert (CZ : continuous zt 0) by (apply (ex_derive_continuous zt); eexists; apply zt_derive). destruct HI as (_ & I1 & _ & L1 & _).
  assert (C0 : filterlim (fun t => I (zt t)) (locally 0) (locally 1)).
  { intros P HP. specialize (L1 P HP). destruct L1 as [e He]. destruct (CZ (ball 1 e)) as [d Hd]; [replace (zt 0) with 1 by (unfold zt; field; lra); apply locally_ball|]. exists d. intros y Hy. specialize (Hd y Hy).
    destruct (Req_dec (zt y) 1) as [E|E]; [rewrite E, I1; apply locally_singleton; exact HP|]. apply He; [exact Hd|]. pose proof (zt_range y). lra. }
  unfold continuous. rewrite G_zero. replace (1 / 2) with (1 / 2 * 1) by field. apply (half_lim (fun t => I (zt t))); [apply filter_filter|exact C0].
Qed.
Lemma tcdf_cont (t : R) : continuous tcdf t.
Proof.
  destruct (Rtotal_order t 0) as [L|[->|L]].
  - apply (continuous_ext_loc _ G t); [|apply G_cont]. apply (local_in (t - 1) 0); [lra|]. intros y Hy. unfold tcdf. destruct (Rle_dec y 0); [reflexivity|lra].
  - assert (E : tcdf 0 = 1 / 2) by (unfold tcdf; destruct (Rle_dec 0 0); [apply G_zero|lra]). apply two_sides; rewrite E.
    + apply (filterlim_ext_loc G); [apply (local_left (-1) 0); [lra|]; intros y Hy; unfold tcdf; destruct (Rle_dec y 0); [reflexivity|lra]|]. rewrite <- G_zero. apply left_of. apply G_cont.
    + apply (filterlim_ext_loc (fun y => 1 - G y)); [apply (local_right 0 1); [lra|]; intros y Hy; unfold tcdf; destruct (Rle_dec y 0); [lra|reflexivity]|]. replace (1 / 2) with (1 - G 0) by (rewrite G_zero; field). apply (right_of (fun y => 1 - G y)). apply (continuous_minus (fun _ => 1)); [apply continuous_const|apply G_cont].
  - apply (continuous_ext_loc _ (fun y => 1 - G y) t); [|apply (continuous_minus (fun _ => 1)); [apply continuous_const|apply G_cont]]. apply (local_in 0 (t + 1)); [lra|]. intros y Hy. unfold tcdf. destruct (Rle_dec y 0); [lra|reflexivity].
Qed.
Lemma tden_cont (t : R) : continuous tden t.
Proof.
  apply (ex_derive_continuous tden). unfold tden, Rpower. pose proof (Rle_0_sqr t) as Q. unfold Rsqr in Q. assert (0 < 1 + t * t / a) by (assert (0 <= t * t / a) by (apply Rmult_le_pos; [exact Q|left; apply Rinv_0_lt_compat; exact A]); lra).
  auto_derive. unfold Rdiv in *. repeat split; auto.
Qed.
Lemma tcdf_derive t : is_derive tcdf t (tden t).
Proof.
  assert (D : forall t, t <> 0 -> is_derive tcdf t (tden t)).
  { clear t. intros t N. destruct (Rlt_dec t 0) as [L|L].
    - pose proof (G_derive t N) as D. destruct (Rlt_dec t 0); [|lra]. apply (is_derive_ext_loc G); [|exact D]. apply (local_in (t - 1) 0); [lra|]. intros y Hy. unfold tcdf. destruct (Rle_dec y 0); [reflexivity|lra].
    - pose proof (G_derive t N) as D. destruct (Rlt_dec t 0); [lra|]. apply (is_derive_ext_loc (fun y => 1 - G y)); [apply (local_in 0 (t + 1)); [lra|]; intros y Hy; unfold tcdf; destruct (Rle_dec y 0); [lra|reflexivity]|].
      replace (tden t) with (0 - - tden t) by ring. apply (is_derive_minus (fun _ => 1)); [apply (is_derive_const (K := R_AbsRing) (V := R_NormedModule))|exact D]. }
  destruct (Req_dec t 0) as [->|N]; [|auto]. apply derive_at; [exact tcdf_cont|exact D|apply tden_cont].
Qed.
Lemma square_lim (F : (R -> Prop) -> Prop) {FF : Filter F} : (forall M, F (fun t => M < t * t)) -> filterlim zt F (at_right 0).
Proof.
  intros H. apply into_right; [exact FF| |]; [|generalize (H 0); apply filter_imp; intros t _; apply zt_range]. apply filterlim_locally. intros e. generalize (H (a / e)). apply filter_imp. intros t Ht. change (Rabs (zt t - 0) < e). rewrite Rminus_0_r, Rabs_right by (apply Rle_ge, Rlt_le, zt_range).
  pose proof (cond_pos e) as Pe. pose proof (Rle_0_sqr t) as Q. unfold Rsqr in Q. unfold zt. apply (Rmult_lt_reg_r (t * t + a)); [lra|]. unfold Rdiv. rewrite Rmult_assoc, Rinv_l by lra. apply (Rmult_lt_compat_l e) in Ht; [|exact Pe]. replace (e * (a / e)) with a in Ht by (field; lra). nra.
Qed.
Lemma big_square M : forall t, Rabs t > 1 + Rabs M -> M < t * t.
Proof. intros t Ht. pose proof (Rle_abs M). pose proof (Rabs_pos M). replace (t * t) with (Rabs t * Rabs t) by (rewrite <- Rabs_mult; apply Rabs_right; pose proof (Rle_0_sqr t); unfold Rsqr in *; lra). nra. Qed.
Lemma tcdf_low : is_lim tcdf m_infty 0.
Proof.
  destruct HI as (_ & _ & L0 & _ & _). apply (is_lim_ext_loc G); [exists 0; intros t Ht; unfold tcdf; destruct (Rle_dec t 0); [reflexivity|lra]|]. unfold is_lim. replace 0 with (1 / 2 * 0) by ring. apply (half_lim (fun t => I (zt t))); [apply filter_filter|].
  apply (filterlim_comp _ _ _ zt I _ (at_right 0)); [|exact L0]. apply square_lim; [apply filter_filter|]. intros M. exists (- (1 + Rabs M)). intros t Ht. apply big_square. pose proof (Rabs_pos M). rewrite Rabs_left by lra. lra.
Qed.
Lemma tcdf_high : is_lim tcdf p_infty 1.
Proof.
  destruct HI as (_ & _ & L0 & _ & _). apply (is_lim_ext_loc (fun t => 1 - G t)); [exists 0; intros t Ht; unfold tcdf; destruct (Rle_dec t 0); [lra|reflexivity]|]. replace (Finite 1) with (Finite (1 - 1 / 2 * 0)) by (f_equal; ring). apply is_lim_minus'; [apply is_lim_const|]. unfold is_lim. apply (half_lim (fun t => I (zt t))); [apply filter_filter|].
  apply (filterlim_comp _ _ _ zt I _ (at_right 0)); [|exact L0]. apply square_lim; [apply filter_filter|]. intros M. exists (1 + Rabs M). intros t Ht. apply big_square. pose proof (Rabs_pos M). rewrite Rabs_right by lra. lra.
Qed.
End T.
Lemma t_cdf s a b x : 0 < a -> cdf s (Dist KT a b) (Fin x) = Fin (tcdf (s_ibeta s (a / 2) (1 / 2)) a x).
Proof.
  intros A. pose proof (Rle_0_sqr x) as Q. unfold Rsqr in Q. cdf0. cbn [xmul xadd]. rewrite !fin_div by lra. cbn [lift3 xmul]. unfold tcdf. destruct (Rle_dec x 0) as [L|L]; [rewrite fin_le by exact L; reflexivity|]. rewrite fin_gt by lra. reflexivity.
Qed.
Lemma t_good s a b : 0 < a -> 0 < s_tgamma s (a / 2) -> 0 < s_tgamma s ((a + 1) / 2) -> incomplete_beta (s_ibeta s (a / 2) (1 / 2)) (a / 2) (1 / 2) (s_tgamma s (a / 2) * sqrt PI / s_tgamma s ((a + 1) / 2)) ->
  good s (Dist KT a b) m_infty p_infty (tden a (s_tgamma s (a / 2) * sqrt PI / s_tgamma s ((a + 1) / 2))).
Proof.
  intros A G1 G2 HI. pose proof sqrtpi_pos as SP. set (c := s_tgamma s (a / 2) * sqrt PI / s_tgamma s ((a + 1) / 2)) in *. assert (C0 : 0 < c) by (apply Rdiv_lt_0_compat; [apply Rmult_lt_0_compat; auto|exact G2]).
  assert (E : forall t, tcdf (s_ibeta s (a / 2) (1 / 2)) a t = dfun s (Dist KT a b) t) by (intros t; unfold dfun; rewrite t_cdf by exact A; reflexivity).
  split; [reflexivity|]. split; [reflexivity|]. split; [exact Logic.I|]. split; [|split; [|split; [|split; [|split]]]].
  - intros x _. split; [|split; [apply tden_pos; auto|]].
    + pose proof (Rle_0_sqr x) as Q. unfold Rsqr in Q. assert (Sa : 0 < sqrt a) by (apply sqrt_lt_R0; exact A). assert (P : 0 <= x * x / a) by (apply Rmult_le_pos; [exact Q|left; apply Rinv_0_lt_compat; exact A]). den0. cbn [xmul xadd]. rewrite !fin_div by lra. cbn [xadd xopp lift1]. rewrite fin_pow by lra. rewrite fin_sqrt by (pose proof PI_RGT_0; nra). cbn [xmul]. rewrite sqrt_mult by (pose proof PI_RGT_0; lra).
      rewrite fin_div; [|assert (0 < sqrt a * sqrt PI) by (apply Rmult_lt_0_compat; auto); nra]. f_equal. unfold tden, c. field. repeat split; lra.
    + apply (is_derive_ext _ _ _ _ E). apply tcdf_derive; auto.
  - intros x. eexists. apply t_cdf. exact A.
  - intros x [].
  - intros x [].
  - apply (filterlim_ext _ _ E). exact (tcdf_low _ a c A HI).
  - apply (filterlim_ext _ _ E). exact (tcdf_high _ a c A HI).
Qed.
