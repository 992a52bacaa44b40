(** The continuous distributions of the model, one by one. *)
From Coq Require Import Reals Lra Lia.
From Coquelicot Require Import Coquelicot.
From Verif Require Import UdModel UdSpec UdSpec2 UdProofs2 UdProofs3 UdProofs4.
Local Open Scope R_scope.

Definition num_of (a : xr) : R := match a with Fin x => x | _ => 0 end.
Definition bound (l : Rbar) : xr := match l with Finite x => Fin x | p_infty => PInf | m_infty => NInf end.
Definition dfun (s : special) (d : dist) (t : R) : R := num_of (cdf s d (Fin t)).
(** What is proved for each kind. *)
Definition good (s : special) (d : dist) (l u : Rbar) (f : R -> R) : Prop :=
  minimum d = bound l /\ maximum d = bound u /\ Rbar_lt l u /\ (forall x, between l u x -> density s d x = Fin (f x) /\ 0 < f x /\ is_derive (dfun s d) x (f x)) /\
  (forall x, exists c, cdf s d (Fin x) = Fin c) /\ (forall x : R, Rbar_le x l -> dfun s d x = 0) /\ (forall x : R, Rbar_le u x -> dfun s d x = 1) /\
  filterlim (dfun s d) (toward_low l) (locally 0) /\ filterlim (dfun s d) (toward_high u) (locally 1).
(** ** Outside and inside of the bounds *)
Lemma cdf_below s d (l : R) x : minimum d = Fin l -> x < l -> cdf s d (Fin x) = Fin 0.
Proof. intros E H. unfold cdf. cbv zeta. rewrite E, fin_lt by exact H. reflexivity. Qed.
Lemma cdf_above s d (u : R) x : maximum d = Fin u -> (forall l, minimum d = Fin l -> l <= x) -> minimum d <> PInf -> u < x -> cdf s d (Fin x) = Fin 1.
Proof.
  intros E L N H. unfold cdf. cbv zeta. rewrite E. destruct (minimum d) as [l| | |] eqn:M; [rewrite fin_ge by (apply L; reflexivity)|congruence| |]; rewrite ?fin_lt by exact H; reflexivity.
Qed.
Lemma local_right (l u : R) (P : R -> Prop) : l < u -> (forall t, l < t < u -> P t) -> at_right l P.
Proof. intros H K. exists (mkposreal (u - l) ltac:(lra)). intros t Ht Hl. apply ball_pos in Ht. apply K. lra. Qed.
Lemma local_left (l u : R) (P : R -> Prop) : l < u -> (forall t, l < t < u -> P t) -> at_left u P.
Proof. intros H K. exists (mkposreal (u - l) ltac:(lra)). intros t Ht Hl. apply ball_pos in Ht. apply K. lra. Qed.
Lemma local_in (l u x : R) (P : R -> Prop) : l < x < u -> (forall t, l < t < u -> P t) -> locally x P.
Proof.
  intros H K. exists (mkposreal (Rmin (x - l) (u - x)) ltac:(apply Rmin_pos; lra)). intros t Ht. apply ball_pos in Ht. apply K. pose proof (Rmin_l (x - l) (u - x)). pose proof (Rmin_r (x - l) (u - x)). lra.
Qed.
Lemma above_local (l x : R) (P : R -> Prop) : l < x -> (forall t, l < t -> P t) -> locally x P.
Proof. intros H K. apply (local_in l (x + 1)); [lra|]. intros t Ht. apply K. lra. Qed.
(** ** Uniform *)
Lemma uniform_good s a b : a < b -> good s (Dist KUniformCon a b) a b (fun _ => 1 / (b - a)).
Proof.
  intros L. set (d := Dist KUniformCon a b). assert (E : forall x, a <= x <= b -> cdf s d (Fin x) = Fin ((x - a) / (b - a))).
  { intros x Hx. unfold cdf, minimum, maximum, d. cbn [d_kind p1 p2]. cbv zeta. rewrite !fin_ge by lra. cbn [xeq xopp xadd xsub]. rewrite fin_div by lra. reflexivity. }
  assert (G : forall x, is_derive (fun t => (t - a) / (b - a)) x (1 / (b - a))) by (intros x; auto_derive; [lra|field; lra]).
  split; [reflexivity|]. split; [reflexivity|]. split; [exact L|]. split; [|split; [|split; [|split; [|split]]]].
  - intros x [H1 H2]. cbn in H1, H2. split; [|split].
    + unfold density, minimum, maximum, d. cbn [d_kind p1 p2]. cbv zeta. rewrite !fin_ge by lra. cbn [orb xopp xadd xsub]. rewrite fin_div by lra. reflexivity.
    + apply Rdiv_lt_0_compat; lra.
    + apply (is_derive_ext_loc (fun t => (t - a) / (b - a))); [|apply G]. apply (local_in a b); [lra|]. intros t Ht. unfold dfun. rewrite E by lra. reflexivity.
  - intros x. destruct (Rlt_dec x a) as [K|K]; [rewrite (cdf_below s d a x eq_refl K); eexists; reflexivity|]. destruct (Rlt_dec b x) as [K2|K2]; [|rewrite E by lra; eexists; reflexivity].
    rewrite (cdf_above s d b x eq_refl); [eexists; reflexivity| |discriminate|exact K2]. intros l El. injection El as <-. lra.
  - intros x Hx. cbn in Hx. unfold dfun. destruct (Req_dec x a) as [->|N]; [rewrite E by lra; cbn; field; lra|]. rewrite (cdf_below s d a x eq_refl) by lra. reflexivity.
  - intros x Hx. cbn in Hx. unfold dfun. destruct (Req_dec x b) as [->|N]; [rewrite E by lra; cbn; field; lra|]. rewrite (cdf_above s d b x eq_refl); [reflexivity| |discriminate|lra]. intros l El. injection El as <-. lra.
  - cbn [toward_low]. apply (filterlim_ext_loc (fun t => (t - a) / (b - a))); [apply (local_right a b); [exact L|]; intros t Ht; unfold dfun; rewrite E by lra; reflexivity|].
    replace 0 with ((a - a) / (b - a)) by (field; lra). apply (right_of (fun t => (t - a) / (b - a))). apply (ex_derive_continuous (fun t => (t - a) / (b - a))). eexists. apply G.
  - cbn [toward_high]. apply (filterlim_ext_loc (fun t => (t - a) / (b - a))); [apply (local_left a b); [exact L|]; intros t Ht; unfold dfun; rewrite E by lra; reflexivity|].
    replace 1 with ((b - a) / (b - a)) by (field; lra). apply (left_of (fun t => (t - a) / (b - a))). apply (ex_derive_continuous (fun t => (t - a) / (b - a))). eexists. apply G.
Qed.
(** ** Distributions on the positive numbers: F t = H t for t > 0 *)
Lemma positive_good s d (H f : R -> R) : minimum d = Fin 0 -> maximum d = PInf -> (forall x, 0 < x -> density s d x = Fin (f x)) -> (forall x, 0 < x -> 0 < f x) -> (forall x, 0 < x -> is_derive H x (f x)) ->
  (forall x, 0 < x -> cdf s d (Fin x) = Fin (H x)) -> cdf s d (Fin 0) = Fin 0 -> filterlim H (at_right 0) (locally 0) -> is_lim H p_infty 1 -> good s d 0 p_infty f.
Proof.
  intros Mi Ma Df Fp Hd Hc C0 L0 L1. split; [exact Mi|]. split; [exact Ma|]. split; [exact Logic.I|]. split; [|split; [|split; [|split; [|split]]]].
  - intros x [A _]. cbn in A. split; [auto|]. split; [auto|]. apply (is_derive_ext_loc H); [|auto]. apply (above_local 0); [exact A|]. intros t Ht. unfold dfun. rewrite Hc by exact Ht. reflexivity.
  - intros x. destruct (Rtotal_order x 0) as [K|[->|K]]; [rewrite (cdf_below s d 0 x Mi K); eexists; reflexivity|eexists; exact C0|eexists; apply Hc; exact K].
  - intros x A. cbn in A. unfold dfun. destruct (Req_dec x 0) as [->|N]; [rewrite C0; reflexivity|]. rewrite (cdf_below s d 0 x Mi) by lra. reflexivity.
  - intros x A. destruct A.
  - cbn [toward_low]. apply (filterlim_ext_loc H); [|exact L0]. apply (local_right 0 1); [lra|]. intros t Ht. unfold dfun. rewrite Hc by lra. reflexivity.
  - cbn [toward_high]. apply (filterlim_ext_loc H); [|exact L1]. exists 0. intros t Ht. unfold dfun. rewrite Hc by lra. reflexivity.
Qed.
Ltac cdf0 := unfold cdf, minimum, maximum; cbn [d_kind p1 p2]; cbv zeta; rewrite ?fin_ge by lra; cbn [xlt xeq].
Ltac den0 := unfold density, minimum, maximum; cbn [d_kind p1 p2]; cbv zeta; rewrite ?fin_ge by lra; cbn [orb xlt].
Lemma exponential_good s a b : 0 < a -> good s (Dist KExponential a b) 0 p_infty (fun x => a * exp (- a * x)).
Proof.
  intros A. apply (positive_good s _ (fun x => 1 - exp (- a * x))); try reflexivity.
  - intros x Hx. den0. reflexivity.
  - intros x Hx. apply Rmult_lt_0_compat; [exact A|apply exp_pos].
  - intros x Hx. auto_derive; [trivial|ring].
  - intros x Hx. cdf0. reflexivity.
  - cdf0. cbn [xopp xmul xexp xsub xadd]. rewrite Rmult_0_r, exp_0. f_equal. ring.
  - replace 0 with (1 - exp (- a * 0)) at 2 by (rewrite Rmult_0_r, exp_0; ring). apply (right_of (fun x => 1 - exp (- a * x))). apply (ex_derive_continuous (fun x => 1 - exp (- a * x))). auto_derive. trivial.
  - replace (Finite 1) with (Finite (1 - 0)) by (f_equal; ring). apply is_lim_minus'; [apply is_lim_const|]. apply (is_lim_comp exp (fun x => - a * x) p_infty 0 m_infty); [apply is_lim_exp_m| |exists 0; intros; discriminate].
    replace m_infty with (Rbar_mult (- a) p_infty); [apply is_lim_scal_l; apply is_lim_id|]. cbn. destruct (Rle_dec 0 (- a)); [exfalso; lra|reflexivity].
Qed.
Lemma inv_exp b : 0 < b -> / b = exp (- ln b).
Proof. intros B. rewrite exp_Ropp, exp_ln by exact B. reflexivity. Qed.
(** ** Gamma and chi-squared: a scaled incomplete gamma function *)
Lemma scale_right c : 0 < c -> filterlim (fun t => t / c) (at_right 0) (at_right 0).
Proof.
  intros Hc P [e He]. exists (mkposreal (e * c) ltac:(apply Rmult_lt_0_compat; [apply e|exact Hc])). intros y Hy H0. apply ball_pos in Hy. apply He; [|apply Rdiv_lt_0_compat; lra].
  change (Rabs (y / c - 0) < e). rewrite Rminus_0_r, Rabs_right by (apply Rle_ge, Rlt_le, Rdiv_lt_0_compat; lra). apply (Rmult_lt_reg_r c); [exact Hc|]. unfold Rdiv. rewrite Rmult_assoc, Rinv_l by lra. lra.
Qed.
Lemma scale_lim c : 0 < c -> is_lim (fun t => t / c) p_infty p_infty.
Proof.
  intros Hc. apply (is_lim_ext (fun t => / c * t)); [intros; unfold Rdiv; ring|]. replace p_infty with (Rbar_mult (/ c) p_infty) at 2; [apply is_lim_scal_l; apply is_lim_id|]. cbn. pose proof (Rinv_0_lt_compat c Hc). destruct (Rle_dec 0 (/ c)) as [K|K]; [|exfalso; lra]. destruct (Rle_lt_or_eq_dec 0 (/ c) K); [reflexivity|exfalso; lra].
Qed.
Lemma gamma_shape (P : R -> R) a c k : 0 < k -> incomplete_gamma P a c ->
  (forall x, 0 < x -> is_derive (fun t => P (t / k)) x (Rpower (x / k) (a - 1) * exp (- (x / k)) / c / k)) /\ filterlim (fun t => P (t / k)) (at_right 0) (locally 0) /\ is_lim (fun t => P (t / k)) p_infty 1 /\ P (0 / k) = 0.
Proof.
  intros K (P0 & PL & PD & PI'). split; [|split; [|split]].
  - intros x Hx. assert (X : 0 < x / k) by (apply Rdiv_lt_0_compat; lra). assert (D1 : is_derive (fun t => t / k) x (/ k)) by (auto_derive; [lra|field; lra]).
    pose proof (is_derive_comp P (fun t => t / k) x _ _ (PD (x / k) X) D1) as D. eapply is_derive_ext; [intros; reflexivity|]. replace (Rpower (x / k) (a - 1) * exp (- (x / k)) / c / k) with (scal (/ k) (Rpower (x / k) (a - 1) * exp (- (x / k)) / c)); [exact D|]. unfold scal. cbn. unfold mult. cbn. unfold Rdiv. ring.
  - apply (filterlim_comp _ _ _ (fun t => t / k) P _ (at_right 0)); [apply scale_right; exact K|exact PL].
  - apply (is_lim_comp P (fun t => t / k) p_infty 1 p_infty); [exact PI'|apply scale_lim; exact K|exists 0; intros; discriminate].
  - unfold Rdiv. rewrite Rmult_0_l. exact P0.
Qed.
Lemma gamma_good s a b : 0 < a -> 0 < b -> 0 < s_tgamma s a -> incomplete_gamma (s_gammap s a) a (s_tgamma s a) -> good s (Dist KGamma a b) 0 p_infty (fun x => Rpower (x / b) (a - 1) * exp (- (x / b)) / s_tgamma s a / b).
Proof.
  intros A B G IG. destruct (gamma_shape _ _ _ b B IG) as (D & L0 & L1 & Z). apply (positive_good s _ (fun x => s_gammap s a (x / b))); try reflexivity; auto.
  - intros x Hx. den0. cbn [xopp xadd xsub]. rewrite !fin_pow by lra. cbn [xopp xmul xexp lift1 xsub xadd]. rewrite (fin_div _ b) by lra. cbn [xexp xmul]. rewrite fin_div by lra. f_equal.
    unfold Rdiv.
    assert (E : Rpower b (- a) * Rpower x (a + - (1)) = Rpower (x * / b) (a - 1) * / b).
    { unfold Rpower. rewrite ln_mult, ln_Rinv by (auto using Rinv_0_lt_compat). rewrite (inv_exp b B). rewrite <- !exp_plus. f_equal. ring. }
    rewrite E. replace (- x * / b) with (- (x * / b)) by ring. ring.
  - intros x Hx. apply Rdiv_lt_0_compat; [|exact B]. apply Rdiv_lt_0_compat; [|exact G]. apply Rmult_lt_0_compat; [apply exp_pos|apply exp_pos].
  - intros x Hx. cdf0. rewrite fin_div by lra. reflexivity.
  - cdf0. rewrite fin_div by lra. cbn [lift2]. rewrite Z. reflexivity.
Qed.
Lemma chi2_good s a b : 0 < a -> 0 < s_tgamma s (a / 2) -> incomplete_gamma (s_gammap s (a / 2)) (a / 2) (s_tgamma s (a / 2)) -> good s (Dist KChi2 a b) 0 p_infty (fun x => Rpower (x / 2) (a / 2 - 1) * exp (- (x / 2)) / s_tgamma s (a / 2) / 2).
Proof.
  intros A G IG. destruct (gamma_shape _ _ _ 2 ltac:(lra) IG) as (D & L0 & L1 & Z). apply (positive_good s _ (fun x => s_gammap s (a / 2) (x / 2))); try reflexivity; auto.
  - intros x Hx. den0. cbn [xopp]. rewrite !fin_div by lra. cbn [xopp xadd xsub xexp lift1]. rewrite !fin_pow by lra. cbn [xopp xmul xexp lift1 xsub xadd]. assert (P2 : 0 < Rpower 2 (a / 2)) by apply exp_pos. rewrite fin_div by nra. f_equal.
    assert (E : Rpower x (a / 2 + - (1)) / Rpower 2 (a / 2) = Rpower (x / 2) (a / 2 - 1) / 2).
    { generalize (a / 2). intros h. change (Rpower x (h + - (1)) * / Rpower 2 h = Rpower (x / 2) (h - 1) * / 2). rewrite <- Rpower_Ropp. unfold Rpower. replace (ln (x / 2)) with (ln x - ln 2) by (unfold Rdiv; rewrite ln_mult, ln_Rinv by lra; ring). rewrite (inv_exp 2) by lra. rewrite <- !exp_plus. f_equal. ring. }
    replace (exp (- x / 2) * Rpower x (a / 2 + - (1)) / (Rpower 2 (a / 2) * s_tgamma s (a / 2))) with (exp (- x / 2) * (Rpower x (a / 2 + - (1)) / Rpower 2 (a / 2)) / s_tgamma s (a / 2)) by (field; lra). rewrite E. replace (- x / 2) with (- (x / 2)) by field. field. lra.
  - intros x Hx. apply Rdiv_lt_0_compat; [|lra]. apply Rdiv_lt_0_compat; [|exact G]. apply Rmult_lt_0_compat; [apply exp_pos|apply exp_pos].
  - intros x Hx. cdf0. rewrite !fin_div by lra. reflexivity.
  - cdf0. rewrite !fin_div by lra. cbn [lift2]. rewrite Z. reflexivity.
Qed.
