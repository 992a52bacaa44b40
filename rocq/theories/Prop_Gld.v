(** Properties C130-C132: the generalized lambda distribution: quantile and density, the moments, parameters from moments. *)
From Coq Require Import Reals Lra Lia ZArith.
From Coquelicot Require Import Coquelicot.
From Verif Require Import UdModel GldModel GldSpec GldProofs GldProofs2 GldProofs3 GldProofs4 GldProofs5 GldProofs6.
Import Lra.
Local Open Scope R_scope.

(** ** C130: quantile and density *)
Theorem c130_constructor (d1 d2 : R) (d3 d4 : xr) : (d2 <= 0 -> gld_new (Fin d1) (Fin d2) d3 d4 = Throw) /\ (0 < d2 -> gld_new (Fin d1) (Fin d2) d3 d4 = Ok (Fin d1, Fin d2, d3, d4)).
Proof. split; intros H; unfold gld_new, xle; cbn; destruct (Rlt_dec d2 0), (Req_EM_T d2 0); cbn; try reflexivity; exfalso; lra. Qed.
Print Assumptions c130_constructor.
(** The density at a quantile is the reciprocal of the slope of the quantile. *)
Theorem c130_density d1 d2 d3 d4 : 0 < d2 -> is_shape d3 -> is_shape d4 -> d3 <> PInf \/ d4 <> PInf ->
  exists q f : R -> R, forall p, 0 < p < 1 -> gld_quantile (Fin p) (Fin d1) (Fin d2) d3 d4 = Fin (q p) /\ gld_density_quantile (Fin p) (Fin d1) (Fin d2) d3 d4 = Fin (f p) /\
     0 < f p /\ is_derive q p (1 / f p).
Proof. exact (quantile_density d1 d2 d3 d4). Qed.
Print Assumptions c130_density.
Theorem c130_increasing d1 d2 d3 d4 p r x y : 0 < d2 -> is_shape d3 -> is_shape d4 -> d3 <> PInf \/ d4 <> PInf -> 0 < p -> p < r -> r < 1 ->
  gld_quantile (Fin p) (Fin d1) (Fin d2) d3 d4 = Fin x -> gld_quantile (Fin r) (Fin d1) (Fin d2) d3 d4 = Fin y -> x < y.
Proof. exact (quantile_increasing d1 d2 d3 d4 p r x y). Qed.
Print Assumptions c130_increasing.
Theorem c130_formula p d1 d2 a b : 0 < p < 1 -> 0 < d2 -> a <> 0 -> b <> 0 ->
  gld_quantile (Fin p) (Fin d1) (Fin d2) (Fin a) (Fin b) = Fin (d1 + ((Rpower p a - 1) / a - (Rpower (1 - p) b - 1) / b) / d2).
Proof. intros Hp H2 Na Nb. rewrite quantile_formula by (auto; right; eexists; reflexivity). rewrite !box_cox_n by assumption. reflexivity. Qed.
Print Assumptions c130_formula.
Lemma affine_limit (f : R -> R) (x : Rbar) (l c k : R) : is_lim f x l -> is_lim (fun r => c + k * f r) x (c + k * l).
Proof. intros H. apply (is_lim_plus' (fun _ => c) (fun r => k * f r)); [apply is_lim_const|]. exact (is_lim_scal_l f k x l H). Qed.
(** A shape that is 0 or infinite gives the limit of the quantiles. *)
Theorem c130_limit_first p d1 d2 d4 : 0 < p < 1 -> 0 < d2 -> is_shape d4 -> exists (q : R -> R) (l : R),
  (forall r, gld_quantile (Fin p) (Fin d1) (Fin d2) (Fin r) d4 = Fin (q r)) /\ is_lim q 0 (q 0) /\
  gld_quantile (Fin p) (Fin d1) (Fin d2) PInf d4 = Fin l /\ is_lim q p_infty l.
Proof.
  intros Hp H2 S4. set (c := d1 - box_cox d4 (1 - p) / d2). exists (fun r => c + 1 / d2 * box_cox (Fin r) p), (c + 1 / d2 * box_cox PInf p).
  split; [intros r; rewrite quantile_formula by (auto; right; eexists; reflexivity); f_equal; unfold c; field; lra|].
  split; [apply affine_limit; apply box_cox_limit0; lra|]. split; [rewrite quantile_formula by (auto; left; reflexivity); f_equal; unfold c; field; lra|].
  apply affine_limit. apply box_cox_limit_inf. lra.
Qed.
Print Assumptions c130_limit_first.
Theorem c130_limit_second p d1 d2 d3 : 0 < p < 1 -> 0 < d2 -> is_shape d3 -> exists (q : R -> R) (l : R),
  (forall r, gld_quantile (Fin p) (Fin d1) (Fin d2) d3 (Fin r) = Fin (q r)) /\ is_lim q 0 (q 0) /\
  gld_quantile (Fin p) (Fin d1) (Fin d2) d3 PInf = Fin l /\ is_lim q p_infty l.
Proof.
  intros Hp H2 S3. set (c := d1 + box_cox d3 p / d2). exists (fun r => c + - (1 / d2) * box_cox (Fin r) (1 - p)), (c + - (1 / d2) * box_cox PInf (1 - p)).
  split; [intros r; rewrite quantile_formula by (auto; right; eexists; reflexivity); f_equal; unfold c; field; lra|].
  split; [apply affine_limit; apply box_cox_limit0; lra|]. split; [rewrite quantile_formula by (auto; left; reflexivity); f_equal; unfold c; field; lra|].
  apply affine_limit. apply box_cox_limit_inf. lra.
Qed.
Print Assumptions c130_limit_second.
Example c130_logistic_median : gld_quantile (Fin (1 / 2)) (Fin 3) (Fin 2) (Fin 0) (Fin 0) = Fin 3.
Proof. rewrite quantile_formula by (first [lra | right; eexists; reflexivity]). rewrite !box_cox_0. f_equal. replace (1 - 1 / 2) with (1 / 2) by field. field. Qed.
Example c130_uniform : gld_quantile (Fin (1 / 4)) (Fin 0) (Fin 1) (Fin 1) (Fin 1) = Fin (- (1 / 2)).
Proof. rewrite c130_formula by lra. rewrite !Rpower_1 by lra. f_equal. field. Qed.
(** A shape of minus infinity is taken for plus infinity: all shapes from -1 down give a quantile below -1/2, minus infinity gives 1/2. *)
Theorem c130_minus_infinity_refuted :
  (forall r, r <= -1 -> exists x, gld_quantile (Fin (1 / 2)) (Fin 0) (Fin 1) (Fin r) (Fin 1) = Fin x /\ x <= - (1 / 2)) /\
  gld_quantile (Fin (1 / 2)) (Fin 0) (Fin 1) NInf (Fin 1) = Fin (1 / 2).
Proof.
  assert (B1 : box_cox (Fin 1) (1 - 1 / 2) = - (1 / 2)) by (rewrite box_cox_n, Rpower_1 by lra; field). split.
  - intros r Hr. eexists. split; [apply quantile_formula; [lra|lra|right; eexists; reflexivity|right; eexists; reflexivity]|]. rewrite B1, box_cox_n by lra.
    assert (E : Rpower (1 / 2) r = 2 * Rpower 2 (- r - 1)).
    { unfold Rminus. rewrite Rpower_plus, (Rpower_Ropp 2 1), Rpower_1 by lra. replace (1 / 2) with (/ 2) by field. unfold Rpower. rewrite ln_Rinv by lra. replace (r * - ln 2) with (- r * ln 2) by ring. field. }
    assert (G : 1 + (- r - 1) * ln 2 <= Rpower 2 (- r - 1)) by (unfold Rpower; apply exp_ineq1_le). pose proof ln_lt_2 as L2. set (w := Rpower 2 (- r - 1)) in *. clearbody w.
    assert (W : 1 - r <= 2 * w) by nra. rewrite E. assert (T : (2 * w - 1) / r <= -1); [|lra].
    apply Ropp_le_cancel. replace (- ((2 * w - 1) / r)) with ((2 * w - 1) / - r) by (field; lra). apply Rmult_le_reg_r with (- r); [lra|]. unfold Rdiv at 1. rewrite Rmult_assoc, Rinv_l by lra. lra.
  - change (gld_quantile (Fin (1 / 2)) (Fin 0) (Fin 1) NInf (Fin 1)) with (gld_quantile (Fin (1 / 2)) (Fin 0) (Fin 1) PInf (Fin 1)).
    rewrite quantile_formula; [|lra|lra|left; reflexivity|right; eexists; reflexivity]. rewrite B1. cbn [box_cox]. f_equal. field.
Qed.
Print Assumptions c130_minus_infinity_refuted.
(** Two infinite shapes: the quantile is constant and not increasing; the density is infinite. *)
Theorem c130_both_infinite_refuted p d1 d2 : 0 < p < 1 -> 0 < d2 -> gld_quantile (Fin p) (Fin d1) (Fin d2) PInf PInf = Fin d1 /\ gld_density_quantile (Fin p) (Fin d1) (Fin d2) PInf PInf = PInf.
Proof.
  intros Hp H2. split.
  - rewrite quantile_formula; [|lra|lra|left; reflexivity|left; reflexivity]. cbn [box_cox]. f_equal. field. lra.
  - unfold gld_density_quantile. cbn [xeq xisinf]. change (#1 - Fin p)%x with (Fin (1 - p)). change (PInf - #1)%x with PInf. rewrite fpow_inf by lra. cbn. destruct (Req_EM_T 0 0); [|contradiction]. destruct (Req_EM_T d2 0); [exfalso; lra|]. unfold xinf. destruct (Rlt_dec 0 d2); [reflexivity|contradiction].
Qed.
Print Assumptions c130_both_infinite_refuted.

(** ** C131: moments *)
(** The raw moments of orders 1 to 4 are the integrals of the powers of the quantile (without location, scale and constants). *)
Theorem c131_moment s k a b : beta_ok s -> (1 <= k <= 4)%Z -> a <> 0 -> b <> 0 -> - (1 / IZR k) < a -> - (1 / IZR k) < b ->
  exists v, get_mk s k a b = Ok v /\ integral01 (fun p => (Rpower p a / a - Rpower (1 - p) b / b) ^ Z.to_nat k) v.
Proof.
  intros B Hk Na Nb Ha Hb. assert (C : (k = 1 \/ k = 2 \/ k = 3 \/ k = 4)%Z) by lia. destruct C as [->|[->|[->| ->]]]; cbn [Z.to_nat Pos.to_nat Pos.iter_op Nat.add] in *.
  - exists (mk1 a b). split; [apply get_mk_1; assumption|]. apply (int_mk1 a b); auto; lra.
  - exists (mk2 s a b). split; [apply get_mk_2; assumption|]. apply (int_mk2 s B a b); auto; lra.
  - exists (mk3 s a b). split; [apply get_mk_3; assumption|]. apply (int_mk3 s B a b); auto; lra.
  - exists (mk4 s a b). split; [apply get_mk_4; assumption|]. apply (int_mk4 s B a b); auto; lra.
Qed.
Print Assumptions c131_moment.
(** With a shape that is zero, order 1. *)
Theorem c131_zero_first_partial s a b : a = 0 \/ b = 0 -> -1 < a -> -1 < b -> exists v, get_mk s 1 a b = Ok v /\ integral01 (fun p => box_cox (Fin a) p - box_cox (Fin b) (1 - p)) v.
Proof.
  intros Z Ha Hb. exists (- (1 / (a + 1)) - - (1 / (b + 1))). split; [|apply int_minus; [apply int_box_cox|apply int_box_cox']; assumption].
  unfold get_mk. f_equal. destruct (Req_EM_T a b) as [->|Nab]; [ring|]. destruct (Req_EM_T a 0) as [->|Na].
  - rewrite is0_0, is0_n by (intros ->; auto). cbn [andb negb]. field. lra.
  - destruct Z as [Z0| ->]; [contradiction|]. rewrite is0_0, is0_n by assumption. cbn [andb negb]. field. lra.
Qed.
Print Assumptions c131_zero_first_partial.
(** With exactly one shape that is zero, order 2. *)
Theorem c131_zero_second_partial s a b : digamma_ok s -> a = 0 /\ b <> 0 \/ a <> 0 /\ b = 0 -> - (1 / 2) < a -> - (1 / 2) < b ->
  exists v, get_mk s 2 a b = Ok v /\ integral01 (fun p => (box_cox (Fin a) p - box_cox (Fin b) (1 - p)) ^ 2) v.
Proof. exact (fun G => zero_second s G a b). Qed.
Print Assumptions c131_zero_second_partial.
(** The contracts for boost's beta and digamma functions are met together: the integrals exist for all arguments of the contracts. *)
Theorem c131_contract : exists s, beta_ok s /\ digamma_ok s.
Proof. exists (GSpecial euler_beta digamma_ref (fun _ _ => 0) 0 0). split; [apply beta_ok_exists|apply digamma_ok_exists]. Qed.
Print Assumptions c131_contract.
Theorem c131_order s k a b : (k < 1 \/ 4 < k)%Z -> get_mk s k a b = Throw.
Proof. intros Hk. unfold get_mk. destruct k as [|[[[]|[]|]|[[]|[]|]|]|]; try reflexivity; exfalso; lia. Qed.
Print Assumptions c131_order.
(** All moments at once are the single ones. *)
Theorem c131_all s a b : beta_ok s ->
  exists m1 m2 m3 m4, get_ms s a b = (m1, m2, m3, m4) /\ get_mk s 1 a b = Ok m1 /\ get_mk s 2 a b = Ok m2 /\ get_mk s 3 a b = Ok m3 /\ get_mk s 4 a b = Ok m4.
Proof. intros Y. pose proof (get_ms_mk s Y a b) as H. destruct (get_ms s a b) as [[[m1 m2] m3] m4]. exists m1, m2, m3, m4. auto. Qed.
Print Assumptions c131_all.
Example c131_second : get_mk (GSpecial (fun _ _ => 1 / 6) (fun _ => 0) (fun _ _ => 0) 0 0) 2 1 1 = Ok (1 / 3).
Proof. rewrite get_mk_2 by lra. unfold mk2. cbn [g_beta]. f_equal. field. Qed.

(** ** C132: parameters from moments *)
(** Whatever the shapes are, the mean is the one that is asked for. *)
Theorem c132_mean s mean variance a b m1 m2 : -1 < a -> -1 < b -> get_mk s 1 a b = Ok m1 -> get_mk s 2 a b = Ok m2 -> 0 < variance -> 0 < m2 - m1 * m1 ->
  exists d1 d2 q, location_scale s mean variance a b = Ok (d1, d2, a, b) /\ 0 < d2 /\
    (forall p, 0 < p < 1 -> gld_quantile (Fin p) (Fin d1) (Fin d2) (Fin a) (Fin b) = Fin (q p)) /\ integral01 q mean.
Proof. intros. eapply mean_ok; eassumption. Qed.
Print Assumptions c132_mean.
(** The lower bounds of the search. *)
Theorem c132_bounds eps type : 0 < eps -> - (1 / 4) < fst (fst (bounds eps type)) /\ - (1 / 4) < fst (snd (bounds eps type)).
Proof. intros He. unfold bounds. repeat match goal with |- context [match ?k with _ => _ end] => destruct k end; cbn; lra. Qed.
Print Assumptions c132_bounds.
(** Mean and variance of the result are the ones that are asked for; the objective is the sum of the squared errors of skewness and excess kurtosis, and if
    the optimizer brings it to 0, these are the ones asked for, too. A symmetric type has equal shapes. *)
Theorem c132_from_moments s optimize eps mean variance skewness ex_kurtosis type start3 start4 a b f bd sym :
  beta_ok s -> 0 < eps -> 0 < variance -> type <> 8%Z ->
  (forall f start bd sym a b, optimize f start bd sym = (a, b) -> fst (fst bd) <= a /\ (sym = false -> fst (snd bd) <= b)) ->
  bd = bounds eps type -> sym = is_symmetric type ->
  f = (if (sym : bool) then fun x _ => objective s skewness ex_kurtosis x x else objective s skewness ex_kurtosis) ->
  optimize f (start3, start4) bd sym = (a, b) -> a <> 0 -> b <> 0 ->
  exists d1 d2 a' b' q S K, from_moments s optimize eps mean variance skewness ex_kurtosis type start3 start4 = Ok (d1, d2, a', b') /\
    a' = a /\ b' = (if sym then a else b) /\ 0 < d2 /\
    (forall p, 0 < p < 1 -> gld_quantile (Fin p) (Fin d1) (Fin d2) (Fin a') (Fin b') = Fin (q p)) /\
    integral01 q mean /\ integral01 (fun p => (q p - mean) ^ 2) variance /\
    integral01 (fun p => ((q p - mean) / sqrt variance) ^ 3) S /\ integral01 (fun p => ((q p - mean) / sqrt variance) ^ 4) (K + 3) /\
    f a b = (ex_kurtosis - K) ^ 2 + (S - skewness) ^ 2 /\ (f a b = 0 -> S = skewness /\ K = ex_kurtosis).
Proof.
  intros B He Hv N8 HO Ebd Esym Ef EO Na Nb. pose proof (HO _ _ _ _ _ _ EO) as [La Lb]. pose proof (c132_bounds eps type He) as [Ba Bb]. rewrite <- Ebd in Ba, Bb.
  set (b' := if sym then a else b). assert (Nb' : b' <> 0) by (unfold b'; destruct sym; assumption). assert (Hb' : - (1 / 4) < b') by (unfold b'; destruct sym; [lra|specialize (Lb eq_refl); lra]).
  destruct (moments_ok s B mean variance a b' Na Nb' ltac:(lra) Hb' Hv) as (d1 & d2 & q & S & K & E & H2 & Hq & I1 & I2 & I3 & I4 & O).
  assert (EF : f a b = (ex_kurtosis - K) ^ 2 + (S - skewness) ^ 2). { rewrite <- O. rewrite Ef. unfold b'. destruct sym; reflexivity. }
  exists d1, d2, a, b', q, S, K. split; [|repeat (split; [first [reflexivity | assumption]|])].
  - unfold from_moments. rewrite <- Ebd, <- Esym. replace (type =? 8)%Z with false by (symmetry; apply Z.eqb_neq; exact N8).
    assert (EO' : optimize (if sym then fun a _ => objective s skewness ex_kurtosis a a else objective s skewness ex_kurtosis) (start3, start4) bd sym = (a, b)) by (rewrite <- Ef; exact EO). rewrite EO'. exact E.
  - rewrite EF. intros H0. apply sum_squares_0 in H0. destruct H0. split; lra.
Qed.
Print Assumptions c132_from_moments.
(** The objective of type 8 is blind to the kurtosis where it is meant to be. *)
Theorem c132_type8_refuted s eps skewness k1 k2 a b : 2 + eps < a -> 1 + eps < b -> b < 2 - eps -> objective8 s eps skewness k1 a b = objective8 s eps skewness k2 a b.
Proof.
  intros H1 H2 H3. unfold objective8. assert (G : forall x y, y < x -> gt x y = true) by (intros x y H; unfold gt; destruct (Rlt_dec y x); [reflexivity|contradiction]).
  rewrite !G by assumption. cbn [andb]. destruct (get_ms s a b) as [[[m1 m2] m3] m4]. ring.
Qed.
Print Assumptions c132_type8_refuted.
Example c132_types : is_symmetric 1 = true /\ is_symmetric 2 = false /\ is_symmetric 10 = true /\ bounds (1 / 100) 9 = ((101 / 100, Some (199 / 100)), (101 / 100, Some (199 / 100))).
Proof. repeat split. unfold bounds. replace (1 + 1 / 100) with (101 / 100) by field. replace (2 - 1 / 100) with (199 / 100) by field. reflexivity. Qed.
