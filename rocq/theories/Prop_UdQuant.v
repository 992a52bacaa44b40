(** C118: quantiles of the continuous distributions. *)
From Coq Require Import Reals Lra Lia.
From Coquelicot Require Import Coquelicot.
From Verif Require Import UdModel UdSpec UdSpec2 UdProofs2 UdProofs3 UdProofs4 UdProofs5 UdProofs6 UdProofs7 UdProofs8 UdProofs9 Prop_UdCont.
Local Open Scope R_scope.

(** What is required of the inverse functions of other libraries, for the parameters of the distribution. *)
Definition inverse_ok (s : special) (d : dist) : Prop :=
  let a := p1 d in let b := p2 d in
  match d_kind d with
  | KNormal | KLogNormal => forall z, -1 < z < 1 -> s_erfc s (s_erfinv s z) = 1 - z
  | KChi2 => forall p, 0 < p < 1 -> 0 < s_gammapinv s (a / 2) p /\ s_gammap s (a / 2) (s_gammapinv s (a / 2) p) = p
  | KGamma => forall p, 0 < p < 1 -> 0 < s_gammapinv s a p /\ s_gammap s a (s_gammapinv s a p) = p
  | KBeta => forall p, 0 < p < 1 -> 0 < s_ibetainv s a b p < 1 /\ s_ibeta s a b (s_ibetainv s a b p) = p
  | KF => forall p, 0 < p < 1 -> 0 < s_ibetainv s (a / 2) (b / 2) p < 1 /\ s_ibeta s (a / 2) (b / 2) (s_ibetainv s (a / 2) (b / 2) p) = p
  | KT => a <> 1 -> a <> 2 -> a <> 4 -> forall p, 0 < p < 1 -> 0 < s_ibetainv s (a / 2) (1 / 2) p < 1 /\ s_ibeta s (a / 2) (1 / 2) (s_ibetainv s (a / 2) (1 / 2) p) = p
  | _ => True
  end.
Definition within (l u : xr) (x : R) : Prop := xlt l (Fin x) = true /\ xlt (Fin x) u = true.
(** the statement for one distribution *)
Definition solves (s : special) (d : dist) (p : R) : Prop := exists x, quantile s d p = Fin x /\ within (minimum d) (maximum d) x /\ cdf s d (Fin x) = Fin p.
Lemma erfc_neg E x : error_function E -> E (- x) = 2 - E x.
Proof.
  intros (D & L2 & L0). assert (C0 : forall y z, E y + E (- y) = E z + E (- z)).
  { apply (derive_zero_const (fun t => E t + E (- t))). intros t. apply (derive_eq _ _ (- (2 / sqrt PI) * exp (- t ^ 2) + (-1) * (- (2 / sqrt PI) * exp (- (- t) ^ 2)))).
    - apply (is_derive_plus (K := R_AbsRing) (V := R_NormedModule)); [apply D|]. apply (is_derive_comp E (fun t => - t)); [apply D|]. auto_derive; [trivial|ring].
    - replace ((- t) ^ 2) with (t ^ 2) by ring. ring. }
  assert (L : is_lim (fun t => E t + E (- t)) p_infty (0 + 2)).
  { apply is_lim_plus'; [exact L0|]. apply (is_lim_comp E (fun t => - t) p_infty 2 m_infty); [exact L2| |exists 0; intros; discriminate]. apply (is_lim_opp (fun t => t) p_infty p_infty). apply is_lim_id. }
  apply is_lim_unique in L. rewrite (Lim_ext (fun _ => E x + E (- x))) in L by (intros; apply C0). rewrite Lim_const in L. injection L as L. lra.
Qed.
Ltac qu0 := unfold quantile; cbn [d_kind p1 p2]; cbv zeta; rewrite (fin_gt _ 0) by lra; rewrite (fin_gt 1) by lra.
Lemma normal_solves s a b p : 0 < b -> error_function (s_erfc s) -> (forall z, -1 < z < 1 -> s_erfc s (s_erfinv s z) = 1 - z) -> 0 < p < 1 -> solves s (Dist KNormal a b) p /\ solves s (Dist KLogNormal a b) p.
Proof.
  intros B HE Hi Hp. pose proof sqrt2_pos as S2. assert (K : 0 < b * sqrt 2) by nra. set (e := s_erfinv s (2 * p - 1)). assert (V : s_erfc s (- e) = 2 * p) by (rewrite erfc_neg by exact HE; unfold e; rewrite Hi by lra; ring). set (x := a + b * sqrt 2 * e).
  assert (Z : (a + - x) / (b * sqrt 2) = - e) by (unfold x; field; lra). split.
  - exists x. split; [qu0; reflexivity|]. split; [split; reflexivity|]. cdf0. cbn [xopp xadd xsub xmul]. rewrite fin_div by lra. cbn [xerfc xmul]. rewrite Z, V. f_equal. field.
  - exists (exp x). pose proof (exp_pos x) as P. split; [qu0; reflexivity|]. split; [split; [apply fin_lt; exact P|reflexivity]|]. cdf0. cbn [xlog]. destruct (Rlt_dec 0 (exp x)); [|lra]. rewrite ln_exp. cbn [xopp xadd xsub xmul]. rewrite fin_div by lra. cbn [xerfc xmul]. rewrite Z, V. f_equal. field.
Qed.
Lemma t_general s a b p : 0 < a -> a <> 1 -> a <> 2 -> a <> 4 -> (forall p, 0 < p < 1 -> 0 < s_ibetainv s (a / 2) (1 / 2) p < 1 /\ s_ibeta s (a / 2) (1 / 2) (s_ibetainv s (a / 2) (1 / 2) p) = p) ->
  0 < p < 1 -> p <> 1 / 2 -> solves s (Dist KT a b) p.
Proof.
  intros A N1 N2 N4 Hi Hp Np.
  assert (Q : forall q, 0 < q < 1 -> let z := s_ibetainv s (a / 2) (1 / 2) q in 0 <= a * (1 - z) / z /\ 0 < z < 1 /\ a / (a * (1 - z) / z + a) = z).
  { intros q Hq z. destruct (Hi q Hq) as (Z & _). fold z in Z. split; [|split; [exact Z|field; nra]]. apply Rlt_le, Rdiv_lt_0_compat; nra. }
  assert (NE : forall v, a <> v -> xeq (Fin a) (Fin v) = false) by (intros v Hv; cbn [xeq]; destruct (Req_EM_T a v); [contradiction|reflexivity]).
  assert (NP : xeq (Fin p) (Fin (1 / 2)) = false) by (cbn [xeq]; destruct (Req_EM_T p (1 / 2)); [contradiction|reflexivity]).
  destruct (Rlt_dec p (1 / 2)) as [L|L].
  - destruct (Q (2 * p) ltac:(lra)) as (Q1 & Q2 & Q3). destruct (Hi (2 * p) ltac:(lra)) as (_ & Q4). set (z := s_ibetainv s (a / 2) (1 / 2) (2 * p)) in *. exists (- sqrt (a * (1 - z) / z)). split; [|split; [split; reflexivity|]].
    + qu0. rewrite NP, !NE by assumption. rewrite !fin_lt by exact L. cbn [xmul]. rewrite !fin_div by lra. cbn [lift3]. fold z. cbn [xsub xopp xadd xmul]. rewrite fin_div by lra. change (1 + - z) with (1 - z). rewrite fin_sqrt by exact Q1. reflexivity.
    + rewrite t_cdf by exact A. unfold tcdf. pose proof (sqrt_pos (a * (1 - z) / z)) as Sp. destruct (Rle_dec (- sqrt (a * (1 - z) / z)) 0); [|lra]. unfold G, zt. replace (- sqrt (a * (1 - z) / z) * - sqrt (a * (1 - z) / z)) with (sqrt (a * (1 - z) / z) * sqrt (a * (1 - z) / z)) by ring. rewrite sqrt_sqrt by exact Q1. rewrite Q3, Q4. f_equal. field.
  - destruct (Q (2 * (1 - p)) ltac:(lra)) as (Q1 & Q2 & Q3). destruct (Hi (2 * (1 - p)) ltac:(lra)) as (_ & Q4). set (z := s_ibetainv s (a / 2) (1 / 2) (2 * (1 - p))) in *. exists (sqrt (a * (1 - z) / z)). split; [|split; [split; reflexivity|]].
    + qu0. rewrite NP, !NE by assumption. rewrite !(fin_ge p) by lra. cbn [xsub xopp xadd xmul]. rewrite !fin_div by lra. cbn [lift3]. change (1 + - p) with (1 - p). fold z. cbn [xsub xopp xadd xmul]. rewrite fin_div by lra. change (1 + - z) with (1 - z). rewrite fin_sqrt by exact Q1. reflexivity.
    + rewrite t_cdf by exact A. unfold tcdf. assert (Sp : 0 < sqrt (a * (1 - z) / z)) by (apply sqrt_lt_R0; apply Rdiv_lt_0_compat; nra). destruct (Rle_dec (sqrt (a * (1 - z) / z)) 0); [lra|]. unfold G, zt. rewrite sqrt_sqrt by exact Q1. rewrite Q3, Q4. f_equal. field.
Qed.
Lemma cos_3a x : cos (3 * x) = 4 * (cos x * cos x * cos x) - 3 * cos x.
Proof.
  replace (3 * x) with (2 * x + x) by ring. rewrite cos_plus, cos_2a_cos, sin_2a. replace (2 * sin x * cos x * sin x) with (2 * cos x * (Rsqr (sin x))) by (unfold Rsqr; ring). rewrite sin2. unfold Rsqr. ring.
Qed.
(** the formula for four degrees of freedom *)
Lemma dof4 al : 0 < al < 1 -> let q := cos (1 / 3 * acos (sqrt al)) / sqrt al in 1 < q /\ 4 * al * (q * q * q) = 3 * q + 1.
Proof.
  intros Ha. assert (S : 0 < sqrt al) by (apply sqrt_lt_R0; lra). assert (S1 : sqrt al < 1) by (rewrite <- sqrt_1; apply sqrt_lt_1; lra). assert (SS : sqrt al * sqrt al = al) by (apply sqrt_sqrt; lra). set (w := sqrt al) in *. set (f := 1 / 3 * acos w).
  assert (E3 : cos (3 * f) = w) by (unfold f; replace (3 * (1 / 3 * acos w)) with (acos w) by field; apply cos_acos; lra).
  assert (F : 0 < f /\ 3 * f <= PI). { unfold f. pose proof (acos_bound w) as Bd. destruct (Req_dec (acos w) 0) as [Z|Z]; [|lra]. exfalso. assert (cos (acos w) = w) by (apply cos_acos; lra). rewrite Z, cos_0 in H. lra. }
  assert (CW : w < cos f) by (rewrite <- E3; apply cos_decreasing_1; lra). rewrite cos_3a in E3. set (C := cos f) in *. intros q. assert (EC : C = q * w) by (unfold q; field; lra). split.
  - apply (Rmult_lt_reg_r w); [exact S|]. rewrite <- EC. lra.
  - rewrite EC in E3. apply (Rmult_eq_reg_r w); [|lra]. rewrite <- SS. lra.
Qed.
Lemma square_sign x y : x * x = y * y -> 0 < x * y -> x = y.
Proof. intros H P. assert (E : (x - y) * (x + y) = 0) by (ring_simplify; lra). apply Rmult_integral in E. destruct E; nra. Qed.
Lemma t_special s b p a c : 0 < c -> (a = 1 \/ a = 2 \/ a = 4) -> incomplete_beta (s_ibeta s (a / 2) (1 / 2)) (a / 2) (1 / 2) c -> 0 < p < 1 -> p <> 1 / 2 -> solves s (Dist KT a b) p.
Proof.
  intros Hc Ha HI Hp Np. assert (NP : xeq (Fin p) (Fin (1 / 2)) = false) by (cbn [xeq]; destruct (Req_EM_T p (1 / 2)); [contradiction|reflexivity]). pose proof PI_RGT_0 as PP.
  assert (NE : forall u v, u <> v -> xeq (Fin u) (Fin v) = false) by (intros u v Hv; cbn [xeq]; destruct (Req_EM_T u v); [contradiction|reflexivity]). assert (EE : forall u, xeq (Fin u) (Fin u) = true) by (intros u; cbn [xeq]; destruct (Req_EM_T u u); [reflexivity|contradiction]).
  set (w := 2 * p - 1). assert (Ew : 4 * p * (1 + - p) = 1 - w * w) by (unfold w; ring). assert (Pw : 0 < 1 - w * w) by (rewrite <- Ew; nra).
  destruct Ha as [->|[->| ->]].
  - exists (tan (PI * (p - 1 / 2))). split; [qu0; rewrite NP, EE; reflexivity|]. split; [split; reflexivity|]. rewrite t_cdf by lra. rewrite (t1_cdf _ c Hc _ HI). rewrite atan_tan by (split; nra). f_equal. field. lra.
  - replace (2 / 2) with 1 in HI by field. assert (P2 : 0 <= 2 / (1 - w * w)) by (apply Rlt_le, Rdiv_lt_0_compat; lra). exists (w * sqrt (2 / (1 - w * w))). split; [|split; [split; reflexivity|]].
    + qu0. rewrite NP, NE, EE by lra. cbn [xmul xsub xopp xadd]. rewrite Ew. rewrite fin_div by lra. rewrite fin_sqrt by exact P2. reflexivity.
    + rewrite t_cdf by lra. replace (2 / 2) with 1 by field. rewrite (t2_cdf _ c Hc _ HI). f_equal. set (t := w * sqrt (2 / (1 - w * w))). assert (TT : t * t = w * w * (2 / (1 - w * w))) by (unfold t; replace (w * sqrt (2 / (1 - w * w)) * (w * sqrt (2 / (1 - w * w)))) with (w * w * (sqrt (2 / (1 - w * w)) * sqrt (2 / (1 - w * w)))) by ring; rewrite sqrt_sqrt by exact P2; reflexivity).
      assert (RR : ratio 2 t = w).
      { unfold ratio. rewrite TT. replace (2 + w * w * (2 / (1 - w * w))) with (2 / (1 - w * w)) by (field; lra). unfold t. field. apply Rgt_not_eq, sqrt_lt_R0, Rdiv_lt_0_compat; lra. }
      rewrite RR. unfold w. field.
  - replace (4 / 2) with 2 in HI by field. assert (Al : 0 < 1 - w * w < 1) by (split; [exact Pw|]; assert (0 < w * w) by (apply sq_pos; unfold w; lra); lra). destruct (dof4 _ Al) as (Q1 & Q3). set (q := cos (1 / 3 * acos (sqrt (1 - w * w))) / sqrt (1 - w * w)) in *.
    set (sg := if Rlt_dec 0 (p - 1 / 2) then 1 else -1). assert (Sg : sg * sg = 1 /\ 0 < sg * w) by (unfold sg, w; destruct (Rlt_dec 0 (p - 1 / 2)); split; lra). exists (sg * 2 * sqrt (q - 1)). split; [|split; [split; reflexivity|]].
    + qu0. rewrite NP, !NE, EE by lra. cbn [xmul xsub xopp xadd]. rewrite Ew. rewrite !fin_sqrt by lra. rewrite fin_div by lra. cbn [lift1 xmul]. assert (Sq : 0 < sqrt (1 - w * w)) by (apply sqrt_lt_R0; lra). rewrite fin_div by lra. fold q. cbn [xsub xopp xadd]. change (q + - (1)) with (q - 1). rewrite fin_sqrt by lra. unfold xsign, sg. change (p + - (1 / 2)) with (p - 1 / 2). destruct (Rlt_dec 0 (p - 1 / 2)) as [L|L]; [rewrite fin_lt by exact L|rewrite fin_ge by lra; rewrite fin_lt by lra]; reflexivity.
    + rewrite t_cdf by lra. replace (4 / 2) with 2 by field. rewrite (t4_cdf _ c Hc _ HI). f_equal. set (r := sqrt (q - 1)). assert (Rp : 0 < r) by (apply sqrt_lt_R0; lra). assert (Rr : r * r = q - 1) by (apply sqrt_sqrt; lra). set (y := ratio 4 (sg * 2 * r)).
      assert (Sq : 0 < sqrt q) by (apply sqrt_lt_R0; lra). assert (SQ : sqrt q * sqrt q = q) by (apply sqrt_sqrt; lra).
      assert (EY : y = sg * (r / sqrt q)).
      { unfold y, ratio. replace (4 + sg * 2 * r * (sg * 2 * r)) with (2 * 2 * q) by (replace (sg * 2 * r * (sg * 2 * r)) with ((sg * sg) * 4 * (r * r)) by ring; rewrite (proj1 Sg), Rr; ring). rewrite sqrt_mult by lra. rewrite sqrt_square by lra. field. lra. }
      assert (YY : y * y = 1 - 1 / q). { rewrite EY. replace (sg * (r / sqrt q) * (sg * (r / sqrt q))) with ((sg * sg) * (r * r) / (sqrt q * sqrt q)) by (field; lra). rewrite (proj1 Sg), Rr, SQ. field. lra. }
      assert (K : 1 / 2 * cubic y = w).
      { apply square_sign.
        - unfold cubic. replace (1 / 2 * (3 * y - y * y * y) * (1 / 2 * (3 * y - y * y * y))) with ((y * y) * (3 - y * y) * (3 - y * y) / 4) by field. rewrite YY. assert (W2 : w * w = 1 - (3 * q + 1) / (4 * (q * q * q))) by (rewrite <- Q3; field; lra). rewrite W2. field. lra.
        - unfold cubic. replace (1 / 2 * (3 * y - y * y * y) * w) with (1 / 2 * (3 - y * y) * (y * w)) by ring. rewrite YY. rewrite EY. replace (sg * (r / sqrt q) * w) with ((sg * w) * (r / sqrt q)) by ring. assert (0 < r / sqrt q) by (apply Rdiv_lt_0_compat; auto). assert (0 < 1 / q) by (apply Rdiv_lt_0_compat; lra). apply Rmult_lt_0_compat; [lra|]. apply Rmult_lt_0_compat; [apply Sg|assumption]. }
      unfold w in K. lra.
Qed.
Lemma all_solve s d p : proper d -> library_ok s d -> inverse_ok s d -> 0 < p < 1 -> solves s d p.
Proof.
  destruct d as [k a b]. unfold proper, library_ok, inverse_ok. cbn [d_kind p1 p2]. cbv zeta. destruct k; try contradiction; intros P L Hi Hp.
  - exists (a + p * (b - a)). split; [qu0; reflexivity|]. assert (X : a < a + p * (b - a) < b) by nra. split; [split; apply fin_lt; cbn; lra|]. cdf0. cbn [xsub xopp xadd]. rewrite fin_div by lra. f_equal. field. lra.
  - apply normal_solves; auto.
  - destruct (Hi p Hp) as (Q1 & Q2). exists (s_gammapinv s (a / 2) p * 2). split; [qu0; rewrite fin_div by lra; reflexivity|]. split; [split; [apply fin_lt; lra|reflexivity]|]. cdf0. rewrite !fin_div by lra. cbn [lift2]. replace (s_gammapinv s (a / 2) p * 2 / 2) with (s_gammapinv s (a / 2) p) by field. rewrite Q2. reflexivity.
  - destruct L as (G1 & G2 & HI). assert (C0 : 0 < s_tgamma s (a / 2) * sqrt PI / s_tgamma s ((a + 1) / 2)) by (pose proof sqrtpi_pos; apply Rdiv_lt_0_compat; [apply Rmult_lt_0_compat; auto|exact G2]). destruct (Req_dec p (1 / 2)) as [->|Np].
    + exists 0. split; [qu0; cbn [xeq]; destruct (Req_EM_T (1 / 2) (1 / 2)); [reflexivity|contradiction]|]. split; [split; reflexivity|]. rewrite t_cdf by exact P. unfold tcdf. destruct (Rle_dec 0 0); [|lra]. f_equal. apply (G_zero _ a _ P HI).
    + destruct (Req_dec a 1) as [E1|N1]; [apply (t_special s b p a _ C0); auto|]. destruct (Req_dec a 2) as [E2|N2]; [apply (t_special s b p a _ C0); auto|]. destruct (Req_dec a 4) as [E4|N4]; [apply (t_special s b p a _ C0); auto|]. apply t_general; auto.
  - exists (- ln (1 - p) / a). assert (Ln : ln (1 - p) < 0) by (rewrite <- ln_1; apply ln_increasing; lra). split; [qu0; cbn [xsub xopp xadd xlog]; change (1 + - p) with (1 - p); destruct (Rlt_dec 0 (1 - p)); [|lra]; cbn [xopp]; rewrite fin_div by lra; reflexivity|].
    assert (X : 0 < - ln (1 - p) / a) by (apply Rdiv_lt_0_compat; lra). split; [split; [apply fin_lt; exact X|reflexivity]|]. cdf0. cbn [xopp xmul xexp xsub xadd]. replace (- a * (- ln (1 - p) / a)) with (ln (1 - p)) by (field; lra). rewrite exp_ln by lra. f_equal. ring.
  - apply normal_solves; auto.
  - destruct (Hi p Hp) as (Q1 & Q2). set (z := s_ibetainv s (a / 2) (b / 2) p) in *. exists (b * z / (a * (1 - z))). assert (K : 0 < a * (1 - z)) by nra. split; [qu0; rewrite !(fin_div _ 2) by lra; cbn [lift3]; fold z; cbn [xsub xopp xadd xmul]; change (1 + - z) with (1 - z); rewrite fin_div by lra; reflexivity|].
    assert (X : 0 < b * z / (a * (1 - z))) by (apply Rdiv_lt_0_compat; nra). split; [split; [apply fin_lt; exact X|reflexivity]|]. cdf0. cbn [xmul xadd]. rewrite !fin_div by nra. cbn [lift3]. replace (a * (b * z / (a * (1 - z))) / (a * (b * z / (a * (1 - z))) + b)) with z; [rewrite Q2; reflexivity|]. field. repeat split; nra.
  - destruct (Hi p Hp) as (Q1 & Q2). exists (s_gammapinv s a p * b). split; [qu0; reflexivity|]. assert (X : 0 < s_gammapinv s a p * b) by nra. split; [split; [apply fin_lt; exact X|reflexivity]|]. cdf0. rewrite !fin_div by lra. cbn [lift2]. replace (s_gammapinv s a p * b / b) with (s_gammapinv s a p) by (field; lra). rewrite Q2. reflexivity.
  - destruct (Hi p Hp) as (Q1 & Q2). exists (s_ibetainv s a b p). split; [qu0; reflexivity|]. split; [split; apply fin_lt; lra|]. cdf0. cbn [lift3]. rewrite Q2. reflexivity.
Qed.

(** Between minimum and maximum there is exactly one number x with the distribution function p, and the quantile is this number. *)
Theorem c118_inverse (s : special) (d : dist) (p : R) : proper d -> library_ok s d -> inverse_ok s d -> 0 < p < 1 ->
  exists x, quantile s d p = Fin x /\ xlt (minimum d) (Fin x) = true /\ xlt (Fin x) (maximum d) = true /\ cdf s d (Fin x) = Fin p /\ (forall y, cdf s d (Fin y) = Fin p -> y = x).
Proof.
  intros P L Hi Hp. destruct (all_solve s d p P L Hi Hp) as (x & Q & (W1 & W2) & E). exists x. split; [exact Q|]. split; [exact W1|]. split; [exact W2|]. split; [exact E|].
  intros y Ey. destruct (all_good s d P L) as (l & u & f & Mi & Ma & Lu & D & _ & Lo & Hig & _). rewrite Mi in W1. rewrite Ma in W2. pose proof (inside_between l u x W1 W2) as Bx. assert (Fx : dfun s d x = p) by (unfold dfun; rewrite E; reflexivity). assert (Fy : dfun s d y = p) by (unfold dfun; rewrite Ey; reflexivity).
  destruct (Rbar_lt_le_dec l y) as [A|A]; [|specialize (Lo y A); lra]. destruct (Rbar_lt_le_dec y u) as [B|B]; [|specialize (Hig y B); lra].
  apply (inject_in l u (dfun s d) f); [|split; auto|exact Bx|lra]. intros t Ht. destruct (D t Ht) as (_ & F1 & F2). auto.
Qed.
Print Assumptions c118_inverse.
(** For a number between minimum and maximum the quantile of the distribution function is this number. *)
Theorem c118_round_trip (s : special) (d : dist) (x : R) : proper d -> library_ok s d -> inverse_ok s d -> xlt (minimum d) (Fin x) = true -> xlt (Fin x) (maximum d) = true ->
  exists p, cdf s d (Fin x) = Fin p /\ 0 < p < 1 /\ quantile s d p = Fin x.
Proof.
  intros P L Hi A B. destruct (all_good s d P L) as (l & u & f & Mi & Ma & Lu & D & N & _ & _ & LL & LH). rewrite Mi in A. rewrite Ma in B. pose proof (inside_between l u x A B) as Bx.
  assert (R1 : 0 < dfun s d x < 1) by (apply (range_lt l u (dfun s d) f); auto; intros t Ht; destruct (D t Ht) as (_ & F1 & F2); auto). destruct (N x) as (p & Ep). unfold dfun in R1. rewrite Ep in R1. cbn in R1. exists p. split; [exact Ep|]. split; [exact R1|].
  destruct (c118_inverse s d p P L Hi R1) as (y & Qy & _ & _ & _ & U). rewrite (U x Ep). exact Qy.
Qed.
Print Assumptions c118_round_trip.
(** The quantile of a smaller probability is smaller. *)
Theorem c118_increasing (s : special) (d : dist) (p q x y : R) : proper d -> library_ok s d -> inverse_ok s d -> 0 < p -> p < q -> q < 1 -> quantile s d p = Fin x -> quantile s d q = Fin y -> x < y.
Proof.
  intros P L Hi H0 H1 H2 X Y. destruct (c118_inverse s d p P L Hi ltac:(lra)) as (x' & X' & _ & _ & Ex & _). destruct (c118_inverse s d q P L Hi ltac:(lra)) as (y' & Y' & _ & _ & Ey & _). rewrite X in X'. rewrite Y in Y'. injection X' as <-. injection Y' as <-.
  destruct (c117_distribution s d P L) as (_ & (M & _) & _). destruct (Rlt_le_dec x y) as [G|G]; [exact G|]. specialize (M y x G). cbv beta in M. rewrite Ex, Ey in M. cbn in M. lra.
Qed.
Print Assumptions c118_increasing.
(** Probabilities outside of (0, 1), for all distributions. *)
Theorem c118_ends (s : special) (d : dist) (p : R) : (p <= 0 -> quantile s d p = minimum d) /\ (1 <= p -> quantile s d p = maximum d).
Proof.
  split; intros H; unfold quantile; cbv zeta; [rewrite fin_le by lra; reflexivity|]. rewrite (fin_gt p 0) by lra. rewrite fin_le by lra. reflexivity.
Qed.
Print Assumptions c118_ends.
(** The inverse functions exist: for all functions with the properties of the other contract, there are inverse functions with those of this one. *)
Definition with_inverse (s : special) (e : R -> R) (ib : R -> R -> R -> R) (gp : R -> R -> R) : special := Special (s_erfc s) e (s_tgamma s) (s_lgamma s) (s_beta s) (s_ibeta s) ib (s_gammap s) gp.
Lemma gamma_inverse P a c p : 0 < c -> incomplete_gamma P a c -> 0 < p < 1 -> 0 < lub_inverse 0 p_infty P p /\ P (lub_inverse 0 p_infty P p) = p.
Proof.
  intros Hc (_ & L0 & D & L1) Hp. destruct (lub_inverse_ok 0 p_infty P (fun x => Rpower x (a - 1) * exp (- x) / c)) with (p := p) as [[A _] B]; auto; [exact Logic.I|].
  intros x [Hx _]. cbn in Hx. split; [apply D; exact Hx|]. apply Rdiv_lt_0_compat; [apply Rmult_lt_0_compat; apply exp_pos|exact Hc].
Qed.
Lemma beta_inverse F a b c p : 0 < c -> incomplete_beta F a b c -> 0 < p < 1 -> 0 < lub_inverse 0 1 F p < 1 /\ F (lub_inverse 0 1 F p) = p.
Proof.
  intros Hc (_ & _ & L0 & L1 & D) Hp. destruct (lub_inverse_ok 0 1 F (fun x => Rpower x (a - 1) * Rpower (1 - x) (b - 1) / c)) with (p := p) as [[A B] C0]; auto; [cbn; lra|].
  intros x [Hx Hy]. cbn in Hx, Hy. split; [apply D; auto|]. apply Rdiv_lt_0_compat; [apply Rmult_lt_0_compat; apply exp_pos|exact Hc].
Qed.
Lemma erf_inverse E z : error_function E -> -1 < z < 1 -> E (lub_inverse m_infty p_infty (fun x => 1 - E x / 2) ((1 + z) / 2)) = 1 - z.
Proof.
  intros (D & L2 & L0) Hz. pose proof sqrtpi_pos as SP. destruct (lub_inverse_ok m_infty p_infty (fun x => 1 - E x / 2) (fun x => exp (- x ^ 2) / sqrt PI)) with (p := (1 + z) / 2) as [_ K]; [exact Logic.I| | | |lra|].
  - intros x _. split; [|apply Rdiv_lt_0_compat; [apply exp_pos|exact SP]]. apply (derive_eq _ _ (0 - / 2 * (- (2 / sqrt PI) * exp (- x ^ 2)))); [|field; lra]. apply (is_derive_minus (fun _ => 1) (fun x => E x / 2)); [apply (is_derive_const (K := R_AbsRing) (V := R_NormedModule))|]. apply (is_derive_ext (fun x => / 2 * E x)); [intros y; change (/ 2 * E y = E y * / 2); ring|]. apply is_derive_scal. apply D.
  - assert (T : is_lim (fun x => 1 - E x / 2) m_infty 0); [|exact T]. replace (Finite 0) with (Finite (1 - 2 * / 2)) by (f_equal; field). apply is_lim_minus'; [apply is_lim_const|]. apply (is_lim_scal_r E (/ 2) m_infty 2 L2).
  - assert (T : is_lim (fun x => 1 - E x / 2) p_infty 1); [|exact T]. replace (Finite 1) with (Finite (1 - 0 * / 2)) by (f_equal; field). apply is_lim_minus'; [apply is_lim_const|]. apply (is_lim_scal_r E (/ 2) p_infty 0 L0).
  - cbv beta in K. lra.
Qed.
Theorem c118_inverse_exists (s : special) (d : dist) : proper d -> library_ok s d -> exists e ib gp, let s' := with_inverse s e ib gp in library_ok s' d /\ inverse_ok s' d.
Proof.
  intros P L. exists (fun z => lub_inverse m_infty p_infty (fun x => 1 - s_erfc s x / 2) ((1 + z) / 2)), (fun a b p => lub_inverse 0 1 (s_ibeta s a b) p), (fun a p => lub_inverse 0 p_infty (s_gammap s a) p). cbv zeta. split; [exact L|].
  destruct d as [k a b]. unfold proper, library_ok, inverse_ok in *. cbn [d_kind p1 p2] in *. cbv zeta in *. cbn [with_inverse s_erfc s_erfinv s_ibeta s_ibetainv s_gammap s_gammapinv]. pose proof sqrtpi_pos as SP. destruct k; try contradiction; try exact Logic.I.
  - intros z Hz. apply erf_inverse; auto.
  - intros p Hp. apply (gamma_inverse _ (a / 2) (s_tgamma s (a / 2))); tauto.
  - intros _ _ _ p Hp. destruct L as (G1 & G2 & HI). refine (beta_inverse _ _ _ _ _ _ HI Hp). apply Rdiv_lt_0_compat; [apply Rmult_lt_0_compat; auto|exact G2].
  - intros z Hz. apply erf_inverse; auto.
  - intros p Hp. apply (beta_inverse _ (a / 2) (b / 2) (s_beta s (a / 2) (b / 2))); tauto.
  - intros p Hp. apply (gamma_inverse _ a (s_tgamma s a)); tauto.
  - intros p Hp. destruct L as (G1 & G2 & G3 & HI). refine (beta_inverse _ _ _ _ _ _ HI Hp). apply Rdiv_lt_0_compat; [apply Rmult_lt_0_compat; auto|exact G3].
Qed.
Print Assumptions c118_inverse_exists.
Example c118_case : exists s, library_ok s (Dist KT 2 0) /\ inverse_ok s (Dist KT 2 0) /\ proper (Dist KT 2 0) /\ quantile s (Dist KT 2 0) (1 / 2) = Fin 0 /\ quantile s (Dist KUniformCon 1 3) (1 / 4) = Fin (3 / 2) /\ inverse_ok s (Dist KUniformCon 1 3) /\ proper (Dist KUniformCon 1 3).
Proof.
  assert (P : proper (Dist KT 2 0)) by (cbn; lra). destruct (c118_inverse_exists simple_special (Dist KT 2 0) P) as (e & ib & gp & L & Hi); [apply c117_case|]. exists (with_inverse simple_special e ib gp). split; [exact L|]. split; [exact Hi|]. split; [exact P|]. split; [|split; [|split; [exact Logic.I|cbn; lra]]].
  - qu0. rewrite fin_eq by reflexivity. reflexivity.
  - qu0. cbn [xsub xopp xadd xmul]. f_equal. field.
Qed.
