(** The error function: the integral of exp(-t^2). *)
From Coq Require Import Reals Lra Lia.
From Coquelicot Require Import Coquelicot.
From Verif Require Import UdSpec UdSpec2 UdProofs4 UdProofs6.
Local Open Scope R_scope.

Definition bell (t : R) : R := exp (- (t * t)).
Definition J (x : R) : R := RInt bell 0 x.
Definition ker (x t : R) : R := exp (- (x * x) * (1 + t * t)) / (1 + t * t).
Definition K (x : R) : R := RInt (ker x) 0 1.
Lemma one_sq t : 0 < 1 + t * t.
Proof. pose proof (Rle_0_sqr t) as H. unfold Rsqr in H. lra. Qed.
Lemma bell_cont (t : R) : continuous bell t.
Proof. apply (ex_derive_continuous bell). unfold bell. auto_derive. trivial. Qed.
Lemma bell_int a b : ex_RInt bell a b.
Proof. apply (ex_RInt_continuous (V := R_CompleteNormedModule)). intros; apply bell_cont. Qed.
Lemma J_derive (x : R) : is_derive J x (bell x).
Proof. unfold J. apply (is_derive_RInt bell _ 0); [|apply bell_cont]. apply filter_forall. intros y. apply (RInt_correct (V := R_CompleteNormedModule)). apply bell_int. Qed.
Lemma ker_cont (x t : R) : continuous (ker x) t.
Proof. apply (ex_derive_continuous (ker x)). unfold ker. auto_derive. pose proof (one_sq t). lra. Qed.
Lemma ker_int x a b : ex_RInt (ker x) a b.
Proof. apply (ex_RInt_continuous (V := R_CompleteNormedModule)). intros; apply ker_cont. Qed.
Lemma ker_derive (x t : R) : is_derive (fun u => ker u t) x (- 2 * x * exp (- (x * x) * (1 + t * t))).
Proof. unfold ker. pose proof (one_sq t). auto_derive; [lra|]. field. lra. Qed.
Lemma K_derive (x : R) : is_derive K x (- 2 * bell x * J x).
Proof.
  assert (D : is_derive K x (RInt (fun t => Derive (fun u => ker u t) x) 0 1)).
  { unfold K. apply (is_derive_RInt_param ker 0 1 x).
    - apply filter_forall. intros y t _. eexists. apply ker_derive.
    - intros t _. apply (continuity_2d_pt_ext (fun u v => - 2 * u * exp (- (u * u) * (1 + v * v)))); [intros u v; symmetry; apply is_derive_unique; apply ker_derive|].
      apply continuity_2d_pt_mult; [apply continuity_2d_pt_mult; [apply continuity_2d_pt_const|apply continuity_2d_pt_id1]|]. apply (continuity_1d_2d_pt_comp exp (fun u v => - (u * u) * (1 + v * v))); [apply derivable_continuous_pt; apply derivable_pt_exp|].
      apply continuity_2d_pt_mult; [apply continuity_2d_pt_opp; apply continuity_2d_pt_mult; apply continuity_2d_pt_id1|apply continuity_2d_pt_plus; [apply continuity_2d_pt_const|apply continuity_2d_pt_mult; apply continuity_2d_pt_id2]].
    - apply filter_forall. intros y. apply ker_int. }
  apply (derive_eq _ _ _ _ D). unfold J.
  assert (Ex : ex_RInt (fun t => scal x (bell (x * t + 0))) 0 1) by (apply (ex_RInt_comp_lin bell x 0 0 1); apply bell_int).
  pose proof (RInt_scal (V := R_CompleteNormedModule) (fun t => scal x (bell (x * t + 0))) 0 1 (- 2 * bell x) Ex) as E1. pose proof (RInt_comp_lin (V := R_CompleteNormedModule) bell x 0 0 1 (bell_int _ _)) as E2.
  replace (x * 0 + 0) with 0 in E2 by ring. replace (x * 1 + 0) with x in E2 by ring. transitivity (RInt (fun t => scal (- 2 * bell x) (scal x (bell (x * t + 0)))) 0 1).
  2: { etransitivity; [exact E1|]. exact (f_equal (fun v => - 2 * bell x * v) E2). }
  apply (RInt_ext (V := R_CompleteNormedModule)).
  intros t _. etransitivity; [exact (is_derive_unique _ _ _ (ker_derive x t))|]. unfold scal. cbn. unfold mult. cbn. unfold bell. replace (- (x * x) * (1 + t * t)) with (- (x * x) + - ((x * t + 0) * (x * t + 0))) by ring. rewrite exp_plus. ring.
Qed.
Lemma K_zero : K 0 = PI / 4.
Proof.
  unfold K. apply is_RInt_unique. replace (PI / 4) with (minus (atan 1) (atan 0)) by (rewrite atan_1, atan_0; unfold minus, plus, opp; cbn; ring). apply (is_RInt_derive atan (ker 0)).
  - intros t _. unfold ker. pose proof (one_sq t) as P1. pose proof (derivable_pt_lim_atan t) as H. apply is_derive_Reals in H. apply (derive_eq _ _ _ _ H). replace (- (0 * 0) * (1 + t * t)) with 0 by ring. rewrite exp_0. unfold Rsqr. field. nra.
  - intros t _. apply ker_cont.
Qed.
Lemma JK x : J x * J x + K x = PI / 4.
Proof.
  assert (D : forall t, is_derive (fun t => J t * J t + K t) t 0).
  { intros t. replace 0 with ((bell t * J t + J t * bell t) + - 2 * bell t * J t) by ring. apply (is_derive_plus (K := R_AbsRing) (V := R_NormedModule)); [|apply K_derive]. apply (is_derive_mult J J t _ _ (J_derive t) (J_derive t)). intros; apply Rmult_comm. }
  assert (E : J x * J x + K x = J 0 * J 0 + K 0).
  { destruct (MVT_gen (fun t => J t * J t + K t) 0 x (fun _ => 0)) as (c & _ & E); [intros; apply D|intros; apply continuity_pt_filterlim; apply (ex_derive_continuous (fun t => J t * J t + K t)); eexists; apply D|]. cbv beta in E. lra. }
  rewrite E, K_zero. replace (J 0) with 0 by (unfold J; rewrite RInt_point; reflexivity). ring.
Qed.
Lemma K_bounds x : 0 <= K x <= exp (- (x * x)).
Proof.
  assert (B : forall t, 0 <= ker x t <= exp (- (x * x))).
  { intros t. pose proof (one_sq t) as P. pose proof (Rle_0_sqr t) as Q. pose proof (Rle_0_sqr x) as Qx. unfold Rsqr in Q, Qx. unfold ker. split; [apply Rlt_le, Rdiv_lt_0_compat; [apply exp_pos|exact P]|]. apply (Rmult_le_reg_r (1 + t * t)); [exact P|]. unfold Rdiv. rewrite Rmult_assoc, Rinv_l by lra. rewrite Rmult_1_r.
    replace (- (x * x) * (1 + t * t)) with (- (x * x) + - (x * x * (t * t))) by ring. rewrite exp_plus. pose proof (exp_pos (- (x * x))). assert (exp (- (x * x * (t * t))) <= 1) by (rewrite <- exp_0; apply exp_le_3 || idtac; destruct (Req_dec (x * x * (t * t)) 0) as [->|N]; [rewrite Ropp_0; lra|left; apply exp_increasing; assert (0 <= x * x * (t * t)) by (apply Rmult_le_pos; assumption); lra]). nra. }
  split.
  - unfold K. apply RInt_ge_0; [lra|apply ker_int|]. intros t _. apply B.
  - unfold K. replace (exp (- (x * x))) with (RInt (fun _ => exp (- (x * x))) 0 1) by (rewrite RInt_const; unfold scal; cbn; unfold mult; cbn; ring). apply RInt_le; [lra|apply ker_int|apply ex_RInt_const|]. intros t _. apply B.
Qed.
Lemma K_lim : is_lim K p_infty 0.
Proof.
  apply (is_lim_le_le_loc (fun _ => 0) (fun x => exp (- x))); [|apply is_lim_const|].
  - exists 1. intros x Hx. pose proof (K_bounds x) as [A B]. split; [exact A|]. apply (Rle_trans _ _ _ B). left. apply exp_increasing. nra.
  - apply (is_lim_comp exp Ropp p_infty 0 m_infty); [apply is_lim_exp_m| |exists 0; intros; discriminate]. apply (is_lim_opp (fun x => x) p_infty p_infty). apply is_lim_id.
Qed.
Lemma J_pos x : 0 <= x -> 0 <= J x.
Proof. intros H. unfold J. apply RInt_ge_0; [exact H|apply bell_int|]. intros t _. left. apply exp_pos. Qed.
(** Gauss: the integral from 0 to infinity is sqrt(PI) / 2 *)
Lemma J_lim : is_lim J p_infty (sqrt PI / 2).
Proof.
  apply (is_lim_ext_loc (fun x => sqrt (PI / 4 - K x))).
  - exists 0. intros x Hx. rewrite <- (JK x). replace (J x * J x + K x - K x) with (Rsqr (J x)) by (unfold Rsqr; ring). apply sqrt_Rsqr. apply J_pos. lra.
  - replace (sqrt PI / 2) with (sqrt (PI / 4 - 0)).
    + apply (is_lim_comp_continuous (fun x => PI / 4 - K x) sqrt p_infty (PI / 4 - 0)); [apply is_lim_minus'; [apply is_lim_const|exact K_lim]|]. apply continuous_sqrt.
    + rewrite Rminus_0_r. unfold Rdiv. rewrite sqrt_mult by (try (left; apply PI_RGT_0); lra). f_equal. replace (/ 4) with (Rsqr (/ 2)) by (unfold Rsqr; field). apply sqrt_Rsqr. lra.
Qed.
Lemma J_odd x : J (- x) = - J x.
Proof.
  assert (D : forall t, is_derive (fun t => J (- t) + J t) t 0).
  { intros t. replace 0 with (scal (-1) (bell (- t)) + bell t) by (unfold scal; cbn; unfold mult; cbn; unfold bell; replace (- t * - t) with (t * t) by ring; ring).
    apply (is_derive_plus (K := R_AbsRing) (V := R_NormedModule)); [|apply J_derive]. apply (is_derive_comp J Ropp); [apply J_derive|auto_derive; [trivial|ring]]. }
  destruct (MVT_gen (fun t => J (- t) + J t) 0 x (fun _ => 0)) as (c & _ & E); [intros; apply D|intros; apply continuity_pt_filterlim; apply (ex_derive_continuous (fun t => J (- t) + J t)); eexists; apply D|]. cbv beta in E.
  rewrite Ropp_0 in E. replace (J 0) with 0 in E by (unfold J; rewrite RInt_point; reflexivity). lra.
Qed.
Definition erfc_int (x : R) : R := 1 - 2 / sqrt PI * J x.
Theorem erfc_ok : error_function erfc_int.
Proof.
  pose proof sqrtpi_pos as SP. assert (P : is_lim erfc_int p_infty 0).
  { replace (Finite 0) with (Finite (1 - 2 / sqrt PI * (sqrt PI / 2))) by (f_equal; field; lra). unfold erfc_int. apply is_lim_minus'; [apply is_lim_const|]. apply (is_lim_scal_l J (2 / sqrt PI) p_infty (sqrt PI / 2)). exact J_lim. }
  split; [|split; [|exact P]].
  - intros x. unfold erfc_int. replace (- (2 / sqrt PI) * exp (- x ^ 2)) with (0 - 2 / sqrt PI * bell x) by (unfold bell; cbn [pow]; rewrite Rmult_1_r; ring). apply (is_derive_minus (fun _ => 1)); [apply (is_derive_const (K := R_AbsRing) (V := R_NormedModule))|]. apply (is_derive_scal J). apply J_derive.
  - apply (is_lim_ext (fun x => 2 - erfc_int (- x))); [intros x; unfold erfc_int; rewrite J_odd; ring|]. replace (Finite 2) with (Finite (2 - 0)) by (f_equal; ring). apply is_lim_minus'; [apply is_lim_const|].
    apply (is_lim_comp erfc_int Ropp m_infty 0 p_infty); [exact P| |exists 0; intros; discriminate]. apply (is_lim_opp (fun x => x) m_infty m_infty). apply is_lim_id.
Qed.
