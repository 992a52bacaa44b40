(** C117: distribution functions and densities of the continuous distributions. *)
From Coq Require Import Reals Lra Lia.
From Coquelicot Require Import Coquelicot.
From Verif Require Import UdModel UdSpec UdSpec2 UdProofs2 UdProofs3 UdProofs4 UdProofs5 UdProofs6 UdProofs7 UdProofs8.
Local Open Scope R_scope.

(** Parameters of continuous distributions. *)
Definition proper (d : dist) : Prop :=
  match d_kind d with
  | KUniformCon => p1 d < p2 d
  | KNormal | KLogNormal => 0 < p2 d
  | KT | KChi2 | KExponential => 0 < p1 d
  | KF | KGamma | KBeta => 0 < p1 d /\ 0 < p2 d
  | _ => False
  end.
(** What is required of the functions of other libraries, for the parameters of the distribution. *)
Definition library_ok (s : special) (d : dist) : Prop :=
  let a := p1 d in let b := p2 d in let G := s_tgamma s in
  match d_kind d with
  | KNormal | KLogNormal => error_function (s_erfc s)
  | KChi2 => 0 < G (a / 2) /\ incomplete_gamma (s_gammap s (a / 2)) (a / 2) (G (a / 2))
  | KGamma => 0 < G a /\ incomplete_gamma (s_gammap s a) a (G a)
  | KBeta => 0 < G a /\ 0 < G b /\ 0 < G (a + b) /\ incomplete_beta (s_ibeta s a b) a b (G a * G b / G (a + b))
  | KF => 0 < s_beta s (a / 2) (b / 2) /\ incomplete_beta (s_ibeta s (a / 2) (b / 2)) (a / 2) (b / 2) (s_beta s (a / 2) (b / 2))
  | KT => 0 < G (a / 2) /\ 0 < G ((a + 1) / 2) /\ incomplete_beta (s_ibeta s (a / 2) (1 / 2)) (a / 2) (1 / 2) (G (a / 2) * sqrt PI / G ((a + 1) / 2))
  | _ => True
  end.
Lemma all_good s d : proper d -> library_ok s d -> exists l u f, good s d l u f.
Proof.
  destruct d as [k a b]. unfold proper, library_ok. cbn [d_kind p1 p2]. cbv zeta. destruct k; try contradiction; intros P L.
  - do 3 eexists. apply uniform_good. exact P.
  - do 3 eexists. apply normal_good; auto.
  - do 3 eexists. apply chi2_good; tauto.
  - do 3 eexists. apply t_good; tauto.
  - do 3 eexists. apply exponential_good. exact P.
  - do 3 eexists. apply lognormal_good; auto.
  - do 3 eexists. apply f_good; tauto.
  - do 3 eexists. apply gamma_good; tauto.
  - do 3 eexists. apply beta_good; tauto.
Qed.
Lemma inside_between l u x : xlt (bound l) (Fin x) = true -> xlt (Fin x) (bound u) = true -> between l u x.
Proof. intros A B. split; [destruct l as [l| |]|destruct u as [u| |]]; cbn in *; try discriminate; trivial; [destruct (Rlt_dec l x)|destruct (Rlt_dec x u)]; auto; discriminate. Qed.
(** Between minimum and maximum the density is a positive number, the derivative of the distribution function. *)
Theorem c117_density (s : special) (d : dist) (x : R) : proper d -> library_ok s d -> xlt (minimum d) (Fin x) = true -> xlt (Fin x) (maximum d) = true ->
  exists y, density s d x = Fin y /\ 0 < y /\ is_derive (fun t => num_of (cdf s d (Fin t))) x y.
Proof.
  intros P L A B. destruct (all_good s d P L) as (l & u & f & Mi & Ma & _ & D & _). rewrite Mi in A. rewrite Ma in B. destruct (D x (inside_between l u x A B)) as (E & F & G). exists (f x). auto.
Qed.
Print Assumptions c117_density.
(** The distribution function: a number everywhere, not decreasing, continuous, with the limits 0 and 1; it is 0 up to the minimum and 1 from the maximum on. *)
Theorem c117_distribution (s : special) (d : dist) : proper d -> library_ok s d ->
  (forall x, exists c, cdf s d (Fin x) = Fin c) /\ distribution_function (fun t => num_of (cdf s d (Fin t))) /\
  (forall l, minimum d = Fin l -> cdf s d (Fin l) = Fin 0) /\ (forall u, maximum d = Fin u -> cdf s d (Fin u) = Fin 1).
Proof.
  intros P L. destruct (all_good s d P L) as (l & u & f & Mi & Ma & Lu & D & N & Lo & Hi & LL & LH). split; [exact N|]. split; [|split].
  - apply (from_derivative (dfun s d) f l u); auto. intros x Hx. destruct (D x Hx) as (_ & Pf & Df). split; [exact Df|lra].
  - intros v E. rewrite Mi in E. destruct l as [l| |]; try discriminate. injection E as ->. specialize (Lo v (Rbar_le_refl v)). destruct (N v) as [c C0]. unfold dfun in Lo. rewrite C0 in Lo |- *. cbn in Lo. rewrite Lo. reflexivity.
  - intros v E. rewrite Ma in E. destruct u as [u| |]; try discriminate. injection E as ->. specialize (Hi v (Rbar_le_refl v)). destruct (N v) as [c C0]. unfold dfun in Hi. rewrite C0 in Hi |- *. cbn in Hi. rewrite Hi. reflexivity.
Qed.
Print Assumptions c117_distribution.
(** Outside the density is 0. *)
Theorem c117_outside (s : special) (d : dist) (x : R) : xlt (Fin x) (minimum d) = true \/ xlt (maximum d) (Fin x) = true -> density s d x = Fin 0 /\ log_density s d x = NInf.
Proof. intros [H|H]; unfold density, log_density; cbv zeta; rewrite H; rewrite ?Bool.orb_true_r; split; reflexivity. Qed.
Print Assumptions c117_outside.
(** The constructor: improper parameters are rejected, except standard deviation zero and uniform distributions with one value. *)
Definition continuous_kind (k : kind) : Prop := match k with KUniformCon | KNormal | KChi2 | KT | KExponential | KLogNormal | KF | KGamma | KBeta => True | _ => False end.
Theorem c117_accepted (k : kind) (a b : R) : continuous_kind k ->
  (dist_new k a b = Ok (Dist k a b) /\ (proper (Dist k a b) \/ ((k = KNormal \/ k = KLogNormal) /\ b = 0) \/ (k = KUniformCon /\ a = b))) \/ (dist_new k a b = Throw /\ ~ proper (Dist k a b)).
Proof.
  intros K. unfold dist_new, proper. cbn [d_kind p1 p2]. destruct k; try contradiction.
  - destruct (Rlt_dec b a); [right; rewrite fin_lt by lra; split; [reflexivity|lra]|left; rewrite fin_ge by lra; split; [reflexivity|]]. destruct (Req_dec a b); [auto|left; lra].
  - destruct (Rlt_dec b 0); [right; rewrite fin_lt by lra; split; [reflexivity|lra]|left; rewrite fin_ge by lra; split; [reflexivity|]]. destruct (Req_dec b 0); [auto|left; lra].
  - destruct (Rle_dec a 0); [right; rewrite fin_le by lra; split; [reflexivity|lra]|left; rewrite fin_gt by lra; split; [reflexivity|left; lra]].
  - destruct (Rle_dec a 0); [right; rewrite fin_le by lra; split; [reflexivity|lra]|left; rewrite fin_gt by lra; split; [reflexivity|left; lra]].
  - destruct (Rle_dec a 0); [right; rewrite fin_le by lra; split; [reflexivity|lra]|left; rewrite fin_gt by lra; split; [reflexivity|left; lra]].
  - destruct (Rlt_dec b 0); [right; rewrite fin_lt by lra; split; [reflexivity|lra]|left; rewrite fin_ge by lra; split; [reflexivity|]]. destruct (Req_dec b 0); [auto|left; lra].
  - destruct (Rle_dec a 0); [right; rewrite fin_le by lra; split; [reflexivity|lra]|rewrite fin_gt by lra]. destruct (Rle_dec b 0); [right; rewrite fin_le by lra; split; [reflexivity|lra]|left; rewrite fin_gt by lra; split; [reflexivity|left; lra]].
  - destruct (Rle_dec a 0); [right; rewrite fin_le by lra; split; [reflexivity|lra]|rewrite fin_gt by lra]. destruct (Rle_dec b 0); [right; rewrite fin_le by lra; split; [reflexivity|lra]|left; rewrite fin_gt by lra; split; [reflexivity|left; lra]].
  - destruct (Rle_dec a 0); [right; rewrite fin_le by lra; split; [reflexivity|lra]|rewrite fin_gt by lra]. destruct (Rle_dec b 0); [right; rewrite fin_le by lra; split; [reflexivity|lra]|left; rewrite fin_gt by lra; split; [reflexivity|left; lra]].
Qed.
Print Assumptions c117_accepted.
(** With standard deviation zero the distribution function is NaN at the mean and the density is NaN at all points. *)
Lemma xinf_neg x : x < 0 -> xinf x = NInf.
Proof. intros H. unfold xinf. destruct (Rlt_dec 0 x); [lra|]. destruct (Rlt_dec x 0); [reflexivity|lra]. Qed.
Theorem c117_zero_refuted (s : special) (a x : R) : exists d, dist_new KNormal a 0 = Ok d /\ cdf s d (Fin a) = NaN /\ density s d x = NaN.
Proof.
  exists (Dist KNormal a 0). unfold dist_new. rewrite fin_ge by lra. split; [reflexivity|]. assert (Z : forall y z : R, y = 0 -> z = 0 -> xdiv (Fin y) (Fin z) = NaN) by (intros y z -> ->; cbn [xdiv]; destruct (Req_EM_T 0 0); [|contradiction]; unfold xinf; destruct (Rlt_dec 0 0); [lra|reflexivity]). split.
  - cdf0. cbn [xopp xadd xsub xmul]. rewrite Z by ring. reflexivity.
  - den0. cbn [xopp xadd xsub]. destruct (Rtotal_order x a) as [H|[->|H]].
    + replace (xdiv (Fin (x + - a)) (Fin 0)) with NInf by (cbn [xdiv]; destruct (Req_EM_T 0 0); [|contradiction]; rewrite xinf_neg by lra; reflexivity). replace (xmul (Fin (- (1 / 2))) NInf) with PInf by (cbn [xmul]; unfold xinf; destruct (Rlt_dec 0 (- - (1 / 2))); [reflexivity|lra]). cbn [xmul xexp]. rewrite Z by ring. reflexivity.
    + rewrite (Z (a + - a) 0) by ring. reflexivity.
    + replace (xdiv (Fin (x + - a)) (Fin 0)) with PInf by (cbn [xdiv]; destruct (Req_EM_T 0 0); [|contradiction]; unfold xinf; destruct (Rlt_dec 0 (x + - a)); [reflexivity|lra]). cbn [xmul]. rewrite xinf_neg by lra. cbn [xmul xexp]. rewrite Z by ring. reflexivity.
Qed.
Print Assumptions c117_zero_refuted.
Theorem c117_point_refuted (s : special) (a : R) : exists d, dist_new KUniformCon a a = Ok d /\ cdf s d (Fin a) = NaN /\ density s d a = PInf.
Proof.
  exists (Dist KUniformCon a a). unfold dist_new. rewrite fin_ge by lra. split; [reflexivity|]. split.
  - cdf0. cbn [xopp xadd xsub xmul xdiv]. replace (a + - a) with 0 by ring. destruct (Req_EM_T 0 0); [|contradiction]. unfold xinf. destruct (Rlt_dec 0 0); [lra|reflexivity].
  - den0. cbn [xopp xadd xsub xmul xdiv]. replace (a + - a) with 0 by ring. destruct (Req_EM_T 0 0); [|contradiction]. unfold xinf. destruct (Rlt_dec 0 1); [reflexivity|lra].
Qed.
Print Assumptions c117_point_refuted.

(** ** Functions with the required properties: for the chi-squared distribution with 2, the F distribution with (2, 2) and the t distribution with 2 degrees of freedom, Gamma (1, b) and Beta (1, 1). *)
Definition half_gamma (x : R) : R := if Req_EM_T x (3 / 2) then sqrt PI / 2 else 1.
Definition simple_special : special :=
  Special erfc_int (fun _ => 0) half_gamma (fun x => ln (half_gamma x)) (fun _ _ => 1) (fun a b x => if Req_EM_T b (1 / 2) then 1 - sqrt (1 - x) else x) (fun _ _ _ => 0) (fun _ x => 1 - exp (- x)) (fun _ _ => 0).
Lemma exp_incomplete : incomplete_gamma (fun x => 1 - exp (- x)) 1 1.
Proof.
  destruct (exponential_good simple_special 1 0 Rlt_0_1) as (_ & _ & _ & D & _ & Lo & _ & L0 & L1). assert (E : forall x, 0 < x -> dfun simple_special (Dist KExponential 1 0) x = 1 - exp (- x)).
  { intros x Hx. unfold dfun. cdf0. cbn [xopp xmul xexp xsub xadd num_of]. replace (- (1) * x) with (- x) by ring. reflexivity. }
  split; [rewrite Ropp_0, exp_0; ring|]. split; [|split].
  - apply (filterlim_ext_loc (dfun simple_special (Dist KExponential 1 0))); [|exact L0]. apply (local_right 0 1); [lra|]. intros t Ht. apply E. lra.
  - intros x Hx. replace (1 - 1) with 0 by ring. rewrite Rpower_O by exact Hx. auto_derive; [trivial|field].
  - apply (is_lim_ext_loc (dfun simple_special (Dist KExponential 1 0))); [|exact L1]. exists 0. intros t Ht. apply E. exact Ht.
Qed.
Lemma id_incomplete : incomplete_beta (fun x => x) 1 1 1.
Proof.
  split; [reflexivity|]. split; [reflexivity|]. split; [apply (right_of (fun x => x)); apply continuous_id|]. split; [apply (left_of (fun x => x)); apply continuous_id|]. intros x Hx. replace (1 - 1) with 0 by ring. rewrite !Rpower_O by lra. auto_derive; [trivial|field].
Qed.
Lemma root_incomplete : incomplete_beta (fun x => 1 - sqrt (1 - x)) 1 (1 / 2) 2.
Proof.
  split; [rewrite Rminus_0_r, sqrt_1; ring|]. split; [replace (1 - 1) with 0 by ring; rewrite sqrt_0; ring|]. assert (C0 : forall x : R, continuous (fun x => 1 - sqrt (1 - x)) x).
  { intros x. apply (continuous_minus (fun _ => 1)); [apply continuous_const|]. apply (continuous_comp (fun x => 1 - x) sqrt); [apply (continuous_minus (fun _ => 1)); [apply continuous_const|apply continuous_id]|apply continuous_sqrt]. }
  split; [pose proof (right_of (fun x => 1 - sqrt (1 - x)) 0 (C0 0)) as L; cbv beta in L; replace (1 - sqrt (1 - 0)) with 0 in L by (rewrite Rminus_0_r, sqrt_1; ring); exact L|].
  split; [pose proof (left_of (fun x => 1 - sqrt (1 - x)) 1 (C0 1)) as L; cbv beta in L; replace (1 - sqrt (1 - 1)) with 1 in L by (replace (1 - 1) with 0 by ring; rewrite sqrt_0; ring); exact L|]. intros x Hx. replace (1 - 1) with 0 by ring. rewrite Rpower_O by lra. replace (1 / 2 - 1) with (- / 2) by field. rewrite Rpower_Ropp, Rpower_sqrt by lra.
  assert (S : 0 < sqrt (1 - x)) by (apply sqrt_lt_R0; lra). auto_derive; [lra|]. change (1 + - x) with (1 - x). field. lra.
Qed.
Example c117_case : (forall a b, 0 < b -> library_ok simple_special (Dist KNormal a b) /\ library_ok simple_special (Dist KLogNormal a b)) /\ library_ok simple_special (Dist KChi2 2 0) /\ library_ok simple_special (Dist KGamma 1 3) /\
  library_ok simple_special (Dist KBeta 1 1) /\ library_ok simple_special (Dist KF 2 2) /\ library_ok simple_special (Dist KT 2 0) /\ proper (Dist KT 2 0) /\ proper (Dist KNormal 1 2) /\ cdf simple_special (Dist KT 2 0) (Fin 0) = Fin (1 / 2) /\ cdf simple_special (Dist KNormal 1 2) (Fin 1) = Fin (1 / 2).
Proof.
  assert (H1 : half_gamma 1 = 1) by (unfold half_gamma; destruct (Req_EM_T 1 (3 / 2)); [lra|reflexivity]). assert (H2 : half_gamma 2 = 1) by (unfold half_gamma; destruct (Req_EM_T 2 (3 / 2)); [lra|reflexivity]). assert (H3 : half_gamma (3 / 2) = sqrt PI / 2) by (unfold half_gamma; destruct (Req_EM_T (3 / 2) (3 / 2)); [reflexivity|contradiction]).
  assert (E22 : 2 / 2 = 1) by field. unfold library_ok. cbn [d_kind p1 p2 simple_special s_erfc s_tgamma s_gammap s_ibeta s_beta]. cbv zeta. rewrite !E22. replace ((2 + 1) / 2) with (3 / 2) by field. replace (1 + 1) with 2 by ring. rewrite H1, H2, H3. pose proof sqrtpi_pos as SP.
  split; [intros; split; exact erfc_ok|]. split; [split; [lra|exact exp_incomplete]|]. split; [split; [lra|exact exp_incomplete]|]. split; [|split; [|split; [|split; [|split; [|split]]]]].
  - split; [lra|]. split; [lra|]. split; [lra|]. destruct (Req_EM_T 1 (1 / 2)); [lra|]. replace (1 * 1 / 1) with 1 by field. exact id_incomplete.
  - split; [lra|]. destruct (Req_EM_T 1 (1 / 2)); [lra|]. exact id_incomplete.
  - split; [lra|]. split; [lra|]. destruct (Req_EM_T (1 / 2) (1 / 2)); [|contradiction]. replace (1 * sqrt PI / (sqrt PI / 2)) with 2 by (field; lra). exact root_incomplete.
  - cbn; lra.
  - cbn; lra.
  - rewrite t_cdf by lra. unfold tcdf. destruct (Rle_dec 0 0); [|lra]. unfold G, zt. cbn [s_ibeta simple_special]. destruct (Req_EM_T (1 / 2) (1 / 2)); [|contradiction]. replace (2 / (0 * 0 + 2)) with 1 by field. replace (1 - 1) with 0 by ring. rewrite sqrt_0. f_equal. ring.
  - cdf0. cbn [xopp xadd xsub xmul]. pose proof sqrt2_pos. rewrite fin_div by lra. cbn [xerfc s_erfc simple_special xmul]. replace ((1 + - (1)) / (2 * sqrt 2)) with 0 by (field; lra). unfold erfc_int. replace (J 0) with 0 by (unfold J; rewrite RInt_point; reflexivity). f_equal. field. lra.
Qed.
