(** C95: the log-likelihood and the information criteria of systems of equations. *)
From Verif Require Import SurLikSpec MatProofs MatDotProofs LsProofs SurProofs SurProofs2 SurProofs3 SurProofs7 SurFitProofs CorRealProofs CorRealProofs2 SurLikProofs Prop_Sur.
From Coq Require Import Lia ZifyBool Lra.
Local Open Scope R_scope.

(** Whatever the kind of estimation, the reported log-likelihood is the logarithm of the joint density of the reported residuals,
    as independent normal vectors with the reported covariances. *)
Theorem c95_likelihood lapack pt det_pd d y x storage work R maxp u c W : sur_call lapack d y x storage work -> has_restrictions d R ->
  sur_calculate lapack pt det_pd d y x storage work R maxp = Ok u -> criteria_of y x u = Some c -> inverse_of (ncols y) (el (s_rvar (u_est u))) W ->
  i_ll c = log_likelihood (nrows y) (ncols y) W (u_det u) (el (s_resid (u_est u))).
Proof.
  intros Call Hr E Ec Iv. destruct (any_fitted lapack pt det_pd d y x storage work R maxp u Call Hr E) as (P1 & P2 & P3 & _ & _ & (_ & _ & _ & He) & (_ & _ & _ & Hv)).
  unfold criteria_of in Ec. destruct (log_lik (nrows y) (ncols y) (u_det u)) as [ll|] eqn:L; [|discriminate]. injection Ec as <-. cbn [i_ll]. unfold log_lik in L. destruct (qltb 0 (u_det u)); [|discriminate]. injection L as <-.
  set (e := residual (ncols x) (el y) (el x) (el (s_beta (u_est u)))) in *.
  assert (I2 : inverse_of (ncols y) (fun i j => cross (nrows y) (el (s_resid (u_est u))) i j / qz (nrows y))%Qc W).
  { intros i j Hi Hj. destruct (Iv i j Hi Hj) as (A & B).
    assert (X : forall a b, (0 <= a < ncols y)%Z -> (0 <= b < ncols y)%Z -> (cross (nrows y) (el (s_resid (u_est u))) a b / qz (nrows y))%Qc = el (s_rvar (u_est u)) a b).
    { intros a b Ha Hb. rewrite Hv by auto. unfold res_cov. f_equal. apply st_ext. intros t Ht. rewrite !He by auto. reflexivity. }
    split; [rewrite <- A|rewrite <- B]; apply product_ext'; intros l Hl; (split; [|try reflexivity]); try reflexivity; apply X; auto. }
  rewrite lik_form by (unfold nrows; lia). assert (A1 : (0 < nrows y)%Z) by (unfold nrows; lia). assert (A2 : (0 <= ncols y)%Z) by (unfold ncols; lia). rewrite (ssr_trace _ _ _ _ A1 A2 I2). rewrite real_mult, !real_z. field.
Qed.
Print Assumptions c95_likelihood.
(** Without restrictions the coefficients have the largest likelihood, for any covariances of the disturbances (with inverse W). *)
Theorem c95_coefficients lapack pt det_pd d y x storage work R maxp u W det c : sur_call lapack d y x storage work -> sd_restricted d = false ->
  sur_calculate lapack pt det_pd d y x storage work R maxp = Ok u -> StatSpec.symmetric (ncols y) W -> psd (ncols y) W ->
  log_likelihood (nrows y) (ncols y) W det (residual (ncols x) (el y) (el x) c) <= log_likelihood (nrows y) (ncols y) W det (residual (ncols x) (el y) (el x) (el (s_beta (u_est u)))).
Proof.
  intros Call Rs E Sy Ps. destruct (un_ok lapack pt det_pd d y x storage work R maxp Call u E Rs) as (Ck & gi & n1 & n2 & sa & U & _). assert (Nm := un_normal y x gi n1 n2 true sa _ U).
  assert (Pk : (0 < ncols x)%Z) by (unfold ncols; destruct Ck; lia). rewrite !lik_form by (unfold nrows; lia).
  assert (Pm : (0 <= ncols y)%Z) by (unfold ncols; lia). assert (L := ols_any_weights (nrows y) (ncols y) (ncols x) W (el y) (el x) _ c Pk Pm Sy Ps Nm). apply real_le in L. lra.
Qed.
Print Assumptions c95_coefficients.
(** One equation: the reported log-likelihood is the largest over all coefficients and all variances. (Several equations need the
    concavity of the determinant's logarithm, which is not proved here.) *)
Theorem c95_maximum_partial lapack pt det_pd d y x storage work R maxp u cr c v : sur_call lapack d y x storage work -> sd_restricted d = false -> ncols y = 1%Z ->
  sur_calculate lapack pt det_pd d y x storage work R maxp = Ok u -> criteria_of y x u = Some cr -> (0 < v)%Qc ->
  log_likelihood (nrows y) 1 (fun _ _ => 1 / v)%Qc v (residual (ncols x) (el y) (el x) c) <= i_ll cr.
Proof.
  intros Call Rs M1 E Ec Pv. assert (Hr : has_restrictions d R) by (intros K; congruence).
  destruct (un_ok lapack pt det_pd d y x storage work R maxp Call u E Rs) as (Ck & gi & n1 & n2 & sa & U & _). assert (Nm := un_normal y x gi n1 n2 true sa _ U).
  destruct (c90_details lapack pt det_pd d y x storage work R maxp u Call Rs E) as ((Wd & _ & D) & _).
  destruct (any_fitted lapack pt det_pd d y x storage work R maxp u Call Hr E) as (P1 & P2 & P3 & _ & _ & _ & (V1 & V2 & _ & Hv)).
  assert (Mc : ncols (s_rvar (u_est u)) = 1%Z) by (unfold ncols in *; rewrite V2; auto). rewrite Mc, Z.eqb_refl in D.
  assert (Em : Z.of_nat (cols y) = 1%Z) by exact M1. rewrite Hv in D by lia. unfold res_cov in D. change (Z.of_nat (rows y)) with (nrows y) in D. change (Z.of_nat (cols x)) with (ncols x) in D.
  unfold criteria_of in Ec. destruct (log_lik (nrows y) (ncols y) (u_det u)) as [ll|] eqn:L; [|discriminate]. injection Ec as <-. cbn [i_ll]. unfold log_lik in L. destruct (qltb_spec 0 (u_det u)) as [Pd|]; [|discriminate]. injection L as <-. rewrite M1.
  rewrite lik_form by (unfold nrows; lia).
  assert (PN : (0 < qz (nrows y))%Qc) by (apply (qz_lt 0); unfold nrows; lia). assert (Vn : v <> 0%Qc) by (apply Qc_lt_ne; auto). assert (Nn : qz (nrows y) <> 0%Qc) by (apply Qc_lt_ne; auto).
  assert (X1 : forall f, sys_ssr (nrows y) 1 (fun _ _ => 1 / v)%Qc f = (cross (nrows y) f 0 0 / v)%Qc).
  { intros f. unfold sys_ssr, sum_to at 1 2. change (upto 1) with [0%Z]. cbn [map]. unfold qsum. cbn [fold_right]. field. auto. }
  rewrite X1. assert (Sm : (cross (nrows y) (residual (ncols x) (el y) (el x) (el (s_beta (u_est u)))) 0 0 <= cross (nrows y) (residual (ncols x) (el y) (el x) c) 0 0)%Qc).
  { apply (ssr_min (nrows y) (ncols x)). intros i Hi. apply Nm; [exact Hi|lia]. }
  apply real_le in Sm. rewrite real_div by auto.
  assert (Rn : 0 < IZR (nrows y)) by (apply IZR_lt; unfold nrows; lia).
  assert (Dr : real (u_det u) = real (cross (nrows y) (residual (ncols x) (el y) (el x) (el (s_beta (u_est u)))) 0 0) / IZR (nrows y)) by (rewrite D, real_div, real_z by auto; reflexivity).
  assert (B := lik_best (IZR (nrows y)) (real v) (real (u_det u)) _ _ Rn (real_pos _ Pv) (real_pos _ Pd) Dr Sm).
  assert (Q : real (cross (nrows y) (residual (ncols x) (el y) (el x) (el (s_beta (u_est u)))) 0 0) / real (u_det u) = IZR (nrows y)).
  { rewrite Dr. field. assert (Pd' := real_pos _ Pd). rewrite Dr in Pd'. split; [lra|]. intros K. rewrite K in Pd'. lra. }
  rewrite Q in B. nra.
Qed.
Print Assumptions c95_maximum_partial.
(** For the same numbers of observations, equations and variables, all criteria prefer the smaller determinant of the covariances of the residuals,
    and they are larger by the penalty for every coefficient that is added. *)
Theorem c95_order y1 x1 u1 c1 y2 x2 u2 c2 : nrows y1 = nrows y2 -> ncols y1 = ncols y2 -> ncols x1 = ncols x2 -> (0 < nrows y1)%Z ->
  criteria_of y1 x1 u1 = Some c1 -> criteria_of y2 x2 u2 = Some c2 ->
  ((u_det u1 < u_det u2)%Qc <-> i_ll c2 < i_ll c1) /\ ((u_det u1 < u_det u2)%Qc <-> i_aic c1 < i_aic c2) /\ ((u_det u1 < u_det u2)%Qc <-> i_sic c1 < i_sic c2) /\ ((u_det u1 < u_det u2)%Qc <-> i_hqic c1 < i_hqic c2).
Proof.
  intros En Em Ek Pn. unfold criteria_of. rewrite En, Em, Ek. rewrite En in Pn. clear En Em Ek. unfold log_lik. destruct (qltb_spec 0 (u_det u1)) as [D1|]; [|discriminate]. destruct (qltb_spec 0 (u_det u2)) as [D2|]; [|discriminate].
  intros [= <-] [= <-]. cbn [i_ll i_aic i_sic i_hqic]. unfold aic, sic, hqic. assert (P1 := real_pos _ D1). assert (P2 := real_pos _ D2). apply IZR_lt in Pn.
  assert (O : (u_det u1 < u_det u2)%Qc <-> ln (real (u_det u1)) < ln (real (u_det u2))).
  { rewrite real_lt. split; [apply ln_increasing; auto|apply ln_lt_inv; auto]. }
  assert (K : (u_det u1 < u_det u2)%Qc <-> 0 < IZR (nrows y2) * (ln (real (u_det u2)) - ln (real (u_det u1)))).
  { rewrite O. split; intros H; [apply Rmult_lt_0_compat; lra|]. apply (Rmult_lt_reg_l (IZR (nrows y2))); lra. }
  rewrite K. repeat split; intros; lra.
Qed.
Print Assumptions c95_order.
(** The criteria are the textbook ones, for the number of all coefficients: 2 k - 2 ln L, k ln N - 2 ln L and 2 k ln (ln N) - 2 ln L. *)
Theorem c95_formulas y x u c : criteria_of y x u = Some c -> let k := IZR (ncols x * ncols y) in let N := IZR (nrows y) in
  i_aic c = 2 * k - 2 * i_ll c /\ i_sic c = k * ln N - 2 * i_ll c /\ i_hqic c = 2 * k * ln (ln N) - 2 * i_ll c.
Proof.
  unfold criteria_of. cbv zeta. destruct (log_lik _ _ _) as [ll|]; [|discriminate]. intros [= <-]. cbn [i_ll i_aic i_sic i_hqic].
  unfold aic, sic, hqic. repeat split; ring.
Qed.
Print Assumptions c95_formulas.
(** The penalty counts all coefficients, also if restrictions leave fewer free ones: with one free coefficient (of two) the
    criterion is 2 larger than 2 q - 2 log L. *)
Theorem c95_restricted_refuted : exists storage work u c, sur_call lapack12 (declare 3 1 2 true false 0) y1 x1 storage work /\
  sur_calculate lapack12 pt1 det2 (declare 3 1 2 true false 0) y1 x1 storage work (Some r1) 0 = Ok u /\ ncols r1 = 1%Z /\ mlength (s_gamma (u_est u)) = 1%Z /\
  criteria_of y1 x1 u = Some c /\ i_aic c = 2 * IZR 1 - 2 * i_ll c + 2.
Proof.
  exists (repeat 0%Qc 30), (repeat 0%Qc 60). eexists. eexists. split; [constructor; [apply lapack12_sound|apply lapack12_length|vm_compute; lia|vm_compute; lia|reflexivity|vm_compute; discriminate|vm_compute; discriminate]|].
  split; [vm_compute; reflexivity|]. split; [reflexivity|]. split; [reflexivity|]. split.
  - unfold criteria_of, log_lik. cbn [u_det]. match goal with |- context[qltb ?a ?b] => assert (T : qltb a b = true) by (vm_compute; reflexivity) end. rewrite T. reflexivity.
  - cbn [i_aic i_ll]. unfold aic. change (ncols x1 * ncols y1)%Z with 2%Z. lra.
Qed.
Print Assumptions c95_restricted_refuted.
(** The hypotheses are met, with two equations. *)
Example c95_ex : exists u c W, sur_call lapack12 (declare 4 2 2 false true 0) y42 x42 (repeat 0%Qc 60) (repeat 0%Qc 40) /\
  sur_calculate lapack12 pt1 det2 (declare 4 2 2 false true 0) y42 x42 (repeat 0%Qc 60) (repeat 0%Qc 40) None 0 = Ok u /\ criteria_of y42 x42 u = Some c /\ inverse_of 2 (el (s_rvar (u_est u))) W.
Proof.
  eexists. eexists. exists (el (Mat 2 2 (fst (lapack12 (Mat 2 2 [q 1 4; q 0 1; q 0 1; q 1 20]))))).
  split; [constructor; [apply lapack12_sound|apply lapack12_length|vm_compute; lia|vm_compute; lia|reflexivity|vm_compute; discriminate|vm_compute; discriminate]|].
  split; [vm_compute; reflexivity|]. split.
  - unfold criteria_of, log_lik. cbn [u_det]. match goal with |- context[qltb ?a ?b] => assert (T : qltb a b = true) by (vm_compute; reflexivity) end. rewrite T. reflexivity.
  - intros i j Hi Hj. assert (Ei : (i = 0 \/ i = 1)%Z) by lia. assert (Ej : (j = 0 \/ j = 1)%Z) by lia. destruct Ei as [-> | ->]; destruct Ej as [-> | ->]; split; qeq.
Qed.
