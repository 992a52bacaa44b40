(** C98, C99, C100: discrete choice models. The arithmetic is real arithmetic: Print Assumptions lists the axioms of Coq's reals. *)
From Verif Require Import DcSpec DcProofs DcProofs2 DcProofs3 DcProofs4 DcNormal.
From Coq Require Import Lia Lra Permutation.
Local Open Scope R_scope.

(** ** C98: binary models *)
(** What is minimized is minus the log-likelihood of the choices. *)
Theorem c98_likelihood cdf pdf k l b : normal_like cdf pdf -> binary_data l ->
  logit_fun k l b = - log_lik (binary_prob logistic k) l b /\ probit_fun cdf k l b = - log_lik (binary_prob cdf k) l b.
Proof. intros N D. split; [apply logit_likelihood, D|eapply probit_likelihood; eassumption]. Qed.
Print Assumptions c98_likelihood.
(** The derivatives given to the optimizer are the derivatives: of the value, and of the gradient. *)
Theorem c98_logit_derivatives k l b : (forall j, (j < k)%nat -> partial (logit_fun k l) b j (logit_grad k l b j)) /\
  (forall i j, (i < k)%nat -> (j < k)%nat -> partial (fun b => logit_grad k l b i) b j (logit_hess k l b i j)).
Proof. split; intros; [apply logit_gradient|apply logit_hessian]; assumption. Qed.
Print Assumptions c98_logit_derivatives.
Theorem c98_probit_derivatives cdf pdf k l b : normal_like cdf pdf -> binary_data l ->
  (forall j, (j < k)%nat -> partial (probit_fun cdf k l) b j (probit_grad cdf pdf k l b j)) /\
  (forall i j, (i < k)%nat -> (j < k)%nat -> partial (fun b => probit_grad cdf pdf k l b i) b j (probit_hess cdf pdf k l b i j)).
Proof. intros N D. split; intros; [eapply probit_gradient|eapply probit_hessian]; eassumption. Qed.
Print Assumptions c98_probit_derivatives.
(** Where the gradient vanishes no other coefficients have a higher likelihood. *)
Theorem c98_maximum cdf pdf k l b b' : normal_like cdf pdf -> binary_data l -> (forall o, In o l -> 0 <= o_w o) ->
  ((forall j, (j < k)%nat -> logit_grad k l b j = 0) -> log_lik (binary_prob logistic k) l b' <= log_lik (binary_prob logistic k) l b) /\
  ((forall j, (j < k)%nat -> probit_grad cdf pdf k l b j = 0) -> log_lik (binary_prob cdf k) l b' <= log_lik (binary_prob cdf k) l b).
Proof.
  intros N D W. split; intros G.
  - assert (C := logit_convex k l b b' W). rewrite !(logit_likelihood k l _ D) in C.
    rewrite sumr_zero in C; [lra|]. intros j Hj. rewrite G by exact Hj. ring.
  - assert (C := probit_convex cdf pdf N k l b b' D W). rewrite !(probit_likelihood cdf pdf N k l _ D) in C.
    rewrite sumr_zero in C; [lra|]. intros j Hj. rewrite G by exact Hj. ring.
Qed.
Print Assumptions c98_maximum.
(** Logit with a constant: at the solution the probabilities of choice 1 add up to its (weighted) number of occurrences. *)
Theorem c98_calibrated k l b j : (j < k)%nat -> (forall o, In o l -> o_x o j = 1) -> logit_grad k l b j = 0 ->
  total (map (fun o => o_w o * logistic (index k o b)) l) = total (map (fun o => o_w o * IZR (o_y o)) l).
Proof.
  intros Hj X G. rewrite logit_grad_total in G.
  rewrite (total_ext _ (fun o => o_w o * IZR (o_y o) + - (o_w o * logistic (xb k o b)))) in G.
  - rewrite total_plus, total_opp in G. change (fun o => o_w o * logistic (index k o b)) with (fun o => o_w o * logistic (xb k o b)). lra.
  - intros o Ho. rewrite X by exact Ho. ring.
Qed.
Print Assumptions c98_calibrated.
(** A weight of m is the same as m copies of the row; the order of the rows does not matter. *)
Theorem c98_weights cdf pdf k l y x m b i j :
  let one := Obs y (INR m) x :: l in let many := repeat (Obs y 1 x) m ++ l in
  logit_fun k one b = logit_fun k many b /\ logit_grad k one b i = logit_grad k many b i /\ logit_hess k one b i j = logit_hess k many b i j /\
  probit_fun cdf k one b = probit_fun cdf k many b /\ probit_grad cdf pdf k one b i = probit_grad cdf pdf k many b i /\
  probit_hess cdf pdf k one b i j = probit_hess cdf pdf k many b i j.
Proof.
  cbv zeta. rewrite !logit_fun_total, !logit_grad_total, !logit_hess_total, !probit_fun_total, !probit_grad_total, !probit_hess_total.
  repeat split; try apply Ropp_eq_compat.
  - apply (copies (fun y x => - ln (1 + exp (sumr k (fun j => x j * b j))) + IZR y * sumr k (fun j => x j * b j))).
  - apply (copies (fun y x => (IZR y - logistic (sumr k (fun j => x j * b j))) * x i)).
  - apply (copies (fun y x => x i * x j * (logistic (sumr k (fun j => x j * b j)) * (1 - logistic (sumr k (fun j => x j * b j)))))).
  - apply (copies (fun y x => probit_term cdf y (sumr k (fun j => x j * b j)))).
  - apply (copies (fun y x => slope cdf pdf y (sumr k (fun j => x j * b j)) * x i)).
  - apply (copies (fun y x => x i * x j * (slope cdf pdf y (sumr k (fun j => x j * b j)) * (slope cdf pdf y (sumr k (fun j => x j * b j)) + sumr k (fun j => x j * b j))))).
Qed.
Print Assumptions c98_weights.
Theorem c98_row_order cdf pdf k l l' b i j : Permutation l l' ->
  logit_fun k l b = logit_fun k l' b /\ logit_grad k l b i = logit_grad k l' b i /\ logit_hess k l b i j = logit_hess k l' b i j /\
  probit_fun cdf k l b = probit_fun cdf k l' b /\ probit_grad cdf pdf k l b i = probit_grad cdf pdf k l' b i /\
  probit_hess cdf pdf k l b i j = probit_hess cdf pdf k l' b i j.
Proof.
  intros P. rewrite !logit_fun_total, !logit_grad_total, !logit_hess_total, !probit_fun_total, !probit_grad_total, !probit_hess_total.
  repeat split; try apply Ropp_eq_compat; apply total_perm, Permutation_map, P.
Qed.
Print Assumptions c98_row_order.
(** Two rows with both choices, separated by the regressor: there is no solution at all, every coefficient can be improved on. *)
Definition separated : list obs := [Obs 1 1 (fun _ => 1); Obs 0 1 (fun _ => -1)].
Theorem c98_no_solution : binary_data separated /\ (forall b, logit_grad 1 separated b 0%nat < 0) /\
  (forall b, exists b', log_lik (binary_prob logistic 1) separated b < log_lik (binary_prob logistic 1) separated b').
Proof.
  assert (D : binary_data separated) by (intros o [<-|[<-|[]]]; cbn; auto).
  split; [exact D|]. split.
  - intros b. rewrite logit_grad_total. cbn [separated map total o_w o_y o_x xb sumr].
    replace (0 + -1 * b 0%nat) with (- (0 + 1 * b 0%nat)) by ring. set (v := 0 + 1 * b 0%nat).
    rewrite <- logistic_1. assert (K := logistic_pos v). lra.
  - intros b. exists (fun _ => b 0%nat + 1). cbn [log_lik separated o_w]. unfold binary_prob, index. cbn [o_y o_x sumr]. cbn [Z.eqb Pos.eqb]. cbv iota.
    replace (0 + -1 * b 0%nat) with (- b 0%nat) by ring. replace (0 + -1 * (b 0%nat + 1)) with (- (b 0%nat + 1)) by ring. rewrite !logistic_1, !Ropp_involutive.
    replace (0 + 1 * b 0%nat) with (b 0%nat) by ring. replace (0 + 1 * (b 0%nat + 1)) with (b 0%nat + 1) by ring.
    assert (K : ln (logistic (b 0%nat)) < ln (logistic (b 0%nat + 1))). { apply ln_increasing; [apply logistic_pos|]. apply logistic_inc. lra. } lra.
Qed.
Print Assumptions c98_no_solution.
(** The hypotheses are met: the normal distribution function exists, and a model with a constant and balanced choices is solved by 0. *)
Definition balanced : list obs := [Obs 1 1 (fun _ => 1); Obs 0 1 (fun _ => 1); Obs 1 2 (fun _ => 1); Obs 0 2 (fun _ => 1)].
Example c98_ex : (exists cdf pdf, normal_like cdf pdf) /\ binary_data balanced /\ (forall o, In o balanced -> 0 <= o_w o) /\
  (forall j, (j < 1)%nat -> logit_grad 1 balanced (fun _ => 0) j = 0) /\ (forall o, In o balanced -> o_x o 0%nat = 1).
Proof.
  split; [apply normal_exists|]. split; [intros o [<-|[<-|[<-|[<-|[]]]]]; cbn; auto|]. split; [intros o [<-|[<-|[<-|[<-|[]]]]]; cbn; lra|]. split.
  - intros j Hj. rewrite logit_grad_total. cbn [balanced map total o_w o_y o_x]. unfold xb. cbn [o_x sumr].
    replace (logistic (0 + 1 * 0)) with (/ 2); [lra|]. unfold logistic. replace (- (0 + 1 * 0)) with 0 by ring. rewrite exp_0. lra.
  - intros o [<-|[<-|[<-|[<-|[]]]]]; reflexivity.
Qed.
Print Assumptions c98_ex.

(** ** C99: ordered models with choices 0, ..., J, J >= 2 *)
Definition ord_logit (k0 : nat) (J : Z) : cells := logit_cell k0 J.
Definition ord_probit (cdf pdf : R -> R) (k0 : nat) (J : Z) : cells := probit_cell cdf pdf k0 J.
Definition parameters (k0 : nat) (J : Z) : nat := (k0 + Z.to_nat J - 1)%nat.
Theorem c99_likelihood cdf pdf k0 J l b : (2 <= J)%Z -> ordered_data J l ->
  ord_fun (ord_logit k0 J) k0 l b = - log_lik (ordered_prob logistic k0 J) l b /\
  ord_fun (ord_probit cdf pdf k0 J) k0 l b = - log_lik (ordered_prob cdf k0 J) l b.
Proof.
  intros HJ D. split.
  - apply (ord_likelihood logistic lg_f lg_ff); try assumption. intros. apply logit_gen; assumption.
  - apply (ord_likelihood cdf pdf (fun z => - pdf z * z)); try assumption. intros. apply probit_gen; assumption.
Qed.
Print Assumptions c99_likelihood.
Theorem c99_logit_derivatives k0 J l b : (2 <= J)%Z -> ordered_data J l -> (forall o, In o l -> 0 < ordered_prob logistic k0 J o b) ->
  (forall p, (p < parameters k0 J)%nat -> partial (ord_fun (ord_logit k0 J) k0 l) b p (ord_grad (ord_logit k0 J) k0 l b p)) /\
  (forall p q, (p < parameters k0 J)%nat -> (q < parameters k0 J)%nat ->
     partial (fun b => ord_grad (ord_logit k0 J) k0 l b p) b q (ord_hess (ord_logit k0 J) k0 l b p q)).
Proof.
  intros HJ D P. split; intros.
  - apply (ord_gradient logistic lg_f lg_ff k0 J); try assumption; [apply lg_derive|intros; apply logit_gen; assumption].
  - apply (ord_hessian logistic lg_f lg_ff k0 J); try assumption; [apply lg_derive|apply lgf_derive|intros; apply logit_gen; assumption].
Qed.
Print Assumptions c99_logit_derivatives.
Theorem c99_probit_derivatives cdf pdf k0 J l b : normal_like cdf pdf -> (2 <= J)%Z -> ordered_data J l -> (forall o, In o l -> 0 < ordered_prob cdf k0 J o b) ->
  (forall p, (p < parameters k0 J)%nat -> partial (ord_fun (ord_probit cdf pdf k0 J) k0 l) b p (ord_grad (ord_probit cdf pdf k0 J) k0 l b p)) /\
  (forall p q, (p < parameters k0 J)%nat -> (q < parameters k0 J)%nat ->
     partial (fun b => ord_grad (ord_probit cdf pdf k0 J) k0 l b p) b q (ord_hess (ord_probit cdf pdf k0 J) k0 l b p q)).
Proof.
  intros N HJ D P.
  assert (Df := pdf_derive' cdf pdf N).
  split; intros.
  - apply (ord_gradient cdf pdf (fun z => - pdf z * z) k0 J); try assumption; [eapply cdf_derive, N|intros; apply probit_gen; assumption].
  - apply (ord_hessian cdf pdf (fun z => - pdf z * z) k0 J); try assumption; [eapply cdf_derive, N|intros; apply probit_gen; assumption].
Qed.
Print Assumptions c99_probit_derivatives.
(** The Hessian is symmetric, and only entries of the parameters matter: the cutoffs of the choices are told apart. *)
Theorem c99_symmetric br k0 l b p q : ord_hess br k0 l b p q = ord_hess br k0 l b q p.
Proof. apply ord_hess_sym. Qed.
Print Assumptions c99_symmetric.
(** The optimizer is not kept from cutoffs that are not in order; the probability of an observed choice, of which the logarithm
    is taken, is then negative. *)
Theorem c99_negative : exists l b, ordered_data 2 l /\ (forall o, In o l -> ordered_prob logistic 0 2 o b < 0) /\
  (forall o, In o l -> c_F (ord_logit 0 2 (ordermu 0 b) (o_y o) (xb 0 o b)) - c_F1 (ord_logit 0 2 (ordermu 0 b) (o_y o) (xb 0 o b)) < 0).
Proof.
  exists [Obs 1 1 (fun _ => 0)], (fun _ => -1).
  assert (D : ordered_data 2 [Obs 1 1 (fun _ => 0)]) by (intros o [<-|[]]; cbn; lia).
  assert (P : ordered_prob logistic 0 2 (Obs 1 1 (fun _ => 0)) (fun _ => -1) < 0).
  { apply (prob_negative logistic); [apply logistic_inc|cbn; lia|cbn; lia|]. cbn. lra. }
  split; [exact D|]. split; intros o [<-|[]]; [exact P|].
  rewrite <- (P_prob logistic lg_f lg_ff 0 2) in P by (cbn; lia). unfold ord_logit. rewrite logit_gen by (cbn; lia). exact P.
Qed.
Print Assumptions c99_negative.
(** The hypotheses are met: three choices, a regressor and cutoffs 0 < 1. *)
Definition three : list obs := [Obs 0 1 (fun _ => 1); Obs 1 1 (fun _ => 2); Obs 2 3 (fun _ => 3)].
Example c99_ex : ordered_data 2 three /\ (forall o, In o three -> 0 < ordered_prob logistic 1 2 o (fun _ => 1)) /\ parameters 1 2 = 2%nat.
Proof.
  assert (D : ordered_data 2 three) by (intros o [<-|[<-|[<-|[]]]]; cbn; lia).
  split; [exact D|]. split; [|reflexivity]. intros o Ho. apply (prob_pos logistic); [apply logistic_pos|apply logistic_inc|lia|apply D, Ho|].
  intros m Hm Hm'. assert (m = 0%Z) as -> by lia. cbn. lra.
Qed.
Print Assumptions c99_ex.

(** ** C100: predicted probabilities *)
(** Binary models: column j holds the probability of choice j, which is what the likelihood uses; the two add up to 1. *)
Theorem c100_binary cdf pdf k o b : normal_like cdf pdf ->
  logit_row (xb k o b) = [binary_prob logistic k (with_y o 0) b; binary_prob logistic k (with_y o 1) b] /\
  probit_row cdf (xb k o b) = [binary_prob cdf k (with_y o 0) b; binary_prob cdf k (with_y o 1) b] /\
  total (logit_row (xb k o b)) = 1 /\ total (probit_row cdf (xb k o b)) = 1 /\
  (forall p, In p (logit_row (xb k o b)) -> 0 < p < 1) /\ (forall p, In p (probit_row cdf (xb k o b)) -> 0 < p < 1).
Proof.
  intros N. unfold logit_row, probit_row. cbv zeta. rewrite logistic_exp. split; [reflexivity|]. split; [reflexivity|].
  split; [cbn; lra|]. split; [cbn; lra|]. assert (K := logistic_pos (xb k o b)). assert (C := cdf_range cdf pdf N (xb k o b)).
  split; intros p [<-|[<-|[]]]; lra.
Qed.
Print Assumptions c100_binary.
(** Ordered models: there are J + 1 columns; column m holds the probability of choice m, as in the likelihood; the row adds up to 1. *)
Theorem c100_ordered cdf k0 J o b : (0 < J)%nat ->
  List.length (ord_row logit_F k0 J o b) = S J /\ List.length (ord_row (probit_F cdf) k0 J o b) = S J /\
  (forall m, (m <= J)%nat -> nth m (ord_row logit_F k0 J o b) 0 = ordered_prob logistic k0 (Z.of_nat J) (with_y o (Z.of_nat m)) b) /\
  (forall m, (m <= J)%nat -> nth m (ord_row (probit_F cdf) k0 J o b) 0 = ordered_prob cdf k0 (Z.of_nat J) (with_y o (Z.of_nat m)) b) /\
  total (ord_row logit_F k0 J o b) = 1 /\ total (ord_row (probit_F cdf) k0 J o b) = 1.
Proof.
  intros HJ. repeat split.
  - apply loop_length, HJ.
  - apply loop_length, HJ.
  - intros m Hm. apply row_prob; [apply logit_F_form|exact HJ|exact Hm].
  - intros m Hm. apply row_prob; [reflexivity|exact HJ|exact Hm].
  - unfold ord_row. rewrite loop_total by exact HJ. lra.
  - unfold ord_row. rewrite loop_total by exact HJ. lra.
Qed.
Print Assumptions c100_ordered.
(** They are probabilities if the cutoffs do not decrease. *)
Theorem c100_range cdf pdf k0 J o b m : normal_like cdf pdf -> (0 < J)%nat -> (m <= J)%nat ->
  (forall i, (0 <= i)%Z -> (i + 1 < Z.of_nat J)%Z -> cutoff k0 b i <= cutoff k0 b (i + 1)) ->
  0 <= nth m (ord_row logit_F k0 J o b) 0 /\ 0 <= nth m (ord_row (probit_F cdf) k0 J o b) 0.
Proof.
  intros N HJ Hm C. destruct (c100_ordered cdf k0 J o b HJ) as [_ [_ [A [B _]]]]. rewrite A, B by exact Hm. split.
  - apply prob_nonneg; [apply logistic_pos|apply logistic_inc|cbn; lia|exact C].
  - apply prob_nonneg; [eapply cdf_range, N|eapply cdf_inc, N|cbn; lia|exact C].
Qed.
Print Assumptions c100_range.
(** Only then: the column of a middle choice is negative exactly if its cutoff is below the one before. *)
Theorem c100_negative cdf pdf k0 J o b m : normal_like cdf pdf -> (1 <= m < J)%nat ->
  (nth m (ord_row logit_F k0 J o b) 0 < 0 <-> cutoff k0 b (Z.of_nat m) < cutoff k0 b (Z.of_nat m - 1)) /\
  (nth m (ord_row (probit_F cdf) k0 J o b) 0 < 0 <-> cutoff k0 b (Z.of_nat m) < cutoff k0 b (Z.of_nat m - 1)).
Proof.
  intros N Hm. destruct (c100_ordered cdf k0 J o b ltac:(lia)) as [_ [_ [A [B _]]]]. rewrite A, B by lia. split.
  - apply (prob_negative logistic); [apply logistic_inc|cbn; lia|cbn; lia].
  - apply (prob_negative cdf); [eapply cdf_inc, N|cbn; lia|cbn; lia].
Qed.
Print Assumptions c100_negative.
Example c100_ex : nth 1 (ord_row logit_F 0 2 (Obs 0 1 (fun _ => 0)) (fun _ => -1)) 0 < 0 /\ 0 <= nth 1 (ord_row logit_F 0 2 (Obs 0 1 (fun _ => 0)) (fun _ => 1)) 0.
Proof.
  destruct normal_exists as [cdf [pdf N]]. split.
  - apply (c100_negative cdf pdf); [exact N|lia|]. cbn. lra.
  - apply (c100_range cdf pdf); [exact N|lia|lia|]. intros i Hi Hi'. assert (i = 0%Z) as -> by lia. cbn. lra.
Qed.
Print Assumptions c100_ex.
