From Verif Require Import DcSpec DcProofs.
From Coquelicot Require Import Coquelicot.
From Coq Require Import Lia Lra FunctionalExtensionality Permutation.
Local Open Scope R_scope.

(** ** Probit *)
Section Probit.
Context (cdf pdf : R -> R) (H : normal_like cdf pdf).
Lemma cdf_range z : 0 < cdf z < 1. Proof. apply (proj1 H). Qed.
Lemma cdf_neg z : cdf (- z) = 1 - cdf z. Proof. apply (proj1 (proj2 H)). Qed.
Lemma pdf_neg z : pdf (- z) = pdf z. Proof. apply (proj1 (proj2 (proj2 H))). Qed.
Lemma cdf_derive z : is_derive cdf z (pdf z). Proof. apply is_derive_Reals, (proj1 (proj2 (proj2 (proj2 H)))). Qed.
Lemma pdf_derive z : is_derive pdf z (- z * pdf z). Proof. apply is_derive_Reals, (proj1 (proj2 (proj2 (proj2 (proj2 H))))). Qed.
Lemma cdf_tail eps : 0 < eps -> exists M, forall z, z < M -> cdf z < eps. Proof. apply (proj2 (proj2 (proj2 (proj2 (proj2 H))))). Qed.

(** phi / Phi *)
Definition mills (z : R) : R := pdf z / cdf z.
Lemma mills_derive z : is_derive mills z (- (mills z * (mills z + z))).
Proof.
  unfold mills. assert (K := cdf_range z).
  apply (derive_eq _ _ (((- z * pdf z) * cdf z - pdf z * pdf z) / (cdf z ^ 2))).
  - field. lra.
  - apply (is_derive_div pdf cdf z); [apply pdf_derive|apply cdf_derive|lra].
Qed.
Definition slope (y : Z) (v : R) : R := let qi := 2 * IZR y - 1 in qi * mills (qi * v).
Lemma slope_1 v : slope 1 v = mills v.
Proof. unfold slope. replace (2 * 1 - 1) with 1 by lra. rewrite !Rmult_1_l. reflexivity. Qed.
Lemma slope_0 v : slope 0 v = - mills (- v).
Proof. unfold slope. replace (2 * 0 - 1) with (- (1)) by lra. replace (-(1) * v) with (- v) by lra. lra. Qed.
Definition probit_term (y : Z) (v : R) : R := IZR y * ln (cdf v) + (1 - IZR y) * ln (1 - cdf v).
Lemma term_1 v : probit_term 1 v = ln (cdf v). Proof. unfold probit_term. lra. Qed.
Lemma term_0 v : probit_term 0 v = ln (cdf (- v)). Proof. unfold probit_term. rewrite cdf_neg. lra. Qed.
Lemma ln_cdf_derive v : is_derive (fun v => ln (cdf v)) v (mills v).
Proof.
  unfold mills. apply (derive_eq _ _ (pdf v * / cdf v)); [reflexivity|].
  apply (is_derive_comp (K := R_AbsRing) (V := R_NormedModule) ln cdf); [|apply cdf_derive].
  apply is_derive_Reals. apply derivable_pt_lim_ln. apply cdf_range.
Qed.
Lemma neg_derive (h : R -> R) (d v : R) : is_derive h (- v) d -> is_derive (fun v => h (- v)) v (- d).
Proof.
  intros D. apply (derive_eq _ _ (-1 * d)); [ring|].
  apply (is_derive_comp (K := R_AbsRing) (V := R_NormedModule) h (fun v => - v)); [exact D|]. auto_derive; [trivial|ring].
Qed.
Lemma term_derive y v : y = 0%Z \/ y = 1%Z -> is_derive (probit_term y) v (slope y v).
Proof.
  intros [-> | ->].
  - rewrite slope_0. apply (is_derive_ext (fun v => ln (cdf (- v)))); [intros; symmetry; apply term_0|].
    apply (neg_derive (fun v => ln (cdf v))), ln_cdf_derive.
  - rewrite slope_1. apply (is_derive_ext (fun v => ln (cdf v))); [intros; symmetry; apply term_1|]. apply ln_cdf_derive.
Qed.
Lemma slope_derive y v : y = 0%Z \/ y = 1%Z -> is_derive (slope y) v (- (slope y v * (slope y v + v))).
Proof.
  intros [-> | ->].
  - rewrite slope_0. apply (is_derive_ext (fun v => - mills (- v))); [intros; symmetry; apply slope_0|].
    apply (derive_eq _ _ (- - - (mills (- v) * (mills (- v) + - v)))); [ring|]. apply derive_opp.
    apply (neg_derive mills), mills_derive.
  - rewrite slope_1. apply (is_derive_ext mills); [intros; symmetry; apply slope_1|]. apply mills_derive.
Qed.
Lemma probit_fun_total k l b : probit_fun cdf k l b = - total (map (fun o => o_w o * probit_term (o_y o) (xb k o b)) l).
Proof. unfold probit_fun. cbv zeta. rewrite (fold_sum (fun o => o_w o * probit_term (o_y o) (xb k o b))). lra. Qed.
Lemma probit_grad_total k l b j : probit_grad cdf pdf k l b j = - total (map (fun o => o_w o * (slope (o_y o) (xb k o b) * o_x o j)) l).
Proof.
  unfold probit_grad. cbv zeta.
  rewrite (fold_vsub (fun o j => o_x o j * (o_w o * ((2 * IZR (o_y o) - 1) * pdf ((2 * IZR (o_y o) - 1) * xb k o b) / cdf ((2 * IZR (o_y o) - 1) * xb k o b))))).
  rewrite (total_ext _ (fun o => o_w o * (slope (o_y o) (xb k o b) * o_x o j))); [lra|].
  intros o _. unfold slope, mills. cbv zeta. unfold Rdiv. ring.
Qed.
Lemma probit_hess_total k l b i j : probit_hess cdf pdf k l b i j =
  total (map (fun o => o_w o * (o_x o i * o_x o j * (slope (o_y o) (xb k o b) * (slope (o_y o) (xb k o b) + xb k o b)))) l).
Proof.
  unfold probit_hess. cbv zeta.
  rewrite (fold_msum (fun o i j => (o_w o * (o_x o i * o_x o j)) *
    ((2 * IZR (o_y o) - 1) * pdf ((2 * IZR (o_y o) - 1) * xb k o b) / cdf ((2 * IZR (o_y o) - 1) * xb k o b) *
     ((2 * IZR (o_y o) - 1) * pdf ((2 * IZR (o_y o) - 1) * xb k o b) / cdf ((2 * IZR (o_y o) - 1) * xb k o b) + xb k o b)))).
  rewrite Rplus_0_l. apply total_ext. intros o _. unfold slope, mills. cbv zeta. unfold Rdiv. ring.
Qed.
Theorem probit_gradient k l b j : binary_data l -> (j < k)%nat -> partial (probit_fun cdf k l) b j (probit_grad cdf pdf k l b j).
Proof.
  intros D Hj. unfold partial. apply is_derive_Reals.
  apply (is_derive_ext (fun t => - total (map (fun o => o_w o * probit_term (o_y o) (xb k o (set b j t))) l))).
  - intros t. symmetry. apply probit_fun_total.
  - rewrite probit_grad_total. apply derive_opp.
    apply (derive_total (fun o t => o_w o * probit_term (o_y o) (xb k o (set b j t)))).
    intros o Ho. apply derive_scal. apply (derive_eq _ _ (o_x o j * slope (o_y o) (xb k o b))); [ring|].
    apply (chain k o b j (probit_term (o_y o))); [exact Hj|]. apply term_derive, D, Ho.
Qed.
Theorem probit_hessian k l b i j : binary_data l -> (j < k)%nat ->
  partial (fun b => probit_grad cdf pdf k l b i) b j (probit_hess cdf pdf k l b i j).
Proof.
  intros D Hj. unfold partial. apply is_derive_Reals.
  apply (is_derive_ext (fun t => - total (map (fun o => o_w o * (slope (o_y o) (xb k o (set b j t)) * o_x o i)) l))).
  - intros t. symmetry. apply probit_grad_total.
  - rewrite probit_hess_total. rewrite <- (Ropp_involutive (total _)). rewrite <- total_opp. apply derive_opp.
    apply (derive_total (fun o t => o_w o * (slope (o_y o) (xb k o (set b j t)) * o_x o i))).
    intros o Ho.
    apply (derive_eq _ _ (o_w o * (o_x o j * (o_x o i * - (slope (o_y o) (xb k o b) * (slope (o_y o) (xb k o b) + xb k o b)))))); [ring|].
    apply derive_scal. apply (is_derive_ext (fun t => (fun v => o_x o i * slope (o_y o) v) (xb k o (set b j t)))).
    + intros t. apply Rmult_comm.
    + apply (chain k o b j (fun v => o_x o i * slope (o_y o) v)); [exact Hj|]. apply derive_scal, slope_derive, D, Ho.
Qed.
Theorem probit_likelihood k l b : binary_data l -> probit_fun cdf k l b = - log_lik (binary_prob cdf k) l b.
Proof.
  intros D. rewrite probit_fun_total, log_lik_total. apply Ropp_eq_compat. apply total_ext. intros o Ho. apply Rmult_eq_compat_l.
  unfold binary_prob. change (index k o b) with (xb k o b).
  destruct (D o Ho) as [-> | ->]; [change (0 =? 1)%Z with false|change (1 =? 1)%Z with true]; cbv iota.
  - rewrite term_0, cdf_neg. reflexivity.
  - apply term_1.
Qed.

(** Log-concavity: phi (z) > - z Phi (z) *)
Lemma pdf_sign z : (0 < pdf z \/ pdf z <= 0)%R. Proof. lra. Qed.
Lemma pdf_form z : pdf z = pdf 0 * exp (- (z * z / 2)).
Proof.
  (* the derivative of pdf z * exp (z^2/2) is zero *)
  set (g := fun z => pdf z * exp (z * z / 2)).
  assert (G : forall z, is_derive g z 0).
  { intros t. unfold g. apply (derive_eq _ _ ((- t * pdf t) * exp (t * t / 2) + pdf t * (t * exp (t * t / 2)))); [ring|].
    apply (is_derive_mult (K := R_AbsRing) pdf (fun t => exp (t * t / 2)) t); [apply pdf_derive| |intros; apply Rmult_comm].
    auto_derive; [trivial|unfold Rdiv; field]. }
  destruct (MVT_gen g 0 z (fun _ => 0)) as [c [_ E]].
  - intros t _. apply G.
  - intros t _. apply continuity_pt_filterlim. apply (ex_derive_continuous g). exists 0. apply G.
  - assert (g z = g 0) as E' by lra. unfold g in E'. replace (0 * 0 / 2) with 0 in E' by lra. rewrite exp_0, Rmult_1_r in E'.
    rewrite <- E', exp_Ropp. field. assert (P := exp_pos (z * z / 2)). lra.
Qed.
Lemma pdf_pos z : 0 < pdf z.
Proof.
  rewrite pdf_form. apply Rmult_lt_0_compat; [|apply exp_pos].
  (* otherwise the distribution function would not increase *)
  destruct (Rlt_le_dec 0 (pdf 0)) as [P|P]; [exact P|exfalso].
  assert (Dec : forall z, 0 <= z -> cdf z <= cdf 0 ).
  { intros t Ht. destruct (MVT_gen cdf 0 t pdf) as [c [_ E]].
    - intros u _. apply cdf_derive.
    - intros u _. apply continuity_pt_filterlim. apply (ex_derive_continuous cdf). exists (pdf u). apply cdf_derive.
    - assert (pdf c <= 0) by (rewrite pdf_form; assert (Q := exp_pos (- (c * c / 2))); nra). nra. }
  assert (cdf 0 = / 2) as Z0 by (assert (C := cdf_neg 0); rewrite Ropp_0 in C; lra).
  destruct (cdf_tail (/ 4)) as [M HM]; [lra|]. set (z1 := Rmax 0 (1 - M)).
  assert (A := HM (- z1)). assert (z1 >= 1 - M) by (unfold z1; apply Rle_ge, Rmax_r). assert (0 <= z1) by apply Rmax_l.
  assert (cdf (- z1) < / 4) by (apply A; lra). rewrite cdf_neg in *. assert (B := Dec z1). lra.
Qed.
Lemma tail_bound z : z < 0 -> cdf z < pdf z / - z.
Proof.
  intros Hz.
  assert (Inc : forall u v, u < v -> v < 0 -> pdf u / - u - cdf u < pdf v / - v - cdf v).
  { intros u v Huv Hv. destruct (MVT_gen (fun t => pdf t / - t - cdf t) u v (fun t => pdf t / (t * t))) as [c [C E]].
    - intros t Ht. rewrite Rmin_left, Rmax_right in Ht by lra.
      apply (derive_eq _ _ (((- t * pdf t) * - t - pdf t * -1) / ((- t) ^ 2) - pdf t)); [field; lra|].
      apply (is_derive_minus (K := R_AbsRing) (V := R_NormedModule) (fun t => pdf t / - t) cdf); [|apply cdf_derive].
      apply (is_derive_div pdf (fun t => - t) t); [apply pdf_derive|auto_derive; [trivial|ring]|lra].
    - intros t Ht. rewrite Rmin_left, Rmax_right in Ht by lra. apply continuity_pt_filterlim.
      apply (ex_derive_continuous (fun t => pdf t / - t - cdf t)). eexists.
      apply (is_derive_minus (K := R_AbsRing) (V := R_NormedModule) (fun t => pdf t / - t) cdf); [|apply cdf_derive].
      apply (is_derive_div pdf (fun t => - t) t); [apply pdf_derive|auto_derive; [trivial|reflexivity]|lra].
    - rewrite Rmin_left, Rmax_right in C by lra. assert (0 < pdf c / (c * c)).
      { apply Rdiv_lt_0_compat; [apply pdf_pos|nra]. } assert (0 < v - u) by lra. nra. }
  assert (NN : forall v, v < 0 -> 0 <= pdf v / - v - cdf v).
  { intros v Hv. destruct (Rle_lt_dec 0 (pdf v / - v - cdf v)) as [L|L]; [exact L|exfalso].
    destruct (cdf_tail (- (pdf v / - v - cdf v))) as [M HM]; [lra|].
    set (u := Rmin M v - 1). assert (u < M) by (unfold u; assert (Q := Rmin_l M v); lra).
    assert (u < v) by (unfold u; assert (Q := Rmin_r M v); lra).
    assert (I1 := Inc u v ltac:(lra) Hv). assert (I2 := HM u ltac:(lra)).
    assert (0 < pdf u / - u) by (apply Rdiv_lt_0_compat; [apply pdf_pos|lra]). lra. }
  assert (I1 := Inc (z - 1) z ltac:(lra) Hz). assert (I2 := NN (z - 1) ltac:(lra)). lra.
Qed.
Lemma mills_above z : 0 < mills z + z.
Proof.
  unfold mills. assert (C := cdf_range z). assert (P := pdf_pos z). destruct (Rle_lt_dec 0 z) as [L|L].
  - assert (0 < pdf z / cdf z) by (apply Rdiv_lt_0_compat; lra). lra.
  - assert (T := tail_bound z L). apply (Rmult_lt_compat_l (- z)) in T; [|lra].
    replace (- z * (pdf z / - z)) with (pdf z) in T by (field; lra).
    apply (Rmult_lt_reg_l (cdf z)); [lra|]. rewrite Rmult_0_r. replace (cdf z * (pdf z / cdf z + z)) with (pdf z + cdf z * z) by (field; lra). lra.
Qed.
Lemma mills_pos z : 0 < mills z.
Proof. apply Rdiv_lt_0_compat; [apply pdf_pos|apply cdf_range]. Qed.
Lemma mills_dec u v : u <= v -> mills v <= mills u.
Proof.
  intros L. destruct (MVT_gen mills u v (fun z => - (mills z * (mills z + z)))) as [c [_ E]].
  - intros t _. apply mills_derive.
  - intros t _. apply continuity_pt_filterlim. apply (ex_derive_continuous mills). eexists. apply mills_derive.
  - assert (A := mills_above c). assert (B := mills_pos c). assert (0 < mills c * (mills c + c)) by nra. nra.
Qed.
Lemma slope_dec y u v : y = 0%Z \/ y = 1%Z -> u <= v -> slope y v <= slope y u.
Proof.
  intros [-> | ->] L.
  - rewrite !slope_0. apply Ropp_le_contravar. apply mills_dec. lra.
  - rewrite !slope_1. apply mills_dec, L.
Qed.
Lemma term_tangent y u v : y = 0%Z \/ y = 1%Z -> probit_term y v <= probit_term y u + slope y u * (v - u).
Proof.
  intros Y. destruct (MVT_gen (probit_term y) u v (slope y)) as [c [C E]].
  - intros t _. apply term_derive, Y.
  - intros t _. apply continuity_pt_filterlim. apply (ex_derive_continuous (probit_term y)). exists (slope y t). apply term_derive, Y.
  - assert (probit_term y v = probit_term y u + slope y c * (v - u)) as -> by lra. apply Rplus_le_compat_l. destruct (Rle_dec u v) as [L|L].
    + rewrite Rmin_left, Rmax_right in C by lra. apply Rmult_le_compat_r; [lra|]. apply slope_dec; [exact Y|lra].
    + rewrite Rmin_right, Rmax_left in C by lra. assert (slope y u <= slope y c) by (apply slope_dec; [exact Y|lra]). nra.
Qed.
Theorem probit_convex k l b b' : binary_data l -> (forall o, In o l -> 0 <= o_w o) ->
  probit_fun cdf k l b' >= probit_fun cdf k l b + sumr k (fun j => probit_grad cdf pdf k l b j * (b' j - b j)).
Proof.
  intros D W. rewrite !probit_fun_total.
  rewrite (sumr_ext k _ (fun j => total (map (fun o => - (o_w o * (slope (o_y o) (xb k o b) * o_x o j)) * (b' j - b j)) l))).
  2:{ intros j _. rewrite probit_grad_total, <- total_opp. set (c := b' j - b j). clearbody c.
      clear. induction l as [|o l IH]; cbn; [lra|]. rewrite <- IH. lra. }
  rewrite (sumr_total k (fun j o => - (o_w o * (slope (o_y o) (xb k o b) * o_x o j)) * (b' j - b j))).
  rewrite <- !total_opp, <- total_plus. apply Rle_ge, total_le. intros o Ho.
  rewrite (sumr_ext k _ (fun j => - (o_w o * slope (o_y o) (xb k o b)) * (o_x o j * b' j - o_x o j * b j))) by (intros; ring).
  rewrite sumr_scal, sumr_minus. change (sumr k (fun i => o_x o i * b' i)) with (xb k o b'). change (sumr k (fun i => o_x o i * b i)) with (xb k o b).
  assert (T := term_tangent (o_y o) (xb k o b) (xb k o b') (D o Ho)). assert (K := W o Ho). nra.
Qed.
End Probit.
