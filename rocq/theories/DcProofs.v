From Verif Require Import DcSpec.
From Coquelicot Require Import Coquelicot.
From Coq Require Import Lia Lra FunctionalExtensionality Permutation.
Local Open Scope R_scope.

Lemma sumr_ext n f g : (forall i, (i < n)%nat -> f i = g i) -> sumr n f = sumr n g.
Proof. induction n as [|n IH]; cbn; intros H; [reflexivity|]. rewrite IH by (intros; apply H; lia). rewrite H by lia. reflexivity. Qed.
Lemma sumr_zero n f : (forall i, (i < n)%nat -> f i = 0) -> sumr n f = 0.
Proof. induction n as [|n IH]; cbn; intros H; [reflexivity|]. rewrite IH by (intros; apply H; lia). rewrite H by lia. lra. Qed.
(** Changing one entry of b *)
Lemma sumr_set n x b j t : (j < n)%nat -> sumr n (fun i => x i * set b j t i) = sumr n (fun i => x i * b i) + x j * (t - b j).
Proof.
  induction n as [|n IH]; intros H; [lia|]. cbn. destruct (Nat.eq_dec j n) as [->|N].
  - unfold set at 2. rewrite Nat.eqb_refl. rewrite (sumr_ext n _ (fun i => x i * b i)).
    + lra.
    + intros i Hi. unfold set. destruct (Nat.eqb_spec i n); [lia|reflexivity].
  - rewrite IH by lia. unfold set at 1. destruct (Nat.eqb_spec n j); [lia|lra].
Qed.
Lemma sumr_set_out n x b j t : (n <= j)%nat -> sumr n (fun i => x i * set b j t i) = sumr n (fun i => x i * b i).
Proof. intros H. apply sumr_ext. intros i Hi. unfold set. destruct (Nat.eqb_spec i j); [lia|reflexivity]. Qed.
Lemma xb_set k o b j t : (j < k)%nat -> xb k o (set b j t) = xb k o b + o_x o j * (t - b j).
Proof. intros. apply sumr_set. assumption. Qed.
Lemma xb_set_out k o b j t : (k <= j)%nat -> xb k o (set b j t) = xb k o b.
Proof. intros. apply sumr_set_out. assumption. Qed.
Lemma xb_index k o b : xb k o b = index k o b. Proof. reflexivity. Qed.
Lemma set_same b j : set b j (b j) = b.
Proof. apply functional_extensionality. intros i. unfold set. destruct (Nat.eqb_spec i j); [subst|]; reflexivity. Qed.
Lemma xb_set_at k o b j : xb k o (set b j (b j)) = xb k o b.
Proof. rewrite set_same. reflexivity. Qed.
(** The derivative of x'b *)
Lemma xb_derive k o b j : (j < k)%nat -> is_derive (fun t => xb k o (set b j t)) (b j) (o_x o j).
Proof.
  intros H. apply (is_derive_ext (fun t => xb k o b + o_x o j * (t - b j))).
  - intros t. symmetry. apply xb_set. assumption.
  - auto_derive; [trivial|]. lra.
Qed.

(** Folds as sums *)
Lemma fold_sum (h : obs -> R) l a : fold_left (fun s o => s + h o) l a = a + total (map h l).
Proof. revert a. induction l as [|o l IH]; intros a; cbn; [lra|]. rewrite IH. lra. Qed.
Lemma fold_vsum (h : obs -> vec) l (a : vec) j : fold_left (fun (s : vec) o => fun j => s j + h o j) l a j = a j + total (map (fun o => h o j) l).
Proof. revert a. induction l as [|o l IH]; intros a; cbn; [lra|]. rewrite IH. lra. Qed.
Lemma fold_vsub (h : obs -> vec) l (a : vec) j : fold_left (fun (s : vec) o => fun j => s j - h o j) l a j = a j - total (map (fun o => h o j) l).
Proof. revert a. induction l as [|o l IH]; intros a; cbn; [lra|]. rewrite IH. lra. Qed.
Lemma fold_msum (h : obs -> mtx) l (a : mtx) i j : fold_left (fun (s : mtx) o => fun i j => s i j + h o i j) l a i j = a i j + total (map (fun o => h o i j) l).
Proof. revert a. induction l as [|o l IH]; intros a; cbn; [lra|]. rewrite IH. lra. Qed.
Lemma total_ext {A} (f g : A -> R) l : (forall o, In o l -> f o = g o) -> total (map f l) = total (map g l).
Proof. induction l as [|o l IH]; cbn; intros H; [reflexivity|]. rewrite H by auto. rewrite IH by auto. reflexivity. Qed.
Lemma total_opp {A} (f : A -> R) l : total (map (fun o => - f o) l) = - total (map f l).
Proof. induction l as [|o l IH]; cbn; lra. Qed.
Lemma total_app l m : total (l ++ m) = total l + total m.
Proof. induction l as [|o l IH]; cbn; lra. Qed.
Lemma total_perm l m : Permutation l m -> total l = total m.
Proof. induction 1; cbn; lra. Qed.
Lemma log_lik_total P l b : log_lik P l b = total (map (fun o => o_w o * ln (P o b)) l).
Proof. induction l as [|o l IH]; cbn; lra. Qed.
(** The derivative of a sum *)
Lemma derive_total (f : obs -> R -> R) (d : obs -> R) l t :
  (forall o, In o l -> is_derive (f o) t (d o)) -> is_derive (fun t => total (map (fun o => f o t) l)) t (total (map d l)).
Proof.
  induction l as [|o l IH]; cbn; intros H; [apply @is_derive_const|].
  apply (is_derive_plus (K := R_AbsRing) (V := R_NormedModule)); [apply H; auto|apply IH; intros; apply H; auto].
Qed.

(** ** Logit *)
Lemma exp_1 v : 0 < 1 + exp v.
Proof. assert (K := exp_pos v). lra. Qed.
Lemma logit_fun_total k l b :
  logit_fun k l b = - total (map (fun o => o_w o * (- ln (1 + exp (xb k o b)) + IZR (o_y o) * xb k o b)) l).
Proof. unfold logit_fun. rewrite fold_sum. lra. Qed.
Lemma logit_grad_total k l b j :
  logit_grad k l b j = - total (map (fun o => o_w o * ((IZR (o_y o) - logistic (xb k o b)) * o_x o j)) l).
Proof.
  unfold logit_grad. rewrite (fold_vsub (fun o j => o_x o j * (o_w o * (IZR (o_y o) - 1 / (1 + exp (-1 * xb k o b)))))).
  rewrite (total_ext _ (fun o => o_w o * ((IZR (o_y o) - logistic (xb k o b)) * o_x o j))); [lra|].
  intros o _. unfold logistic. replace (-1 * xb k o b) with (- xb k o b) by lra. field. apply Rgt_not_eq, exp_1.
Qed.
Lemma logistic_exp v : exp v / (1 + exp v) = logistic v.
Proof. unfold logistic. rewrite exp_Ropp. field. assert (K := exp_pos v). split; lra. Qed.
Lemma logistic_1 v : 1 - logistic v = logistic (- v).
Proof. unfold logistic. rewrite Ropp_involutive, exp_Ropp. field. assert (K := exp_pos v). split; lra. Qed.
Lemma logistic_pos v : 0 < logistic v < 1.
Proof.
  split; [apply Rinv_0_lt_compat, exp_1|]. assert (K := exp_pos (- v)).
  unfold logistic. rewrite <- Rinv_1. apply Rinv_lt_contravar; lra.
Qed.
Lemma logit_hess_total k l b i j :
  logit_hess k l b i j = total (map (fun o => o_w o * (o_x o i * o_x o j * (logistic (xb k o b) * (1 - logistic (xb k o b))))) l).
Proof.
  unfold logit_hess. cbv zeta.
  rewrite (fold_msum (fun o i j => (o_w o * (o_x o i * o_x o j)) * (exp (xb k o b) / (1 + exp (xb k o b)) * (1 - exp (xb k o b) / (1 + exp (xb k o b)))))).
  rewrite Rplus_0_l. apply total_ext. intros o _. rewrite logistic_exp. ring.
Qed.
Lemma softplus_derive v : is_derive (fun t => ln (1 + exp t)) v (logistic v).
Proof. rewrite <- logistic_exp. assert (K := exp_1 v). auto_derive; [exact K|]. field. lra. Qed.
Lemma logistic_derive v : is_derive logistic v (logistic v * (1 - logistic v)).
Proof. unfold logistic. assert (K := exp_1 (- v)). auto_derive; [lra|]. field. lra. Qed.
(** The chain rule for a function of x'b *)
Lemma chain k o b j h d : (j < k)%nat -> is_derive h (xb k o b) d -> is_derive (fun t => h (xb k o (set b j t))) (b j) (o_x o j * d).
Proof.
  intros Hj H. apply (is_derive_comp (K := R_AbsRing) (V := R_NormedModule) h (fun t => xb k o (set b j t))).
  - rewrite xb_set_at. exact H.
  - apply xb_derive. exact Hj.
Qed.
Lemma derive_scal c (f : R -> R) (t d : R) : is_derive f t d -> is_derive (fun t => c * f t) t (c * d).
Proof. intros H. apply (is_derive_scal f t c d H). Qed.
Lemma derive_opp (f : R -> R) (t d : R) : is_derive f t d -> is_derive (fun t => - f t) t (- d).
Proof. intros H. apply (is_derive_opp (K := R_AbsRing) (V := R_NormedModule) f t d H). Qed.
Lemma derive_eq (f : R -> R) (t d e : R) : d = e -> is_derive f t d -> is_derive f t e.
Proof. intros ->. auto. Qed.

Lemma minus_form (a y g : R) : a * (y + - g) = (y - g) * a. Proof. ring. Qed.
Lemma logit_term_derive (y v : R) : is_derive (fun t => - ln (1 + exp t) + y * t) v (y - logistic v).
Proof.
  apply (derive_eq _ _ (- logistic v + y * 1)); [ring|].
  apply (is_derive_plus (K := R_AbsRing) (V := R_NormedModule)).
  - apply derive_opp, softplus_derive.
  - apply derive_scal. apply @is_derive_id.
Qed.
Theorem logit_gradient k l b j : (j < k)%nat -> partial (logit_fun k l) b j (logit_grad k l b j).
Proof.
  intros Hj. unfold partial. apply is_derive_Reals.
  apply (is_derive_ext (fun t => - total (map (fun o => o_w o * (- ln (1 + exp (xb k o (set b j t))) + IZR (o_y o) * xb k o (set b j t))) l))).
  - intros t. symmetry. apply logit_fun_total.
  - rewrite logit_grad_total. apply derive_opp.
    apply (derive_total (fun o t => o_w o * (- ln (1 + exp (xb k o (set b j t))) + IZR (o_y o) * xb k o (set b j t)))).
    intros o _. apply derive_scal.
    apply (derive_eq _ _ (o_x o j * (IZR (o_y o) - logistic (xb k o b)))); [ring|].
    apply (chain k o b j (fun v => - ln (1 + exp v) + IZR (o_y o) * v)); [exact Hj|]. apply logit_term_derive.
Qed.
Theorem logit_hessian k l b i j : (j < k)%nat -> partial (fun b => logit_grad k l b i) b j (logit_hess k l b i j).
Proof.
  intros Hj. unfold partial. apply is_derive_Reals.
  apply (is_derive_ext (fun t => - total (map (fun o => o_w o * ((IZR (o_y o) - logistic (xb k o (set b j t))) * o_x o i)) l))).
  - intros t. symmetry. apply logit_grad_total.
  - rewrite logit_hess_total.
    rewrite <- (Ropp_involutive (total _)). rewrite <- total_opp. apply derive_opp.
    apply (derive_total (fun o t => o_w o * ((IZR (o_y o) - logistic (xb k o (set b j t))) * o_x o i))).
    intros o _.
    apply (derive_eq _ _ (o_w o * (o_x o j * (- (logistic (xb k o b) * (1 - logistic (xb k o b))) * o_x o i)))); [ring|].
    apply derive_scal. apply (chain k o b j (fun v => (IZR (o_y o) - logistic v) * o_x o i)); [exact Hj|].
    assert (D := logistic_derive (xb k o b)). set (d := logistic (xb k o b) * (1 - logistic (xb k o b))) in *.
    apply (is_derive_ext (fun v => o_x o i * (IZR (o_y o) + - logistic v))); [intros t; apply minus_form|].
    apply (derive_eq _ _ (o_x o i * (0 + - d))); [ring|].
    apply derive_scal. apply (is_derive_plus (K := R_AbsRing) (V := R_NormedModule)); [apply @is_derive_const|]. apply derive_opp. exact D.
Qed.
Lemma ln_logistic v : ln (logistic v) = v - ln (1 + exp v).
Proof.
  rewrite <- logistic_exp. unfold Rdiv. assert (K := exp_pos v). rewrite ln_mult, ln_exp, ln_Rinv; [lra|lra|lra|].
  apply Rinv_0_lt_compat. lra.
Qed.
Theorem logit_likelihood k l b : binary_data l -> logit_fun k l b = - log_lik (binary_prob logistic k) l b.
Proof.
  intros H. rewrite logit_fun_total, log_lik_total. apply Ropp_eq_compat. apply total_ext. intros o Ho. apply Rmult_eq_compat_l.
  unfold binary_prob. change (index k o b) with (xb k o b). destruct (H o Ho) as [-> | ->]; [change (0 =? 1)%Z with false|change (1 =? 1)%Z with true]; cbv iota.
  - rewrite logistic_1, ln_logistic. rewrite exp_Ropp. assert (K := exp_pos (xb k o b)).
    replace (1 + / exp (xb k o b)) with ((1 + exp (xb k o b)) * / exp (xb k o b)) by (field; lra).
    rewrite ln_mult, ln_Rinv, ln_exp; [lra|lra|lra|apply Rinv_0_lt_compat; lra].
  - rewrite ln_logistic. lra.
Qed.

(** The tangent of ln (1 + e^v) lies below it *)
Lemma logistic_mono u v : u <= v -> logistic u <= logistic v.
Proof.
  intros H. unfold logistic. apply Rinv_le_contravar; [apply exp_1|].
  apply Rplus_le_compat_l. destruct (Req_dec u v) as [->|N]; [lra|]. left. apply exp_increasing. lra.
Qed.
Lemma softplus_tangent u v : ln (1 + exp v) >= ln (1 + exp u) + logistic u * (v - u).
Proof.
  destruct (MVT_gen (fun t => ln (1 + exp t)) u v logistic) as [c [C E]].
  - intros t _. apply softplus_derive.
  - intros t _. apply continuity_pt_filterlim. apply (ex_derive_continuous (fun t => ln (1 + exp t))). exists (logistic t). apply softplus_derive.
  - assert (ln (1 + exp v) = ln (1 + exp u) + logistic c * (v - u)) as -> by lra.
    apply Rle_ge, Rplus_le_compat_l. destruct (Rle_dec u v) as [L|L].
    + rewrite Rmin_left, Rmax_right in C by lra. apply Rmult_le_compat_r; [lra|]. apply logistic_mono. lra.
    + rewrite Rmin_right, Rmax_left in C by lra. assert (logistic c <= logistic u) by (apply logistic_mono; lra). nra.
Qed.
Lemma sumr_plus n f g : sumr n (fun i => f i + g i) = sumr n f + sumr n g.
Proof. induction n; cbn; lra. Qed.
Lemma sumr_scal n c f : sumr n (fun i => c * f i) = c * sumr n f.
Proof. induction n; cbn; lra. Qed.
Lemma sumr_minus n f g : sumr n (fun i => f i - g i) = sumr n f - sumr n g.
Proof. induction n; cbn; lra. Qed.
Lemma sumr_total {A} n (f : nat -> A -> R) l : sumr n (fun i => total (map (f i) l)) = total (map (fun o => sumr n (fun i => f i o)) l).
Proof.
  induction l as [|o l IH]; cbn; [apply sumr_zero; reflexivity|]. rewrite sumr_plus, IH. reflexivity.
Qed.
Lemma total_le {A} (f g : A -> R) l : (forall o, In o l -> f o <= g o) -> total (map f l) <= total (map g l).
Proof. induction l as [|o l IH]; cbn; intros H; [lra|]. assert (f o <= g o) by auto. assert (total (map f l) <= total (map g l)) by auto. lra. Qed.
Lemma total_plus {A} (f g : A -> R) l : total (map (fun o => f o + g o) l) = total (map f l) + total (map g l).
Proof. induction l as [|o l IH]; cbn; lra. Qed.
(** Convexity: the value lies above the tangent plane *)
Theorem logit_convex k l b b' : (forall o, In o l -> 0 <= o_w o) ->
  logit_fun k l b' >= logit_fun k l b + sumr k (fun j => logit_grad k l b j * (b' j - b j)).
Proof.
  intros W. rewrite !logit_fun_total.
  rewrite (sumr_ext k _ (fun j => total (map (fun o => - (o_w o * ((IZR (o_y o) - logistic (xb k o b)) * o_x o j)) * (b' j - b j)) l))).
  2:{ intros j _. rewrite logit_grad_total, <- total_opp. set (c := b' j - b j). clearbody c.
      clear. induction l as [|o l IH]; cbn; [lra|]. rewrite <- IH. lra. }
  rewrite (sumr_total k (fun j o => - (o_w o * ((IZR (o_y o) - logistic (xb k o b)) * o_x o j)) * (b' j - b j))).
  rewrite <- !total_opp, <- total_plus. apply Rle_ge, total_le. intros o Ho.
  rewrite (sumr_ext k _ (fun j => - (o_w o * (IZR (o_y o) - logistic (xb k o b))) * (o_x o j * b' j - o_x o j * b j))) by (intros; ring).
  rewrite sumr_scal, sumr_minus. change (sumr k (fun i => o_x o i * b' i)) with (xb k o b'). change (sumr k (fun i => o_x o i * b i)) with (xb k o b).
  assert (T := softplus_tangent (xb k o b) (xb k o b')). assert (K := W o Ho). nra.
Qed.
