From Verif Require Import WeightModel.
From Coq Require Import Lra Lia.
Local Open Scope R_scope.

Lemma log_exp x : log_ (exp x) = Some x.
Proof. unfold log_. destruct (Rlt_dec 0 (exp x)) as [H|H]; [rewrite ln_exp; auto|exfalso; apply H, exp_pos]. Qed.
Lemma pow_pos x y : 0 < x -> pow_ x y = Some (Rpower x y).
Proof. intros H. unfold pow_. destruct (Rlt_dec 0 x); [auto|contradiction]. Qed.
Lemma rpower_pos x y : 0 < Rpower x y. Proof. apply exp_pos. Qed.
Lemma box_cox_pos x l : 0 < x -> box_cox (Some x) (Some l) = Some (if Req_EM_T l 0 then ln x else (Rpower x l - 1) / l).
Proof. intros H. unfold box_cox. destruct (Req_EM_T l 0); [unfold log_; destruct (Rlt_dec 0 x); [auto|contradiction]|]. rewrite pow_pos; auto. Qed.
Lemma bc_inv x l : 0 < x -> box_cox_inv (box_cox (Some x) l) l = Some x.
Proof.
  intros H. destruct l as [l|]; auto. rewrite box_cox_pos by auto. unfold box_cox_inv. destruct (Req_EM_T l 0) as [E|E]; [rewrite exp_ln; auto|].
  replace (l * ((Rpower x l - 1) / l) + 1) with (Rpower x l) by (field; auto). rewrite pow_pos by apply rpower_pos. rewrite Rpower_mult. replace (l * (1 / l)) with 1 by (field; auto). rewrite Rpower_1; auto.
Qed.
Lemma inv_bc z l : l <> 0 -> 0 < l * z + 1 -> box_cox (box_cox_inv (Some z) (Some l)) (Some l) = Some z.
Proof.
  intros E H. unfold box_cox_inv. destruct (Req_EM_T l 0); [contradiction|]. rewrite pow_pos by auto. rewrite box_cox_pos by apply rpower_pos. destruct (Req_EM_T l 0); [contradiction|].
  rewrite Rpower_mult. replace (1 / l * l) with 1 by (field; auto). rewrite Rpower_1 by auto. f_equal. field; auto.
Qed.
Lemma inv_bc0 z : box_cox (box_cox_inv (Some z) (Some 0)) (Some 0) = Some z.
Proof. unfold box_cox_inv, box_cox. destruct (Req_EM_T 0 0); [|contradiction]. apply log_exp. Qed.
Lemma exp_lt_iff a b : exp a < exp b <-> a < b.
Proof. split; [apply exp_lt_inv|apply exp_increasing]. Qed.
Lemma bc_lt x y l : 0 < x -> x < y -> exists a b, box_cox (Some x) (Some l) = Some a /\ box_cox (Some y) (Some l) = Some b /\ a < b.
Proof.
  intros H L. rewrite !box_cox_pos by lra. do 2 eexists. split; [reflexivity|]. split; [reflexivity|]. assert (LN : ln x < ln y) by (apply ln_increasing; auto).
  destruct (Req_EM_T l 0) as [E|E]; auto. unfold Rdiv. destruct (Rdichotomy l 0 E) as [N|P].
  - assert (Rpower y l < Rpower x l) by (unfold Rpower; apply exp_increasing; apply Rmult_lt_gt_compat_neg_l; auto).
    assert (/ l < 0) by (apply Rinv_lt_0_compat; auto). nra.
  - assert (Rpower x l < Rpower y l) by (unfold Rpower; apply exp_increasing; apply Rmult_lt_compat_l; auto).
    assert (0 < / l) by (apply Rinv_0_lt_compat; auto). nra.
Qed.
(** As lambda tends to 0 the transform tends to the logarithm. *)
Lemma bc_limit x : 0 < x -> forall eps, 0 < eps -> exists delta, 0 < delta /\ forall l, Rabs l < delta -> exists a, box_cox (Some x) (Some l) = Some a /\ Rabs (a - ln x) < eps.
Proof.
  intros H eps He.
  assert (D : derivable_pt_lim (fun l => exp (l * ln x)) 0 (ln x)).
  { assert (G : forall c, derivable_pt_lim (fun l => exp (l * c)) 0 (exp (0 * c) * (1 * c + 0 * 0))).
    { intros c. apply (derivable_pt_lim_comp (fun l => l * c) exp); [|apply derivable_pt_lim_exp].
      apply (derivable_pt_lim_mult id (fun _ => c)); [apply derivable_pt_lim_id|apply derivable_pt_lim_const]. }
    specialize (G (ln x)). rewrite Rmult_0_l, exp_0 in G. replace (1 * (1 * ln x + 0 * 0)) with (ln x) in G by ring. exact G. }
  destruct (D eps He) as (delta & HD). exists delta. split; [apply cond_pos|]. intros l Hl. rewrite box_cox_pos by auto. eexists. split; [reflexivity|].
  destruct (Req_EM_T l 0) as [E|E]; [rewrite Rminus_diag_eq, Rabs_R0; auto|]. specialize (HD l E Hl). rewrite Rplus_0_l, Rmult_0_l, exp_0 in HD. exact HD.
Qed.
Lemma each_ok f n d : (n <= length d)%nat -> each f n d = Ok (map f (firstn n d) ++ skipn n d).
Proof. revert d. induction n as [|n IH]; intros d H; [reflexivity|]. destruct d as [|a d]; [cbn in H; lia|]. cbn [each firstn skipn map app]. rewrite IH by (cbn in H; lia). auto. Qed.

Lemma exp_half_lt m m' a c : 0 < c -> (exp (- (1 / 2) * (m - a) / c) < exp (- (1 / 2) * (m' - a) / c) <-> m' < m).
Proof.
  intros C. rewrite exp_lt_iff. unfold Rdiv. assert (0 < / c) by (apply Rinv_0_lt_compat; auto). split; intros L.
  - apply Rmult_lt_reg_r in L; auto. lra.
  - apply Rmult_lt_compat_r; auto. lra.
Qed.
