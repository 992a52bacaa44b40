From Verif Require Import DcSpec DcProofs.
From Coquelicot Require Import Coquelicot.
From Coq Require Import Lia Lra FunctionalExtensionality Permutation Bool.
Local Open Scope R_scope.

(** ** The branches of logit and probit models have the same form *)
Definition gen_cell (F f ff : R -> R) (k0 : nat) (J : Z) (mu : vec) (yi : Z) (xib : R) : cell :=
  let cut m := if (m =? 0)%Z then 0 else mu_at mu (m - 1) in
  let hi g t := if (yi <? J)%Z then g (cut yi - xib) else t in
  let lo g := if (0 <? yi)%Z then g (cut (yi - 1)%Z - xib) else 0 in
  Cell (hi F 1) (lo F) (hi f 0) (lo f) (hi ff 0) (lo ff)
    (if ((0 <? yi) && (yi <? J))%Z%bool then Z.of_nat k0 + yi - 1 else -1) (if (1 <? yi)%Z then Z.of_nat k0 + yi - 2 else -1).
Definition lg_f (z : R) : R := logistic z * (1 - logistic z).
Definition lg_ff (z : R) : R := lg_f z * (1 - 2 * logistic z).
Lemma logistic_at m v : 1 / (1 + exp (- m + v)) = logistic (m - v).
Proof. unfold logistic. replace (- (m - v)) with (- m + v) by ring. field. apply Rgt_not_eq, exp_1. Qed.
Lemma logistic_at0 v : 1 / (1 + exp v) = logistic (0 - v).
Proof. rewrite <- logistic_at. rewrite Ropp_0, Rplus_0_l. reflexivity. Qed.
Ltac zb := repeat match goal with
  | |- context[(?a <? ?b)%Z] => destruct (Z.ltb_spec a b); try lia
  | |- context[(?a =? ?b)%Z] => destruct (Z.eqb_spec a b); try lia end.
Lemma logit_gen k0 J mu yi xib : (2 <= J)%Z -> (0 <= yi <= J)%Z -> logit_cell k0 J mu yi xib = gen_cell logistic lg_f lg_ff k0 J mu yi xib.
Proof.
  intros HJ HY. unfold logit_cell, gen_cell. cbv zeta.
  destruct (Z.eqb_spec yi 0) as [->|N0]; [zb; cbn [andb]; rewrite logistic_at0; reflexivity|].
  destruct (Z.eqb_spec yi 1) as [->|N1].
  { zb. cbn [andb]. rewrite logistic_at, logistic_at0. f_equal; lia. }
  destruct (Z.eqb_spec yi J) as [->|NJ]; zb; cbn [andb]; rewrite ?logistic_at; try replace (yi - 1 - 1)%Z with (yi - 2)%Z by lia; try replace (J - 1 - 1)%Z with (J - 2)%Z by lia; reflexivity.
Qed.
Lemma probit_gen cdf pdf k0 J mu yi xib : (2 <= J)%Z -> (0 <= yi <= J)%Z ->
  probit_cell cdf pdf k0 J mu yi xib = gen_cell cdf pdf (fun z => - pdf z * z) k0 J mu yi xib.
Proof.
  intros HJ HY. unfold probit_cell, gen_cell. cbv zeta.
  destruct (Z.eqb_spec yi 0) as [->|N0].
  { zb; cbn [andb]. rewrite Rminus_0_l. f_equal. ring. }
  destruct (Z.eqb_spec yi 1) as [->|N1].
  { zb. cbn [andb]. rewrite Rminus_0_l. f_equal; try lia. ring. }
  destruct (Z.eqb_spec yi J) as [->|NJ]; zb; cbn [andb]; try replace (yi - 1 - 1)%Z with (yi - 2)%Z by lia; try replace (J - 1 - 1)%Z with (J - 2)%Z by lia; reflexivity.
Qed.

Section Ordered.
Context (F f ff : R -> R) (k0 : nat) (J : Z) (br : cells).
Context (DF : forall z, is_derive F z (f z)) (Df : forall z, is_derive f z (ff z)) (HJ : (2 <= J)%Z).
Context (HB : forall mu yi v, (0 <= yi <= J)%Z -> br mu yi v = gen_cell F f ff k0 J mu yi v).
Definition at_o (b : vec) (o : obs) : cell := gen_cell F f ff k0 J (ordermu k0 b) (o_y o) (xb k0 o b).
(** The argument of F at cutoff m, and its derivative with respect to parameter p *)
Definition arg (b : vec) (o : obs) (m : Z) : R := (if (m =? 0)%Z then 0 else mu_at (ordermu k0 b) (m - 1)) - xb k0 o b.
Definition delta (o : obs) (m : Z) (p : nat) : R :=
  if (p <? k0)%nat then - o_x o p else if ((0 <? m) && (Z.of_nat p =? Z.of_nat k0 + m - 1))%Z%bool then 1 else 0.
Lemma arg_set b o m p t : (0 <= m)%Z -> arg (set b p t) o m = arg b o m + delta o m p * (t - b p).
Proof.
  intros Hm. unfold arg, delta. destruct (Nat.ltb_spec p k0) as [L|L].
  - rewrite xb_set by exact L. destruct (Z.eqb_spec m 0); [lra|]. unfold mu_at, ordermu, set at 1.
    destruct (Nat.eqb_spec (k0 + Z.to_nat (m - 1)) p); [lia|lra].
  - rewrite xb_set_out by exact L. destruct (Z.eqb_spec m 0) as [->|N]; [cbn; lra|]. unfold mu_at, ordermu, set.
    destruct (Nat.eqb_spec (k0 + Z.to_nat (m - 1)) p) as [<-|M]; destruct (Z.ltb_spec 0 m); try lia; cbn [andb].
    + destruct (Z.eqb_spec (Z.of_nat (k0 + Z.to_nat (m - 1))) (Z.of_nat k0 + m - 1)); [lra|lia].
    + destruct (Z.eqb_spec (Z.of_nat p) (Z.of_nat k0 + m - 1)); [lia|lra].
Qed.
Lemma arg_set_at b o m p : (0 <= m)%Z -> arg (set b p (b p)) o m = arg b o m.
Proof. intros. rewrite arg_set by assumption. lra. Qed.
Lemma arg_derive b o m p : (0 <= m)%Z -> is_derive (fun t => arg (set b p t) o m) (b p) (delta o m p).
Proof.
  intros H. apply (is_derive_ext (fun t => arg b o m + delta o m p * (t - b p))).
  - intros t. symmetry. apply arg_set. exact H.
  - auto_derive; [trivial|]. lra.
Qed.
Lemma arg_chain b o m p h (d : R) : (0 <= m)%Z -> is_derive h (arg b o m) d -> is_derive (fun t => h (arg (set b p t) o m)) (b p) (d * delta o m p).
Proof.
  intros Hm H. apply (derive_eq _ _ (delta o m p * d)); [ring|].
  apply (is_derive_comp (K := R_AbsRing) (V := R_NormedModule) h (fun t => arg (set b p t) o m)).
  - rewrite arg_set_at by exact Hm. exact H.
  - apply arg_derive. exact Hm.
Qed.
Lemma const_derive (c t : R) : is_derive (fun _ : R => c) t 0. Proof. apply (is_derive_const c t). Qed.
Lemma cF b o : c_F (at_o b o) = if (o_y o <? J)%Z then F (arg b o (o_y o)) else 1. Proof. reflexivity. Qed.
Lemma cF1 b o : c_F1 (at_o b o) = if (0 <? o_y o)%Z then F (arg b o (o_y o - 1)) else 0. Proof. reflexivity. Qed.
Lemma cf b o : c_f (at_o b o) = if (o_y o <? J)%Z then f (arg b o (o_y o)) else 0. Proof. reflexivity. Qed.
Lemma cf1 b o : c_f1 (at_o b o) = if (0 <? o_y o)%Z then f (arg b o (o_y o - 1)) else 0. Proof. reflexivity. Qed.
Lemma cff b o : c_ff (at_o b o) = if (o_y o <? J)%Z then ff (arg b o (o_y o)) else 0. Proof. reflexivity. Qed.
Lemma cff1 b o : c_ff1 (at_o b o) = if (0 <? o_y o)%Z then ff (arg b o (o_y o - 1)) else 0. Proof. reflexivity. Qed.
Lemma F_derive b o p : (0 <= o_y o <= J)%Z -> is_derive (fun t => c_F (at_o (set b p t) o)) (b p) (c_f (at_o b o) * delta o (o_y o) p).
Proof.
  intros Y. rewrite cf. apply (is_derive_ext (fun t => if (o_y o <? J)%Z then F (arg (set b p t) o (o_y o)) else 1)); [intros; reflexivity|].
  destruct (o_y o <? J)%Z.
  - apply arg_chain; [lia|apply DF].
  - rewrite Rmult_0_l. apply const_derive.
Qed.
Lemma f_derive b o p : (0 <= o_y o <= J)%Z -> is_derive (fun t => c_f (at_o (set b p t) o)) (b p) (c_ff (at_o b o) * delta o (o_y o) p).
Proof.
  intros Y. rewrite cff. apply (is_derive_ext (fun t => if (o_y o <? J)%Z then f (arg (set b p t) o (o_y o)) else 0)); [intros; reflexivity|].
  destruct (o_y o <? J)%Z.
  - apply arg_chain; [lia|apply Df].
  - rewrite Rmult_0_l. apply const_derive.
Qed.
Lemma F1_derive b o p : (0 <= o_y o <= J)%Z -> is_derive (fun t => c_F1 (at_o (set b p t) o)) (b p) (c_f1 (at_o b o) * delta o (o_y o - 1) p).
Proof.
  intros Y. rewrite cf1. apply (is_derive_ext (fun t => if (0 <? o_y o)%Z then F (arg (set b p t) o (o_y o - 1)) else 0)); [intros; reflexivity|].
  destruct (Z.ltb_spec 0 (o_y o)).
  - apply arg_chain; [lia|apply DF].
  - rewrite Rmult_0_l. apply const_derive.
Qed.
Lemma f1_derive b o p : (0 <= o_y o <= J)%Z -> is_derive (fun t => c_f1 (at_o (set b p t) o)) (b p) (c_ff1 (at_o b o) * delta o (o_y o - 1) p).
Proof.
  intros Y. rewrite cff1. apply (is_derive_ext (fun t => if (0 <? o_y o)%Z then f (arg (set b p t) o (o_y o - 1)) else 0)); [intros; reflexivity|].
  destruct (Z.ltb_spec 0 (o_y o)).
  - apply arg_chain; [lia|apply Df].
  - rewrite Rmult_0_l. apply const_derive.
Qed.
(** P and the derivative of P *)
Definition Pof (b : vec) (o : obs) : R := c_F (at_o b o) - c_F1 (at_o b o).
Definition dP (b : vec) (o : obs) (p : nat) : R := c_f (at_o b o) * delta o (o_y o) p - c_f1 (at_o b o) * delta o (o_y o - 1) p.
Definition ddP (b : vec) (o : obs) (p q : nat) : R :=
  c_ff (at_o b o) * delta o (o_y o) p * delta o (o_y o) q - c_ff1 (at_o b o) * delta o (o_y o - 1) p * delta o (o_y o - 1) q.
Lemma P_derive b o p : (0 <= o_y o <= J)%Z -> is_derive (fun t => Pof (set b p t) o) (b p) (dP b o p).
Proof. intros Y. apply (is_derive_minus (K := R_AbsRing) (V := R_NormedModule)); [apply F_derive|apply F1_derive]; exact Y. Qed.
Lemma dP_derive b o p q : (0 <= o_y o <= J)%Z -> is_derive (fun t => dP (set b q t) o p) (b q) (ddP b o p q).
Proof.
  intros Y. unfold dP, ddP. apply (is_derive_minus (K := R_AbsRing) (V := R_NormedModule)).
  - apply (derive_eq _ _ (delta o (o_y o) p * (c_ff (at_o b o) * delta o (o_y o) q))); [ring|].
    apply (is_derive_ext (fun t => delta o (o_y o) p * c_f (at_o (set b q t) o))); [intros; apply Rmult_comm|].
    apply derive_scal, f_derive, Y.
  - apply (derive_eq _ _ (delta o (o_y o - 1) p * (c_ff1 (at_o b o) * delta o (o_y o - 1) q))); [ring|].
    apply (is_derive_ext (fun t => delta o (o_y o - 1) p * c_f1 (at_o (set b q t) o))); [intros; apply Rmult_comm|].
    apply derive_scal, f1_derive, Y.
Qed.
Lemma P_prob b o : (0 <= o_y o <= J)%Z -> Pof b o = ordered_prob F k0 J o b.
Proof.
  intros Y. unfold Pof, ordered_prob. rewrite cF, cF1. unfold at_most, arg. zb; try lra.
  all: unfold cutoff; zb; unfold mu_at, ordermu; change (index k0 o b) with (xb k0 o b); try reflexivity; try lra.
Qed.

(** The likelihood *)
Lemma ord_fun_total l b : ordered_data J l -> ord_fun br k0 l b = - total (map (fun o => o_w o * ln (Pof b o)) l).
Proof.
  intros D. unfold ord_fun. cbv zeta.
  rewrite (fold_sum (fun o => o_w o * ln (c_F (br (ordermu k0 b) (o_y o) (xb k0 o b)) - c_F1 (br (ordermu k0 b) (o_y o) (xb k0 o b))))).
  rewrite (total_ext _ (fun o => o_w o * ln (Pof b o))); [lra|]. intros o Ho. rewrite HB by (apply D, Ho). reflexivity.
Qed.
(** The gradient *)
Lemma fold_rows {A} (step : (nat -> A -> R) -> obs -> nat -> A -> R) (h : obs -> nat -> A -> R) l (a : nat -> A -> R) p q :
  (forall s o, In o l -> step s o p q = s p q + h o p q) -> fold_left step l a p q = a p q + total (map (fun o => h o p q) l).
Proof.
  revert a. induction l as [|o l IH]; intros a H; cbn; [lra|]. rewrite IH by (intros; apply H; cbn; auto). rewrite H by (cbn; auto). lra.
Qed.
Lemma fold_vrows (step : vec -> obs -> vec) (h : obs -> vec) l (a : vec) p :
  (forall s o, In o l -> step s o p = s p + h o p) -> fold_left step l a p = a p + total (map (fun o => h o p) l).
Proof.
  revert a. induction l as [|o l IH]; intros a H; cbn; [lra|]. rewrite IH by (intros; apply H; cbn; auto). rewrite H by (cbn; auto). lra.
Qed.
Definition npar : nat := (k0 + Z.to_nat J - 1)%nat.
Lemma r1_of b o : c_r1 (at_o b o) = if ((0 <? o_y o) && (o_y o <? J))%Z%bool then (Z.of_nat k0 + o_y o - 1)%Z else (-1)%Z.
Proof. reflexivity. Qed.
Lemma r2_of b o : c_r2 (at_o b o) = if (1 <? o_y o)%Z then (Z.of_nat k0 + o_y o - 2)%Z else (-1)%Z.
Proof. reflexivity. Qed.
(** How r1 and r2 enter the derivatives of the arguments *)
Lemma d_hi b o p : (0 <= o_y o <= J)%Z -> (k0 <= p < npar)%nat -> delta o (o_y o) p = if (Z.of_nat p =? c_r1 (at_o b o))%Z then 1 else 0.
Proof.
  intros Y HP. unfold npar in HP. rewrite r1_of. unfold delta. destruct (Nat.ltb_spec p k0); [lia|].
  destruct (Z.ltb_spec 0 (o_y o)); destruct (Z.ltb_spec (o_y o) J); cbn [andb]; zb; reflexivity.
Qed.
Lemma d_lo b o p : (0 <= o_y o <= J)%Z -> (k0 <= p < npar)%nat -> delta o (o_y o - 1) p = if (Z.of_nat p =? c_r2 (at_o b o))%Z then 1 else 0.
Proof.
  intros Y HP. unfold npar in HP. rewrite r2_of. unfold delta. destruct (Nat.ltb_spec p k0); [lia|].
  destruct (Z.ltb_spec 1 (o_y o)); destruct (Z.ltb_spec 0 (o_y o - 1)); try lia; cbn [andb]; zb; reflexivity.
Qed.
Lemma d_beta o m p : (p < k0)%nat -> delta o m p = - o_x o p.
Proof. intros H. unfold delta. destruct (Nat.ltb_spec p k0); [reflexivity|lia]. Qed.
Lemma r1_range b o : (c_r1 (at_o b o) = -1 \/ Z.of_nat k0 <= c_r1 (at_o b o))%Z.
Proof. rewrite r1_of. zb; cbn [andb]; lia. Qed.
Lemma r2_range b o : (c_r2 (at_o b o) = -1 \/ Z.of_nat k0 <= c_r2 (at_o b o))%Z.
Proof. rewrite r2_of. zb; lia. Qed.
Lemma r12 b o : (c_r1 (at_o b o) <> -1 -> c_r2 (at_o b o) <> -1 -> c_r2 (at_o b o) = c_r1 (at_o b o) - 1)%Z.
Proof. rewrite r1_of, r2_of. zb; cbn [andb]; lia. Qed.
Lemma ord_grad_total l b p : ordered_data J l -> (p < npar)%nat -> (forall o, In o l -> Pof b o <> 0) ->
  ord_grad br k0 l b p = - total (map (fun o => o_w o * (dP b o p / Pof b o)) l).
Proof.
  intros D HP HN. unfold ord_grad. cbv zeta.
  erewrite (fold_vrows _ (fun o p => - (o_w o * (dP b o p / Pof b o)))).
  - rewrite total_opp. lra.
  - intros s o Ho. assert (Y := D o Ho). assert (N := HN o Ho). rewrite HB by exact Y. fold (at_o b o). fold (Pof b o). unfold vplus.
    destruct (r1_range b o) as [R1|R1]; destruct (r2_range b o) as [R2|R2]; destruct (Nat.ltb_spec p k0) as [L|L].
    all: unfold dP; try (rewrite !(d_beta o _ p L)); try (rewrite (d_hi b o p Y ltac:(lia)), (d_lo b o p Y ltac:(lia))).
    all: zb; try (field; exact N).
Qed.
Theorem ord_gradient l b p : ordered_data J l -> (p < npar)%nat -> (forall o, In o l -> 0 < ordered_prob F k0 J o b) ->
  partial (ord_fun br k0 l) b p (ord_grad br k0 l b p).
Proof.
  intros D HP HN.
  assert (HN' : forall o, In o l -> 0 < Pof b o) by (intros o Ho; rewrite P_prob by (apply D, Ho); apply HN, Ho).
  unfold partial. apply is_derive_Reals.
  apply (is_derive_ext (fun t => - total (map (fun o => o_w o * ln (Pof (set b p t) o)) l))).
  - intros t. symmetry. apply ord_fun_total, D.
  - rewrite ord_grad_total; [|exact D|exact HP|intros o Ho; apply Rgt_not_eq, HN', Ho]. apply derive_opp.
    apply (derive_total (fun o t => o_w o * ln (Pof (set b p t) o))). intros o Ho. apply derive_scal.
    apply (is_derive_comp (K := R_AbsRing) (V := R_NormedModule) ln (fun t => Pof (set b p t) o)); [|apply P_derive, D, Ho].
    rewrite set_same. apply is_derive_Reals. apply derivable_pt_lim_ln. apply HN', Ho.
Qed.
Theorem ord_likelihood l b : ordered_data J l -> ord_fun br k0 l b = - log_lik (ordered_prob F k0 J) l b.
Proof.
  intros D. rewrite ord_fun_total by exact D. rewrite log_lik_total. apply Ropp_eq_compat, total_ext. intros o Ho. rewrite P_prob by (apply D, Ho). reflexivity.
Qed.

(** The Hessian *)
Lemma mplus_col_at s r v xi i j : mplus_col k0 s r v xi i j = if ((i <? k0)%nat && (Z.of_nat j =? r)%Z)%bool then s i j + v * xi i else s i j.
Proof.
  unfold mplus_col.
  assert (G : forall n m s, fold_left (fun s a => mplus s (Z.of_nat a) r (v * xi a)) (seq m n) s i j =
    if ((m <=? i)%nat && (i <? m + n)%nat && (Z.of_nat j =? r)%Z)%bool then s i j + v * xi i else s i j).
  { induction n as [|n IH]; intros m s0; cbn [seq fold_left].
    - destruct (Nat.leb_spec m i); destruct (Nat.ltb_spec i (m + 0)); try lia; reflexivity.
    - rewrite IH. unfold mplus. destruct (Z.eqb_spec (Z.of_nat i) (Z.of_nat m)) as [E|E].
      + assert (i = m) as -> by lia. destruct (Nat.leb_spec (S m) m); [lia|]. destruct (Nat.leb_spec m m); [|lia].
        destruct (Nat.ltb_spec m (m + S n)); [|lia]. cbn [andb]. reflexivity.
      + cbn [andb]. destruct (Nat.leb_spec (S m) i); destruct (Nat.leb_spec m i); try lia; cbn [andb]; try reflexivity.
        destruct (Nat.ltb_spec i (S m + n)); destruct (Nat.ltb_spec i (m + S n)); try lia; reflexivity. }
  rewrite G. cbn. reflexivity.
Qed.
Definition hess_term (b : vec) (o : obs) (p q : nat) : R := - (o_w o * (ddP b o p q / Pof b o - dP b o p * dP b o q / (Pof b o * Pof b o))).
Lemma hess_row_upper b o s p q : (0 <= o_y o <= J)%Z -> (p <= q < npar)%nat -> Pof b o <> 0 ->
  hess_row k0 s o (at_o b o) p q = s p q + hess_term b o p q.
Proof.
  intros Y HQ N. unfold hess_row. cbv zeta. fold (Pof b o). unfold hess_term.
  assert (H1 := r1_range b o). assert (H2 := r2_range b o). assert (H3 := r12 b o).
  destruct (Nat.ltb_spec p k0) as [Lp|Lp]; destruct (Nat.ltb_spec q k0) as [Lq|Lq]; try lia.
  - unfold dP, ddP. rewrite !(d_beta o _ p Lp), !(d_beta o _ q Lq).
    destruct (Nat.ltb_spec q p); [lia|]. cbn [andb negb].
    destruct (Z.eqb_spec (c_r1 (at_o b o)) (-1)) as [E1|E1]; destruct (Z.eqb_spec (c_r2 (at_o b o)) (-1)) as [E2|E2]; cbn [orb];
      unfold mplus; rewrite ?mplus_col_at; destruct (Nat.ltb_spec p k0); try lia; cbn [andb]; zb; cbn [andb]; field; exact N.
  - unfold dP, ddP. rewrite !(d_beta o _ p Lp). rewrite (d_hi b o q Y ltac:(lia)), (d_lo b o q Y ltac:(lia)).
    cbn [andb negb].
    destruct (Z.eqb_spec (c_r1 (at_o b o)) (-1)) as [E1|E1]; destruct (Z.eqb_spec (c_r2 (at_o b o)) (-1)) as [E2|E2]; cbn [orb];
      unfold mplus; rewrite ?mplus_col_at; destruct (Nat.ltb_spec p k0); try lia; cbn [andb]; zb; cbn [andb]; try rewrite mplus_col_at;
      destruct (Nat.ltb_spec p k0); try lia; cbn [andb]; zb; cbn [andb]; try (field; exact N).
  - unfold dP, ddP. rewrite (d_hi b o p Y ltac:(lia)), (d_lo b o p Y ltac:(lia)), (d_hi b o q Y ltac:(lia)), (d_lo b o q Y ltac:(lia)).
    cbn [andb negb].
    destruct (Z.eqb_spec (c_r1 (at_o b o)) (-1)) as [E1|E1]; destruct (Z.eqb_spec (c_r2 (at_o b o)) (-1)) as [E2|E2]; cbn [orb];
      unfold mplus; rewrite ?mplus_col_at; destruct (Nat.ltb_spec p k0); try lia; cbn [andb]; zb; cbn [andb]; try rewrite mplus_col_at;
      destruct (Nat.ltb_spec p k0); try lia; cbn [andb]; zb; cbn [andb]; try (field; exact N).
Qed.
Lemma hess_term_sym b o p q : hess_term b o p q = hess_term b o q p.
Proof. unfold hess_term, ddP. unfold Rdiv. ring. Qed.
Lemma ord_hess_total l b p q : ordered_data J l -> (p < npar)%nat -> (q < npar)%nat -> (forall o, In o l -> Pof b o <> 0) ->
  ord_hess br k0 l b p q = total (map (fun o => hess_term b o p q) l).
Proof.
  intros D HP HQ HN. unfold ord_hess. cbv zeta.
  assert (G : forall p q, (p <= q < npar)%nat ->
    fold_left (fun stro o => hess_row k0 stro o (br (ordermu k0 b) (o_y o) (xb k0 o b))) l (fun _ _ => 0) p q = total (map (fun o => hess_term b o p q) l)).
  { intros p' q' H'. erewrite (fold_rows _ (fun o p q => hess_term b o p q)); [apply Rplus_0_l|].
    intros s o Ho. rewrite HB by (apply D, Ho). apply hess_row_upper; [apply D, Ho|exact H'|apply HN, Ho]. }
  destruct (Nat.ltb_spec q p).
  - rewrite G by lia. apply total_ext. intros. apply hess_term_sym.
  - apply G. lia.
Qed.
(** Near b the probabilities stay positive *)
Lemma grad_term_derive b o p q : (0 <= o_y o <= J)%Z -> Pof b o <> 0 ->
  is_derive (fun t => - (o_w o * (dP (set b q t) o p / Pof (set b q t) o))) (b q) (hess_term b o p q).
Proof.
  intros Y N. unfold hess_term. apply derive_opp, derive_scal.
  apply (derive_eq _ _ ((ddP b o p q * Pof b o - dP b o p * dP b o q) / (Pof b o ^ 2))); [field; exact N|].
  assert (K := is_derive_div (fun t => dP (set b q t) o p) (fun t => Pof (set b q t) o) (b q) (ddP b o p q) (dP b o q)).
  cbv beta in K. rewrite set_same in K. apply K; [apply dP_derive, Y|apply P_derive, Y|exact N].
Qed.
Lemma near_positive b o q : (0 <= o_y o <= J)%Z -> Pof b o <> 0 -> locally (b q) (fun t => Pof (set b q t) o <> 0).
Proof.
  intros Y N. assert (C : continuous (fun t => Pof (set b q t) o) (b q)).
  { apply (ex_derive_continuous (fun t => Pof (set b q t) o)). eexists. apply P_derive, Y. }
  apply (C (fun v => v <> 0)). rewrite set_same. apply (open_neq 0). exact N.
Qed.
Theorem ord_hessian l b p q : ordered_data J l -> (p < npar)%nat -> (q < npar)%nat -> (forall o, In o l -> 0 < ordered_prob F k0 J o b) ->
  partial (fun b => ord_grad br k0 l b p) b q (ord_hess br k0 l b p q).
Proof.
  intros D HP HQ HN.
  assert (HN' : forall o, In o l -> Pof b o <> 0) by (intros o Ho; rewrite P_prob by (apply D, Ho); apply Rgt_not_eq, HN, Ho).
  unfold partial. apply is_derive_Reals. rewrite ord_hess_total by assumption.
  apply (is_derive_ext_loc (fun t => total (map (fun o => - (o_w o * (dP (set b q t) o p / Pof (set b q t) o))) l))).
  - assert (L : locally (b q) (fun t => forall o, In o l -> Pof (set b q t) o <> 0)).
    { clear HN. induction l as [|o l IH]; [apply filter_forall; intros t o []|].
      assert (A := near_positive b o q (D o (or_introl eq_refl)) (HN' o (or_introl eq_refl))).
      assert (B : locally (b q) (fun t => forall o, In o l -> Pof (set b q t) o <> 0)) by (apply IH; intros o' Ho'; [apply D|apply HN']; right; exact Ho').
      generalize (filter_and _ _ A B). apply filter_imp. intros t [A' B'] o' [<-|Ho']; [exact A'|apply B', Ho']. }
    generalize L. apply filter_imp. intros t Ht. rewrite total_opp. symmetry. apply ord_grad_total; assumption.
  - apply (derive_total (fun o t => - (o_w o * (dP (set b q t) o p / Pof (set b q t) o)))). intros o Ho. apply grad_term_derive; [apply D, Ho|apply HN', Ho].
Qed.
Theorem ord_hess_sym l b p q : ord_hess br k0 l b p q = ord_hess br k0 l b q p.
Proof. unfold ord_hess. cbv zeta. destruct (Nat.ltb_spec q p); destruct (Nat.ltb_spec p q); try lia; try reflexivity. assert (p = q) as -> by lia. reflexivity. Qed.
End Ordered.
