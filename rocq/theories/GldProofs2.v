(** Proofs about the moments of the generalized lambda distribution. *)
From Coq Require Import Reals Lra Lia.
From Coquelicot Require Import Coquelicot.
From Verif Require Import UdModel GldModel GldSpec GldProofs.
Import Lra.
Local Open Scope R_scope.

(** ** Integrals from 0 to 1 *)
Lemma near01 (P : R * R -> Prop) : (forall a b, 0 < a < 1 -> 0 < b < 1 -> P (a, b)) -> filter_prod (at_right 0) (at_left 1) P.
Proof.
  intros H. apply (Filter_prod _ _ _ (fun a => 0 < a < 1) (fun b => 0 < b < 1)).
  - exists (mkposreal 1 Rlt_0_1). intros y B Hy. apply Rabs_def2 in B. unfold minus, plus, opp in B; cbn in B. lra.
  - exists (mkposreal 1 Rlt_0_1). intros y B Hy. apply Rabs_def2 in B. unfold minus, plus, opp in B; cbn in B. lra.
  - exact H.
Qed.
Lemma between01 a b x : 0 < a < 1 -> 0 < b < 1 -> Rmin a b <= x <= Rmax a b -> 0 < x < 1.
Proof. intros Ha Hb H. pose proof (Rmin_glb_lt a b 0 ltac:(lra) ltac:(lra)). pose proof (Rmax_lub_lt a b 1 ltac:(lra) ltac:(lra)). lra. Qed.
Lemma int_ext f g v : (forall p, 0 < p < 1 -> f p = g p) -> integral01 f v -> integral01 g v.
Proof.
  intros E. apply is_RInt_gen_ext. apply near01. intros a b Ha Hb x Hx. apply E. cbn [fst snd] in Hx. apply (between01 a b); auto; lra.
Qed.
Lemma int_plus f g u v : integral01 f u -> integral01 g v -> integral01 (fun p => f p + g p) (u + v).
Proof. intros Hf Hg. exact (is_RInt_gen_plus _ _ _ _ Hf Hg). Qed.
Lemma int_minus f g u v : integral01 f u -> integral01 g v -> integral01 (fun p => f p - g p) (u - v).
Proof. intros Hf Hg. exact (is_RInt_gen_minus _ _ _ _ Hf Hg). Qed.
Lemma int_scal c f u : integral01 f u -> integral01 (fun p => c * f p) (c * u).
Proof. intros Hf. exact (is_RInt_gen_scal _ c _ Hf). Qed.
Lemma ftc (F f : R -> R) (la lb : R) : (forall x, 0 < x < 1 -> is_derive F x (f x)) -> (forall x, 0 < x < 1 -> continuous f x) ->
  filterlim F (at_right 0) (locally la) -> filterlim F (at_left 1) (locally lb) -> integral01 f (lb - la).
Proof.
  intros D C L0 L1. apply (int_ext (Derive F)). { intros p Hp. apply is_derive_unique. apply D. exact Hp. }
  apply (is_RInt_gen_Derive F la lb); auto.
  - apply near01. intros a b Ha Hb x Hx. cbn [fst snd] in Hx. exists (f x). apply D. apply (between01 a b); auto.
  - apply near01. intros a b Ha Hb x Hx. cbn [fst snd] in Hx. pose proof (between01 a b x Ha Hb Hx) as H01.
    apply (continuous_ext_loc _ f); [|apply C; exact H01].
    assert (HE : 0 < Rmin x (1 - x)) by (apply Rmin_glb_lt; lra). exists (mkposreal _ HE). intros y B. apply Rabs_def2 in B. unfold minus, plus, opp in B; cbn in B.
    pose proof (Rmin_l x (1 - x)). pose proof (Rmin_r x (1 - x)). symmetry. apply is_derive_unique. apply D. lra.
Qed.
Lemma cont_right (F : R -> R) (x l : R) : continuous F x -> F x = l -> filterlim F (at_right x) (locally l).
Proof. intros C <-. eapply filterlim_filter_le_1; [|exact C]. apply filter_le_within. Qed.
Lemma cont_left (F : R -> R) (x l : R) : continuous F x -> F x = l -> filterlim F (at_left x) (locally l).
Proof. intros C <-. eapply filterlim_filter_le_1; [|exact C]. apply filter_le_within. Qed.
Lemma small_power c eps p : 0 < c -> 0 < eps -> 0 < p -> p < Rpower eps (/ c) -> 0 < Rpower p c < eps.
Proof.
  intros Hc He Hp H. split; [apply Rpower_pos|]. replace eps with (Rpower (Rpower eps (/ c)) c) by (rewrite Rpower_mult, Rinv_l, Rpower_1; lra). apply Rlt_Rpower_l; lra.
Qed.
Lemma power_right (c : R) : 0 < c -> filterlim (fun p => Rpower p c) (at_right 0) (locally (0 : R)).
Proof.
  intros Hc P (eps & HP). exists (mkposreal _ (Rpower_pos eps (/ c))). intros y B Hy. apply HP. apply Rabs_def2 in B. unfold minus, plus, opp in B; cbn in B.
  pose proof (small_power c eps y Hc (cond_pos eps) Hy ltac:(lra)). change (Rabs (Rpower y c - 0) < eps). rewrite Rminus_0_r, Rabs_pos_eq; lra.
Qed.
Lemma power_left (c : R) : 0 < c -> filterlim (fun p => Rpower (1 - p) c) (at_left 1) (locally (0 : R)).
Proof.
  intros Hc P (eps & HP). exists (mkposreal _ (Rpower_pos eps (/ c))). intros y B Hy. apply HP. apply Rabs_def2 in B. unfold minus, plus, opp in B; cbn in B.
  pose proof (small_power c eps (1 - y) Hc (cond_pos eps) ltac:(lra) ltac:(lra)). change (Rabs (Rpower (1 - y) c - 0) < eps). rewrite Rminus_0_r, Rabs_pos_eq; lra.
Qed.
Lemma lim_scal (F : R -> R) (G : (R -> Prop) -> Prop) {FG : Filter G} (c l : R) : filterlim F G (locally l) -> filterlim (fun p => c * F p) G (locally (c * l)).
Proof. intros H. eapply filterlim_comp; [exact H|]. apply (filterlim_scal_r (K := R_AbsRing) (V := R_NormedModule) c l). Qed.
Lemma derive_power a x : 0 < x -> is_derive (fun p => Rpower p a) x (a * Rpower x (a - 1)).
Proof.
  intros Hx. unfold Rpower. auto_derive; [exact Hx|]. replace ((a - 1) * ln x) with (a * ln x - ln x) by ring. unfold Rminus. rewrite exp_plus, exp_Ropp, exp_ln by exact Hx. field. lra.
Qed.
Lemma derive_power' a x : x < 1 -> is_derive (fun p => Rpower (1 - p) a) x (- (a * Rpower (1 - x) (a - 1))).
Proof.
  intros Hx. unfold Rpower. auto_derive; [lra|]. replace (exp ((a - 1) * ln (1 - x))) with (exp (a * ln (1 - x)) / (1 - x)). { change (1 + - x) with (1 - x). field. lra. }
  replace ((a - 1) * ln (1 - x)) with (a * ln (1 - x) + - ln (1 - x)) by ring. rewrite exp_plus, exp_Ropp, exp_ln by lra. reflexivity.
Qed.
Lemma cont_derive (F : R -> R) (x l : R) : is_derive F x l -> continuous F x.
Proof. intros D. apply (ex_derive_continuous F). exists l. exact D. Qed.
Lemma Rpower_1_l a : Rpower 1 a = 1.
Proof. unfold Rpower. rewrite ln_1, Rmult_0_r. apply exp_0. Qed.
Lemma int_power a : -1 < a -> integral01 (fun p => Rpower p a) (1 / (a + 1)).
Proof.
  intros Ha. replace (1 / (a + 1)) with (1 / (a + 1) * 1 - 1 / (a + 1) * 0) by ring. apply (ftc (fun p => 1 / (a + 1) * Rpower p (a + 1))).
  - intros x Hx. pose proof (is_derive_scal _ x (1 / (a + 1)) _ (derive_power (a + 1) x ltac:(lra))) as D. replace (Rpower x a) with (1 / (a + 1) * ((a + 1) * Rpower x (a + 1 - 1))); [exact D|].
    replace (a + 1 - 1) with a by ring. field. lra.
  - intros x Hx. eapply cont_derive. apply derive_power. lra.
  - apply lim_scal; [typeclasses eauto|]. apply power_right. lra.
  - apply lim_scal; [typeclasses eauto|]. apply cont_left; [eapply cont_derive; apply derive_power; lra|]. apply Rpower_1_l.
Qed.
Lemma int_power' b : -1 < b -> integral01 (fun p => Rpower (1 - p) b) (1 / (b + 1)).
Proof.
  intros Hb. replace (1 / (b + 1)) with (- (1 / (b + 1)) * 0 - (- (1 / (b + 1)) * 1)) by ring. apply (ftc (fun p => - (1 / (b + 1)) * Rpower (1 - p) (b + 1))).
  - intros x Hx. pose proof (is_derive_scal _ x (- (1 / (b + 1))) _ (derive_power' (b + 1) x ltac:(lra))) as D. replace (Rpower (1 - x) b) with (- (1 / (b + 1)) * (- ((b + 1) * Rpower (1 - x) (b + 1 - 1)))); [exact D|].
    replace (b + 1 - 1) with b by ring. field. lra.
  - intros x Hx. eapply cont_derive. apply derive_power'. lra.
  - apply lim_scal; [typeclasses eauto|]. apply cont_right; [eapply cont_derive; apply derive_power'; lra|]. rewrite Rminus_0_r. apply Rpower_1_l.
  - apply lim_scal; [typeclasses eauto|]. apply power_left. lra.
Qed.
(** the logarithm *)
Lemma xlnx_small p : 0 < p < 1 -> 0 <= - (p * ln p) <= 2 * Rpower p (1 / 2).
Proof.
  intros Hp. assert (L : ln p < 0) by (rewrite <- ln_1; apply ln_increasing; lra). split; [nra|].
  set (q := Rpower p (1 / 2)). assert (Hq : 0 < q) by apply Rpower_pos. assert (E : p = q * q). { unfold q. rewrite <- Rpower_plus. replace (1 / 2 + 1 / 2) with 1 by lra. rewrite Rpower_1; lra. }
  assert (LQ : ln p = 2 * ln q) by (rewrite E, ln_mult by assumption; ring).
  assert (LB : - ln q <= / q). { rewrite <- ln_Rinv by assumption. pose proof (exp_ineq1_le (ln (/ q))) as X. rewrite exp_ln in X by (apply Rinv_0_lt_compat; assumption). lra. }
  rewrite LQ. replace (- (p * (2 * ln q))) with (2 * (p * - ln q)) by ring. apply Rmult_le_compat_l; [lra|]. apply Rle_trans with (p * / q); [apply Rmult_le_compat_l; lra|]. right. rewrite E. field. lra.
Qed.
Lemma xlnx_right : filterlim (fun p => p * ln p) (at_right 0) (locally (0 : R)).
Proof.
  intros P (eps & HP). set (e := eps / 2). assert (He : 0 < e) by (unfold e; pose proof (cond_pos eps); lra).
  assert (Hm : 0 < Rmin 1 (Rpower e (/ (1 / 2)))) by (apply Rmin_glb_lt; [lra|apply Rpower_pos]).
  exists (mkposreal _ Hm). intros y B Hy. apply HP. apply Rabs_def2 in B. unfold minus, plus, opp in B; cbn in B. pose proof (Rmin_l 1 (Rpower e (/ (1 / 2)))). pose proof (Rmin_r 1 (Rpower e (/ (1 / 2)))).
  pose proof (small_power (1 / 2) e y ltac:(lra) He Hy ltac:(lra)). pose proof (xlnx_small y ltac:(lra)). change (Rabs (y * ln y - 0) < eps). rewrite Rminus_0_r, Rabs_left1 by lra. unfold e in *. lra.
Qed.
Lemma xlnx_left : filterlim (fun p => (1 - p) * ln (1 - p)) (at_left 1) (locally (0 : R)).
Proof.
  intros P (eps & HP). set (e := eps / 2). assert (He : 0 < e) by (unfold e; pose proof (cond_pos eps); lra).
  assert (Hm : 0 < Rmin 1 (Rpower e (/ (1 / 2)))) by (apply Rmin_glb_lt; [lra|apply Rpower_pos]).
  exists (mkposreal _ Hm). intros y B Hy. apply HP. apply Rabs_def2 in B. unfold minus, plus, opp in B; cbn in B. pose proof (Rmin_l 1 (Rpower e (/ (1 / 2)))). pose proof (Rmin_r 1 (Rpower e (/ (1 / 2)))).
  pose proof (small_power (1 / 2) e (1 - y) ltac:(lra) He ltac:(lra) ltac:(lra)). pose proof (xlnx_small (1 - y) ltac:(lra)). change (Rabs ((1 - y) * ln (1 - y) - 0) < eps). rewrite Rminus_0_r, Rabs_left1 by lra. unfold e in *. lra.
Qed.
Lemma lim_plus_ (F G : R -> R) (H : (R -> Prop) -> Prop) {FH : Filter H} (a b : R) : filterlim F H (locally a) -> filterlim G H (locally b) -> filterlim (fun p => F p + G p) H (locally (a + b)).
Proof. intros A B. eapply filterlim_comp_2; [exact A|exact B|]. apply (filterlim_plus (K := R_AbsRing) (V := R_NormedModule) a b). Qed.
Lemma int_ln : integral01 ln (-1).
Proof.
  replace (-1) with ((0 + -1) - (0 + 0)) by ring. apply (ftc (fun p => p * ln p + - p)).
  - intros x Hx. auto_derive; [lra|]. field. lra.
  - intros x Hx. eapply cont_derive. apply is_derive_ln. lra.
  - apply lim_plus_; [typeclasses eauto|apply xlnx_right|]. apply cont_right; [eapply cont_derive; auto_derive; [trivial|reflexivity]|ring].
  - apply cont_left; [|rewrite ln_1; ring]. eapply cont_derive. auto_derive; [lra|reflexivity].
Qed.
Lemma int_ln' : integral01 (fun p => ln (1 - p)) (-1).
Proof.
  replace (-1) with ((-1 * 0 + -1) - (0 + 0)) by ring. apply (ftc (fun p => -1 * ((1 - p) * ln (1 - p)) + - p)).
  - intros x Hx. auto_derive; [lra|]. change (1 + - x) with (1 - x). field. lra.
  - intros x Hx. eapply cont_derive. auto_derive; [lra|reflexivity].
  - apply cont_right; [|rewrite Rminus_0_r, ln_1; ring]. eapply cont_derive. auto_derive; [lra|reflexivity].
  - apply lim_plus_; [typeclasses eauto|apply lim_scal; [typeclasses eauto|apply xlnx_left]|]. apply cont_left; [eapply cont_derive; auto_derive; [trivial|reflexivity]|ring].
Qed.
Lemma int_one : integral01 (fun _ => 1) 1.
Proof.
  assert (H : integral01 (fun _ => 1) (1 - 0)); [|rewrite Rminus_0_r in H; exact H]. apply (ftc (fun p => p) (fun _ => 1) 0 1).
  - intros x _. auto_derive; [trivial|reflexivity].
  - intros x _. apply continuous_const.
  - apply cont_right; [apply continuous_id|reflexivity].
  - apply cont_left; [apply continuous_id|reflexivity].
Qed.
Lemma int_const c : integral01 (fun _ => c) c.
Proof. pose proof (int_scal c _ _ int_one) as H. rewrite Rmult_1_r in H. revert H. apply int_ext. intros; ring. Qed.
(** the transformed powers *)
Lemma int_box_cox r : -1 < r -> integral01 (box_cox (Fin r)) (- (1 / (r + 1))).
Proof.
  intros Hr. destruct (Req_EM_T r 0) as [->|N].
  - replace (- (1 / (0 + 1))) with (-1) by field. apply (int_ext ln); [intros; symmetry; apply box_cox_0|]. exact int_ln.
  - replace (- (1 / (r + 1))) with (1 / r * (1 / (r + 1) - 1)) by (field; lra). apply (int_ext (fun p => 1 / r * (Rpower p r - 1))); [intros; rewrite box_cox_n by exact N; field; exact N|].
    apply int_scal. apply (int_minus (fun p => Rpower p r) (fun _ => 1)); [apply int_power; exact Hr|exact int_one].
Qed.
Lemma int_box_cox' r : -1 < r -> integral01 (fun p => box_cox (Fin r) (1 - p)) (- (1 / (r + 1))).
Proof.
  intros Hr. destruct (Req_EM_T r 0) as [->|N].
  - replace (- (1 / (0 + 1))) with (-1) by field. apply (int_ext (fun p => ln (1 - p))); [intros; symmetry; apply box_cox_0|]. exact int_ln'.
  - replace (- (1 / (r + 1))) with (1 / r * (1 / (r + 1) - 1)) by (field; lra). apply (int_ext (fun p => 1 / r * (Rpower (1 - p) r - 1))); [intros; rewrite box_cox_n by exact N; field; exact N|].
    apply int_scal. apply (int_minus (fun p => Rpower (1 - p) r) (fun _ => 1)); [apply int_power'; exact Hr|exact int_one].
Qed.
