(** The second moment with one shape that is zero. *)
From Coq Require Import Reals Lra Lia.
From Coquelicot Require Import Coquelicot.
From Verif Require Import UdModel GldModel GldSpec GldProofs GldProofs2 GldProofs3 GldProofs5.
Import Lra.
Local Open Scope R_scope.

Lemma xln2_small p : 0 < p < 1 -> 0 <= p * ln p ^ 2 <= 16 * Rpower p (1 / 2).
Proof.
  intros Hp. set (q := Rpower p (1 / 2)). assert (Hq : 0 < q) by apply Rpower_pos. assert (E : p = q * q). { unfold q. rewrite <- Rpower_plus. replace (1 / 2 + 1 / 2) with 1 by lra. rewrite Rpower_1; lra. }
  assert (Q1 : q < 1) by nra. pose proof (xlnx_small q ltac:(lra)) as X. set (r := Rpower q (1 / 2)) in *. assert (Hr : 0 < r) by apply Rpower_pos.
  assert (ER : q = r * r). { unfold r. rewrite <- Rpower_plus. replace (1 / 2 + 1 / 2) with 1 by lra. rewrite Rpower_1; lra. }
  assert (LQ : ln p = 2 * ln q) by (rewrite E, ln_mult by assumption; ring). set (w := - (q * ln q)) in *. replace (p * ln p ^ 2) with (4 * (w * w)) by (rewrite LQ; unfold w; rewrite E; ring).
  split; [nra|]. replace (16 * q) with (4 * ((2 * r) * (2 * r))) by (rewrite ER; ring). apply Rmult_le_compat_l; [lra|]. apply Rmult_le_compat; lra.
Qed.
Lemma xln2_right : filterlim (fun p => p * ln p ^ 2) (at_right 0) (locally (0 : R)).
Proof.
  intros P (eps & HP). set (e := eps / 16). assert (He : 0 < e) by (unfold e; pose proof (cond_pos eps); lra).
  assert (Hm : 0 < Rmin 1 (Rpower e (/ (1 / 2)))) by (apply Rmin_glb_lt; [lra|apply Rpower_pos]).
  exists (mkposreal _ Hm). intros y B Hy. apply HP. apply Rabs_def2 in B. unfold minus, plus, opp in B; cbn in B. pose proof (Rmin_l 1 (Rpower e (/ (1 / 2)))). pose proof (Rmin_r 1 (Rpower e (/ (1 / 2)))).
  pose proof (small_power (1 / 2) e y ltac:(lra) He Hy ltac:(lra)). pose proof (xln2_small y ltac:(lra)). change (Rabs (y * ln y ^ 2 - 0) < eps). rewrite Rminus_0_r, Rabs_pos_eq by lra. unfold e in *. lra.
Qed.
Lemma int_ln2 : integral01 (fun p => ln p ^ 2) 2.
Proof.
  assert (I : integral01 (fun p => ln p ^ 2) ((1 * ln 1 ^ 2 + (-2 * (1 * ln 1) + 2 * 1)) - (0 + (-2 * 0 + 2 * 0)))).
  { apply (ftc (fun p => p * ln p ^ 2 + (-2 * (p * ln p) + 2 * p))).
    - intros x Hx. auto_derive; [lra|]. field. lra.
    - intros x Hx. eapply cont_derive. auto_derive; [lra|reflexivity].
    - apply lim_plus_; [typeclasses eauto|exact xln2_right|]. apply lim_plus_; [typeclasses eauto|apply lim_scal; [typeclasses eauto|exact xlnx_right]|].
      apply cont_right; [eapply cont_derive; auto_derive; [trivial|reflexivity]|reflexivity].
    - apply cont_left; [|reflexivity]. eapply cont_derive. auto_derive; [lra|reflexivity]. }
  rewrite ln_1 in I. replace 2 with (1 * 0 ^ 2 + (-2 * (1 * 0) + 2 * 1) - (0 + (-2 * 0 + 2 * 0))) by ring. exact I.
Qed.
Section Zero.
Context (s : gspecial) (G : digamma_ok s).
Lemma int_zero2 b : b <> 0 -> - (1 / 2) < b -> integral01 (fun p => (box_cox (Fin 0) p - box_cox (Fin b) (1 - p)) ^ 2) (vk_M2_zero s b).
Proof using G.
  intros Nb Hb.
  replace (vk_M2_zero s b) with (2 + (- (2 / b) * (- (g_euler s + g_digamma s (b + 2)) / (b + 1)) + (2 / b * -1 + (1 / b ^ 2 * (1 / (2 * b + 1)) + (- (2 / b ^ 2) * (1 / (b + 1)) + 1 / b ^ 2)))))
    by (unfold vk_M2_zero; field; repeat split; lra).
  apply (int_ext (fun p => ln p ^ 2 + (- (2 / b) * (ln p * Rpower (1 - p) b) + (2 / b * ln p + (1 / b ^ 2 * Rpower (1 - p) (2 * b) + (- (2 / b ^ 2) * Rpower (1 - p) b + 1 / b ^ 2)))))).
  { intros p Hp. rewrite box_cox_0, box_cox_n by assumption. rewrite <- rp2. field. assumption. }
  apply int_plus; [exact int_ln2|]. apply int_plus; [apply int_scal; apply G; lra|]. apply int_plus; [apply int_scal; exact int_ln|].
  apply int_plus; [apply int_scal; apply int_power'; lra|]. apply int_plus; [apply int_scal; apply int_power'; lra|apply int_const].
Qed.
Theorem zero_second a b : a = 0 /\ b <> 0 \/ a <> 0 /\ b = 0 -> - (1 / 2) < a -> - (1 / 2) < b ->
  exists v, get_mk s 2 a b = Ok v /\ integral01 (fun p => (box_cox (Fin a) p - box_cox (Fin b) (1 - p)) ^ 2) v.
Proof using G.
  intros [[-> Nb]|[Na ->]] Ha Hb.
  - exists (vk_M2_zero s b). split; [unfold get_mk; rewrite is0_0, is0_n by assumption; reflexivity|]. apply int_zero2; assumption.
  - exists (vk_M2_zero s a). split; [unfold get_mk; rewrite is0_0, is0_n by assumption; reflexivity|]. pose proof (int_reflect _ _ (int_zero2 a Na Ha)) as I. revert I. apply int_ext.
    intros p Hp. replace (1 - (1 - p)) with p by ring. ring.
Qed.
End Zero.
(** The contract for digamma is met. *)
Lemma part_le (f : R -> R) v a b z : (forall p, 0 < p < 1 -> continuous f p) -> (forall p, 0 < p < 1 -> 0 <= f p) -> integral01 f v -> 0 < a -> a <= b -> b < 1 -> is_RInt f a b z -> z <= v.
Proof.
  intros C P I Ha Hab Hb Hz. destruct (Rle_lt_dec z v) as [L|L]; [exact L|]. exfalso. assert (He : 0 < z - v) by lra.
  pose proof (proj1 (filterlimi_locally _ _) I (mkposreal _ He)) as J.
  pose proof (near_ends (fun ab => 0 < fst ab < a /\ b < snd ab < 1) a b ltac:(lra) ltac:(lra) ltac:(intros; cbn; split; assumption)) as N.
  pose proof (filter_and _ _ J N) as W. destruct (filter_ex _ W) as ((a', b') & (z' & Hz' & Bz) & Ha' & Hb'). cbn [fst snd] in *.
  destruct (rint_ex f a' a C ltac:(lra) ltac:(lra)) as (z1 & Hz1). destruct (rint_ex f b b' C ltac:(lra) ltac:(lra)) as (z2 & Hz2).
  pose proof (is_RInt_ge_0 f a' a z1 ltac:(lra) Hz1 ltac:(intros; apply P; lra)). pose proof (is_RInt_ge_0 f b b' z2 ltac:(lra) Hz2 ltac:(intros; apply P; lra)).
  pose proof (is_RInt_Chasles _ _ _ _ _ _ (is_RInt_Chasles _ _ _ _ _ _ Hz1 Hz) Hz2) as Hs. pose proof (is_RInt_unique _ _ _ _ Hs) as U1. pose proof (is_RInt_unique _ _ _ _ Hz') as U2.
  assert (EZ : z' = z1 + z + z2). { rewrite <- U2. exact U1. } change (Rabs (z' - v) < z - v) in Bz. apply Rabs_def2 in Bz. lra.
Qed.
Definition lnpow (x p : R) : R := - ln p * Rpower (1 - p) x.
Lemma lnpow_le x p : 0 < p < 1 -> 0 <= lnpow x p <= 2 * euler (- (1 / 2)) x p.
Proof.
  intros Hp. unfold lnpow, euler. pose proof (Rpower_pos (1 - p) x) as A. pose proof (xlnx_small p Hp) as [B0 B1].
  assert (E : Rpower p (1 / 2) = p * Rpower p (- (1 / 2))). { rewrite <- (Rpower_1 p) at 2 by lra. rewrite <- Rpower_plus. f_equal. field. }
  set (w := Rpower p (- (1 / 2))) in *. set (y := Rpower (1 - p) x) in *. assert (L0 : 0 <= - ln p) by nra. assert (L1 : - ln p <= 2 * w). { apply Rmult_le_reg_l with p; [lra|]. rewrite E in B1. lra. }
  split; [nra|]. nra.
Qed.
Lemma lnpow_cont x p : 0 < p < 1 -> continuous (lnpow x) p.
Proof. intros Hp. eapply cont_derive. unfold lnpow, Rpower. auto_derive; [repeat split; lra|reflexivity]. Qed.
Lemma lnpow_integral x : -1 < x -> exists v, integral01 (lnpow x) v.
Proof.
  intros Hx. destruct (euler_integral (- (1 / 2)) x ltac:(lra) Hx) as (v & I). apply (bounded_integral _ (2 * v)); [intros; apply lnpow_cont; assumption|intros p Hp; apply lnpow_le; exact Hp|].
  intros a b z Ha Hab Hb Hz. destruct (rint_ex (euler (- (1 / 2)) x) a b (euler_cont _ _) ltac:(lra) ltac:(lra)) as (w & Hw).
  assert (E0 : forall p, 0 < p < 1 -> 0 <= euler (- (1 / 2)) x p) by (intros p _; unfold euler; apply Rlt_le, Rmult_lt_0_compat; apply Rpower_pos).
  pose proof (part_le _ v a b w (euler_cont _ _) E0 I Ha Hab Hb Hw) as L. pose proof (is_RInt_scal _ _ _ 2 _ Hw) as Hw2.
  pose proof (is_RInt_le _ _ a b _ _ Hab Hz Hw2 ltac:(intros p Hp; apply lnpow_le; lra)) as M. change (scal 2 w) with (2 * w) in M. lra.
Qed.
Definition digamma_ref (y : R) : R := (y - 1) * RInt_gen (V := R_CompleteNormedModule) (lnpow (y - 2)) (at_right 0) (at_left 1).
Theorem digamma_ok_exists beta polygamma z : digamma_ok (GSpecial beta digamma_ref polygamma 0 z).
Proof.
  intros x Hx. cbn [g_euler g_digamma]. unfold digamma_ref. replace (x + 2 - 2) with x by ring. destruct (lnpow_integral x Hx) as (v & I).
  assert (C : integral01 (lnpow x) (RInt_gen (V := R_CompleteNormedModule) (lnpow x) (at_right 0) (at_left 1))) by (apply (RInt_gen_correct (V := R_CompleteNormedModule)); exists v; exact I).
  set (w := RInt_gen _ _ _) in *. clearbody w. replace (- (0 + (x + 2 - 1) * w) / (x + 1)) with (-1 * w) by (field; lra).
  apply (int_ext (fun p => -1 * lnpow x p)); [intros; unfold lnpow; ring|]. apply int_scal. exact C.
Qed.
