(** Factorial moments of discrete distributions. *)
From Coq Require Import Reals Lra Lia.
From Coquelicot Require Import Coquelicot.
From Verif Require Import UdSpec.
Local Open Scope R_scope.

(** x (x - 1) ... (x - r + 1) *)
Fixpoint ff (r : nat) (x : R) : R := match r with O => 1 | S r => x * ff r (x - 1) end.
Definition factorials (f : nat -> R) (m1 m2 m3 m4 : R) : Prop :=
  (forall k, 0 <= f k) /\ is_series f 1 /\ is_series (fun k => f k * ff 1 (INR k)) m1 /\ is_series (fun k => f k * ff 2 (INR k)) m2 /\
  is_series (fun k => f k * ff 3 (INR k)) m3 /\ is_series (fun k => f k * ff 4 (INR k)) m4.
Lemma series_plus (a b : nat -> R) (la lb : R) : is_series a la -> is_series b lb -> is_series (fun k => a k + b k) (la + lb).
Proof. exact (is_series_plus a b la lb). Qed.
Lemma series_scal (c : R) (a : nat -> R) (la : R) : is_series a la -> is_series (fun k => c * a k) (c * la).
Proof. exact (is_series_scal c a la). Qed.
Lemma series_eq (a b : nat -> R) (la lb : R) : (forall k, a k = b k) -> la = lb -> is_series a la -> is_series b lb.
Proof. intros H -> Ha. apply (is_series_ext a b); auto. Qed.
Lemma combine_ff f m1 m2 m3 m4 c0 c1 c2 c3 c4 : factorials f m1 m2 m3 m4 ->
  is_series (fun k => f k * (c0 + c1 * ff 1 (INR k) + c2 * ff 2 (INR k) + c3 * ff 3 (INR k) + c4 * ff 4 (INR k))) (c0 + c1 * m1 + c2 * m2 + c3 * m3 + c4 * m4).
Proof.
  intros (_ & F0 & F1 & F2 & F3 & F4).
  eapply series_eq; [| |exact (series_plus _ _ _ _ (series_plus _ _ _ _ (series_plus _ _ _ _ (series_plus _ _ _ _ (series_scal c0 _ _ F0) (series_scal c1 _ _ F1)) (series_scal c2 _ _ F2)) (series_scal c3 _ _ F3)) (series_scal c4 _ _ F4))].
  - intros k. cbv beta. ring.
  - ring.
Qed.
(** Central moments from factorial moments. *)
Lemma moments_from lo (f : R -> R) m1 m2 m3 m4 mu v : factorials (fun k => f (lo + INR k)) m1 m2 m3 m4 -> mu = lo + m1 -> v = m2 + m1 - m1 ^ 2 -> has_mean_variance lo f mu v.
Proof.
  intros F -> ->. pose proof F as (F0 & F1 & _). split; [exact F0|]. split; [|split].
  - eapply series_eq; [| |exact F1]; [intros; cbv beta; ring|reflexivity].
  - eapply series_eq; [| |exact (combine_ff _ _ _ _ _ lo 1 0 0 0 F)]; [intros; cbv beta; cbn [ff]; ring|ring].
  - eapply series_eq; [| |exact (combine_ff _ _ _ _ _ (m1 ^ 2) (1 - 2 * m1) 1 0 0 F)]; [intros; cbv beta; cbn [ff]; ring|ring].
Qed.
Lemma moments_full lo (f : R -> R) m1 m2 m3 m4 mu v sk ku : factorials (fun k => f (lo + INR k)) m1 m2 m3 m4 -> mu = lo + m1 -> v = m2 + m1 - m1 ^ 2 -> 0 < v ->
  sk * sqrt v ^ 3 = m3 + (3 - 3 * m1) * m2 + (1 - 3 * m1 + 3 * m1 ^ 2) * m1 - m1 ^ 3 ->
  (ku + 3) * v ^ 2 = m4 + (6 - 4 * m1) * m3 + (7 - 12 * m1 + 6 * m1 ^ 2) * m2 + (1 - 4 * m1 + 6 * m1 ^ 2 - 4 * m1 ^ 3) * m1 + m1 ^ 4 ->
  has_moments lo f mu v sk ku.
Proof.
  intros F Em Ev Pv Es Ek. split; [apply (moments_from lo f m1 m2 m3 m4 mu v); auto|]. split; [exact Pv|]. split.
  - eapply series_eq; [| |exact (combine_ff _ _ _ _ _ (- m1 ^ 3) (1 - 3 * m1 + 3 * m1 ^ 2) (3 - 3 * m1) 1 0 F)].
    + intros k. cbv beta. rewrite Em. cbn [ff]. ring.
    + rewrite Es. ring.
  - eapply series_eq; [| |exact (combine_ff _ _ _ _ _ (m1 ^ 4) (1 - 4 * m1 + 6 * m1 ^ 2 - 4 * m1 ^ 3) (7 - 12 * m1 + 6 * m1 ^ 2) (6 - 4 * m1) 1 F)].
    + intros k. cbv beta. rewrite Em. cbn [ff]. ring.
    + rewrite Ek. ring.
Qed.
(** A first element zero can be dropped. *)
Lemma series_shift (a : nat -> R) (l : R) : a 0%nat = 0 -> is_series (fun k => a (S k)) l -> is_series a l.
Proof. intros H0 H. apply is_series_decr_1. eapply series_eq; [reflexivity| |exact H]. rewrite H0. unfold plus, opp. cbn. ring. Qed.
Lemma ff_S r k : ff (S r) (INR (S k)) = INR (S k) * ff r (INR k).
Proof. cbn [ff]. f_equal. f_equal. rewrite S_INR. ring. Qed.
Lemma ff_0 r : ff (S r) (INR 0) = 0.
Proof. cbn [ff]. cbn [INR]. ring. Qed.

(** ** Poisson *)
Definition pois (l : R) (k : nat) : R := exp (- l) * (l ^ k / INR (fact k)).
Lemma pois_pos l k : 0 <= l -> 0 <= pois l k.
Proof. intros H. unfold pois. apply Rmult_le_pos; [left; apply exp_pos|]. apply Rmult_le_pos; [apply pow_le; exact H|]. left. apply Rinv_0_lt_compat. apply INR_fact_lt_0. Qed.
Lemma pois_sum l : is_series (pois l) 1.
Proof.
  pose proof (is_exp_Reals l) as H. apply (is_pseries_R) in H. eapply series_eq; [| |exact (series_scal (exp (- l)) _ _ H)].
  - intros k. unfold pois. cbv beta. field. apply INR_fact_neq_0.
  - rewrite <- exp_plus. replace (- l + l) with 0 by ring. apply exp_0.
Qed.
Lemma pois_ff l r : is_series (fun k => pois l k * ff r (INR k)) (l ^ r).
Proof.
  induction r as [|r IH].
  - eapply series_eq; [| |exact (pois_sum l)]; [intros; cbv beta; cbn [ff]; ring|reflexivity].
  - apply series_shift; [rewrite ff_0; ring|]. eapply series_eq; [| |exact (series_scal l _ _ IH)]; [|cbn; ring].
    intros k. cbv beta. rewrite ff_S. unfold pois. rewrite fact_simpl, mult_INR. cbn [pow]. field. split; [apply INR_fact_neq_0|]. apply not_0_INR. discriminate.
Qed.
Lemma pois_factorials l : 0 <= l -> factorials (pois l) l (l ^ 2) (l ^ 3) (l ^ 4).
Proof.
  intros H. split; [intros; apply pois_pos; exact H|]. split; [apply pois_sum|]. split; [|split; [|split]]; try exact (pois_ff l _). eapply series_eq; [reflexivity| |exact (pois_ff l 1)]. ring.
Qed.

(** ** Geometric *)
Definition geo (p : R) (k : nat) : R := (1 - p) ^ k * p.
(** C (k + r, r), for r = 0, ..., 4 *)
Definition rise (r : nat) (k : nat) : R := let x := INR k in
  match r with O => 1 | 1%nat => x + 1 | 2%nat => (x + 1) * (x + 2) / 2 | 3%nat => (x + 1) * (x + 2) * (x + 3) / 6 | _ => (x + 1) * (x + 2) * (x + 3) * (x + 4) / 24 end.
Lemma rise_pos r k : 0 <= rise r k.
Proof. pose proof (pos_INR k) as H. unfold rise. cbv zeta. destruct r as [|[|[|[|r]]]]; [lra|lra| | |]; (apply Rmult_le_pos; [|lra]); repeat apply Rmult_le_pos; lra. Qed.
Lemma rise_sum r n : (r < 4)%nat -> sum_f_R0 (rise r) n = rise (S r) n.
Proof.
  intros Hr. induction n as [|n IH].
  - destruct r as [|[|[|[|r]]]]; cbn; try lra; lia.
  - cbn [sum_f_R0]. rewrite IH. unfold rise. cbv zeta. rewrite S_INR. destruct r as [|[|[|[|r]]]]; try lia; field.
Qed.
Lemma rise_series q r : 0 <= q < 1 -> (r <= 4)%nat -> is_series (fun k => q ^ k * rise r k) ((/ (1 - q)) ^ (S r)).
Proof.
  intros Hq. induction r as [|r IH]; intros Hr.
  - eapply series_eq; [| |apply (is_series_geom q)]; [|cbn; ring|rewrite Rabs_pos_eq; lra]. intros k. cbv beta. cbn. ring.
  - pose proof (is_series_geom q ltac:(rewrite Rabs_pos_eq; lra)) as G. pose proof (is_series_mult_pos _ _ _ _ (IH ltac:(lia)) G) as M.
    eapply series_eq; [| |apply M].
    + intros n. rewrite <- rise_sum by lia. rewrite scal_sum. apply sum_eq. intros i Hi. replace n with (i + (n - i))%nat at 2 by lia. rewrite pow_add. ring.
    + cbn [pow]. ring.
    + intros k. apply Rmult_le_pos; [apply pow_le; lra|apply rise_pos].
    + intros k. apply pow_le; lra.
Qed.
Lemma geo_ff p r : 0 < p <= 1 -> (r <= 4)%nat -> is_series (fun k => geo p k * ff r (INR k)) (INR (fact r) * ((1 - p) / p) ^ r).
Proof.
  intros Hp Hr. pose proof (rise_series (1 - p) r ltac:(lra) Hr) as H. replace (1 - (1 - p)) with p in H by ring.
  apply (series_scal (INR (fact r) * p * (1 - p) ^ r)) in H. replace (INR (fact r) * ((1 - p) / p) ^ r) with (INR (fact r) * p * (1 - p) ^ r * (/ p) ^ S r).
  2:{ unfold Rdiv. rewrite Rpow_mult_distr. cbn [pow]. field. lra. }
  destruct r as [|[|[|[|[|r]]]]]; [| | | | |lia]; repeat (apply series_shift; [cbn -[geo]; ring|]); (eapply series_eq; [| reflexivity|exact H]); intros k; cbv beta; unfold geo, rise; cbv zeta; cbn [ff]; rewrite ?S_INR; cbn [pow fact Nat.mul Nat.add INR]; try field.
Qed.
Lemma geo_factorials p : 0 < p <= 1 -> let o := (1 - p) / p in factorials (geo p) o (2 * o ^ 2) (6 * o ^ 3) (24 * o ^ 4).
Proof.
  intros Hp o. split; [intros k; apply Rmult_le_pos; [apply pow_le; lra|lra]|].
  split; [eapply series_eq; [| |exact (geo_ff p 0 Hp ltac:(lia))]; [intros; cbv beta; cbn; ring|cbn; ring]|].
  split; [eapply series_eq; [| |exact (geo_ff p 1 Hp ltac:(lia))]; [reflexivity|cbn; fold o; ring]|].
  split; [eapply series_eq; [| |exact (geo_ff p 2 Hp ltac:(lia))]; [reflexivity|cbn; fold o; ring]|].
  split; [eapply series_eq; [| |exact (geo_ff p 3 Hp ltac:(lia))]; [reflexivity|cbn; fold o; ring]|].
  eapply series_eq; [| |exact (geo_ff p 4 Hp ltac:(lia))]; [reflexivity|cbn; fold o; ring].
Qed.

(** ** Finite sums *)
Lemma series_finite (a : nat -> R) n : (forall k, (n < k)%nat -> a k = 0) -> is_series a (sum_f_R0 a n).
Proof.
  intros H. unfold is_series. apply (filterlim_ext_loc (fun _ => sum_f_R0 a n)).
  - exists n. intros k Hk. rewrite sum_n_Reals. induction Hk as [|k Hk IH]; [reflexivity|]. cbn [sum_f_R0]. rewrite (H (S k)) by lia. rewrite <- IH. ring.
  - apply filterlim_const.
Qed.

(** ** Binomial *)
Definition bino (n : nat) (p : R) (k : nat) : R := if (k <=? n)%nat then Binomial.C n k * p ^ k * (1 - p) ^ (n - k) else 0.
Lemma C_pos n k : 0 < Binomial.C n k.
Proof. unfold Binomial.C. apply Rmult_lt_0_compat; [apply INR_fact_lt_0|]. apply Rinv_0_lt_compat. apply Rmult_lt_0_compat; apply INR_fact_lt_0. Qed.
Lemma bino_pos n p k : 0 <= p <= 1 -> 0 <= bino n p k.
Proof. intros H. unfold bino. destruct (k <=? n)%nat; [|lra]. apply Rmult_le_pos; [apply Rmult_le_pos|]; [left; apply C_pos|apply pow_le; lra|apply pow_le; lra]. Qed.
Lemma bino_ff p r : forall n, sum_f_R0 (fun k => bino n p k * ff r (INR k)) n = ff r (INR n) * p ^ r.
Proof.
  induction r as [|r IH]; intros n.
  - cbn [ff pow]. replace (1 * 1) with ((p + (1 - p)) ^ n) by (replace (p + (1 - p)) with 1 by ring; rewrite pow1; ring). rewrite binomial. apply sum_eq. intros i Hi. unfold bino. rewrite (proj2 (Nat.leb_le i n) Hi). ring.
  - destruct n as [|n]; [cbn [sum_f_R0]; rewrite ff_0; ring|].
    rewrite decomp_sum by lia. rewrite ff_0, Rmult_0_r, Rplus_0_l. cbn [pred]. rewrite ff_S. cbn [pow]. replace (INR (S n) * ff r (INR n) * (p * p ^ r)) with (INR (S n) * p * (ff r (INR n) * p ^ r)) by ring. rewrite <- IH, scal_sum.
    apply sum_eq. intros i Hi. rewrite ff_S. unfold bino. rewrite (proj2 (Nat.leb_le i n) Hi). replace (S i <=? S n)%nat with true by (symmetry; apply Nat.leb_le; lia). replace (S n - S i)%nat with (n - i)%nat by lia.
    unfold Binomial.C. replace (S n - S i)%nat with (n - i)%nat by lia. rewrite !fact_simpl, !mult_INR. cbn [pow]. pose proof (INR_fact_neq_0 i). pose proof (INR_fact_neq_0 (n - i)). pose proof (not_0_INR (S i) ltac:(discriminate)). field. auto.
Qed.
Lemma bino_factorials n p : 0 <= p <= 1 -> let x := INR n in factorials (bino n p) (x * p) (x * (x - 1) * p ^ 2) (x * (x - 1) * (x - 2) * p ^ 3) (x * (x - 1) * (x - 2) * (x - 3) * p ^ 4).
Proof.
  intros Hp x. split; [intros; apply bino_pos; exact Hp|].
  assert (G : forall r, is_series (fun k => bino n p k * ff r (INR k)) (ff r (INR n) * p ^ r)).
  { intros r. rewrite <- bino_ff. apply series_finite. intros k Hk. unfold bino. rewrite (proj2 (Nat.leb_gt k n) Hk). ring. }
  split; [eapply series_eq; [| |exact (G 0%nat)]; [intros; cbv beta; cbn [ff]; ring|cbn; ring]|].
  repeat split; [specialize (G 1%nat)|specialize (G 2%nat)|specialize (G 3%nat)|specialize (G 4%nat)]; (eapply series_eq; [| |exact G]; [reflexivity|cbn [ff pow]; fold x; ring]).
Qed.

(** ** Uniform on 0, ..., n *)
Definition unif (n : nat) (k : nat) : R := if (k <=? n)%nat then / (INR n + 1) else 0.
Lemma ff_sum r n : (r <= 4)%nat -> sum_f_R0 (fun k => ff r (INR k)) n = ff (S r) (INR n + 1) / INR (S r).
Proof.
  intros Hr. induction n as [|n IH].
  - destruct r as [|[|[|[|[|r]]]]]; try lia; cbn [sum_f_R0 ff INR]; field.
  - cbn [sum_f_R0]. rewrite IH. rewrite (S_INR n). destruct r as [|[|[|[|[|r]]]]]; try lia; cbn [ff INR]; field.
Qed.
Lemma unif_factorials n : let x := INR n in factorials (unif n) (x / 2) (x * (x - 1) / 3) (x * (x - 1) * (x - 2) / 4) (x * (x - 1) * (x - 2) * (x - 3) / 5).
Proof.
  intros x. pose proof (pos_INR n) as Px. fold x in Px. split; [intros k; unfold unif; destruct (k <=? n)%nat; [left; apply Rinv_0_lt_compat; fold x; lra|lra]|].
  assert (G : forall r, (r <= 4)%nat -> is_series (fun k => unif n k * ff r (INR k)) (ff (S r) (x + 1) / INR (S r) / (x + 1))).
  { intros r Hr. replace (ff (S r) (x + 1) / INR (S r) / (x + 1)) with (sum_f_R0 (fun k => unif n k * ff r (INR k)) n).
    - apply series_finite. intros k Hk. unfold unif. rewrite (proj2 (Nat.leb_gt k n) Hk). ring.
    - unfold x. rewrite <- ff_sum by exact Hr. unfold Rdiv. rewrite Rmult_comm, scal_sum. apply sum_eq. intros i Hi. unfold unif. rewrite (proj2 (Nat.leb_le i n) Hi). ring. }
  split; [eapply series_eq; [| |exact (G 0%nat ltac:(lia))]; [intros; cbv beta; cbn [ff]; ring|cbn [ff INR]; field; lra]|].
  repeat split; [specialize (G 1%nat ltac:(lia))|specialize (G 2%nat ltac:(lia))|specialize (G 3%nat ltac:(lia))|specialize (G 4%nat ltac:(lia))]; (eapply series_eq; [| |exact G]; [reflexivity|cbn [ff INR]; field; lra]).
Qed.
