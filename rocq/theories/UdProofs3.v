(** Sums of probabilities and the incomplete gamma and beta functions. *)
From Coq Require Import Reals Lra Lia ZArith.
From Coquelicot Require Import Coquelicot.
From Verif Require Import UdModel UdSpec UdProofs UdProofs2.
Local Open Scope R_scope.

(** Functions with the same derivative in an interval differ by a constant. *)
Lemma same_derive (f g df : R -> R) (l u x y : R) : (forall t, l < t < u -> is_derive f t (df t)) -> (forall t, l < t < u -> is_derive g t (df t)) -> l < x < u -> l < y < u -> f x - g x = f y - g y.
Proof.
  intros Hf Hg Hx Hy. assert (D : forall t, l < t < u -> is_derive (fun t => f t - g t) t 0).
  { intros t Ht. replace 0 with (df t - df t) by ring. apply (is_derive_minus f g); auto. }
  assert (M : forall a b, l < a < u -> l < b < u -> a < b -> f a - g a = f b - g b).
  { intros a b Ha Hb L. destruct (MVT_gen (fun t => f t - g t) a b (fun _ => 0)) as (c & _ & E).
    - intros t Ht. rewrite Rmin_left, Rmax_right in Ht by lra. apply D. lra.
    - intros t Ht. rewrite Rmin_left, Rmax_right in Ht by lra. apply continuity_pt_filterlim. apply (ex_derive_continuous (fun t => f t - g t)). exists 0. apply D. lra.
    - cbv beta in E. lra. }
  destruct (Rtotal_order x y) as [L|[->|L]]; [apply M; auto|reflexivity|symmetry; apply M; auto].
Qed.
(** A function which is constant to the right of a point has this limit there. *)
Lemma right_const (h : R -> R) (l u v w : R) : l < u -> (forall t, l < t < u -> h t = v) -> filterlim h (at_right l) (locally w) -> v = w.
Proof.
  intros Hlu H Hw. assert (Hv : filterlim h (at_right l) (locally v)).
  { apply (filterlim_ext_loc (fun _ => v)); [|apply filterlim_const]. exists (mkposreal (u - l) ltac:(lra)). intros t Ht Hlt. symmetry. apply H. unfold ball in Ht. cbn in Ht. unfold AbsRing_ball, abs, minus, plus, opp in Ht. cbn in Ht. apply Rabs_def2 in Ht. lra. }
  exact (filterlim_locally_unique _ _ _ Hv Hw).
Qed.
Lemma right_of (h : R -> R) (l : R) : continuous h l -> filterlim h (at_right l) (locally (h l)).
Proof. intros H P HP. specialize (H P HP). destruct H as [e He]. exists e. intros y Hy _. apply He. exact Hy. Qed.
Lemma left_of (h : R -> R) (l : R) : continuous h l -> filterlim h (at_left l) (locally (h l)).
Proof. intros H P HP. specialize (H P HP). destruct H as [e He]. exists e. intros y Hy _. apply He. exact Hy. Qed.
Lemma rpower_nat x n : 0 < x -> Rpower x (INR n) = x ^ n.
Proof. apply Rpower_pow. Qed.

(** ** Poisson *)
Definition pois_sum_upto (n : nat) (y : R) : R := sum_f_R0 (fun k => pois y k) n.
Lemma pois_derive n (y : R) : is_derive (pois_sum_upto n) y (- (y ^ n * exp (- y) / INR (fact n))).
Proof.
  induction n as [|n IH].
  - unfold pois_sum_upto. cbn [sum_f_R0]. unfold pois. cbn [pow fact INR]. auto_derive; [trivial|]. field.
  - assert (E : forall t, pois_sum_upto n t + pois t (S n) = pois_sum_upto (S n) t) by reflexivity. apply (is_derive_ext _ _ _ _ E).
    replace (- (y ^ S n * exp (- y) / INR (fact (S n)))) with (- (y ^ n * exp (- y) / INR (fact n)) + (y ^ n * exp (- y) / INR (fact n) - y ^ S n * exp (- y) / INR (fact (S n)))) by ring.
    apply (is_derive_plus (K := R_AbsRing) (V := R_NormedModule)); [exact IH|]. unfold pois. auto_derive; [trivial|]. change (fact n + n * fact n)%nat with (fact (S n)). change (match n with O => 1 | S _ => INR n + 1 end) with (INR (S n)). rewrite !fact_simpl, !mult_INR. pose proof (INR_fact_neq_0 n). assert (INR (S n) <> 0) by (apply not_0_INR; discriminate). cbn [pow]. field. auto.
Qed.
Lemma pois_gamma (P : R -> R) n y : incomplete_gamma P (INR n + 1) (INR (fact n)) -> 0 < y -> 1 - P y = pois_sum_upto n y.
Proof.
  intros (P0 & PL & PD & _) Hy. assert (D : forall t, 0 < t -> is_derive (fun t => 1 - pois_sum_upto n t) t (Rpower t (INR n + 1 - 1) * exp (- t) / INR (fact n))).
  { intros t Ht. replace (INR n + 1 - 1) with (INR n) by ring. rewrite rpower_nat by exact Ht. replace (t ^ n * exp (- t) / INR (fact n)) with (0 - - (t ^ n * exp (- t) / INR (fact n))) by ring.
    apply (is_derive_minus (fun _ => 1)); [apply (is_derive_const (K := R_AbsRing) (V := R_NormedModule))|apply pois_derive]. }
  assert (C0 : filterlim (fun t => P t - (1 - pois_sum_upto n t)) (at_right 0) (locally (0 - (1 - pois_sum_upto n 0)))).
  { apply (filterlim_comp_2 (G := locally 0) (H := locally (1 - pois_sum_upto n 0)) P (fun t => 1 - pois_sum_upto n t) Rminus).
    - exact PL.
    - apply (right_of (fun t => 1 - pois_sum_upto n t)). apply (continuous_minus (fun _ => 1)); [apply continuous_const|]. apply (ex_derive_continuous (pois_sum_upto n)). eexists. apply pois_derive.
    - apply (filterlim_plus 0 (- (1 - pois_sum_upto n 0))) || idtac. unfold Rminus at 1. apply (filterlim_comp_2 (G := locally 0) (H := locally (- (1 - pois_sum_upto n 0))) fst (fun p => - snd p) Rplus); [apply filterlim_fst| |apply (filterlim_plus (V := R_NormedModule) 0 (- (1 - pois_sum_upto n 0)))].
      apply (filterlim_comp _ _ _ snd Ropp _ (locally (1 - pois_sum_upto n 0))); [apply filterlim_snd|apply (filterlim_opp (V := R_NormedModule) (1 - pois_sum_upto n 0))]. }
  assert (S0 : pois_sum_upto n 0 = 1).
  { unfold pois_sum_upto. clear. induction n as [|n IH]; cbn [sum_f_R0]; [unfold pois; cbn; rewrite Ropp_0, exp_0; field|]. rewrite IH. unfold pois. rewrite pow_i by lia. unfold Rdiv. ring. }
  rewrite S0 in C0. assert (E : P y - (1 - pois_sum_upto n y) = 0 - (1 - 1)).
  { apply (right_const (fun t => P t - (1 - pois_sum_upto n t)) 0 (y + 1)); [lra| |exact C0]. intros t Ht.
    apply (same_derive P (fun t => 1 - pois_sum_upto n t) (fun t => Rpower t (INR n + 1 - 1) * exp (- t) / INR (fact n)) 0 (y + 1)); try lra; intros u Hu; [apply PD|apply D]; lra. }
  lra.
Qed.

(** ** Binomial: as a function of q = 1 - p *)
Definition bino_sum_upto (n m : nat) (q : R) : R := sum_f_R0 (fun k => bino n (1 - q) k) m.
Lemma bino_derive n m (q : R) : (m < n)%nat -> is_derive (bino_sum_upto n m) q (INR (fact n) / (INR (fact (n - m - 1)) * INR (fact m)) * (q ^ (n - m - 1) * (1 - q) ^ m)).
Proof.
  intros Hm. induction m as [|m IH].
  { unfold bino_sum_upto. cbn [sum_f_R0]. unfold bino. cbn [Nat.leb]. unfold Binomial.C. rewrite Nat.sub_0_r. destruct n as [|n]; [lia|]. replace (S n - 1)%nat with n by lia. auto_derive; [trivial|]. change (pred (S n)) with n. rewrite (fact_simpl n), mult_INR. cbn [fact pow INR]. pose proof (INR_fact_neq_0 n). replace (1 + - (1 + - q)) with q by ring.
    assert (INR (S n) <> 0) by (apply not_0_INR; discriminate). destruct n as [|n]; [cbn; field|]. change (fact (S n) + S n * fact (S n))%nat with (fact (S (S n))). pose proof (INR_fact_neq_0 (S (S n))). field. split; auto. }
  { assert (E : forall t, bino_sum_upto n m t + bino n (1 - t) (S m) = bino_sum_upto n (S m) t) by reflexivity. apply (is_derive_ext _ _ _ _ E). clear E.
    specialize (IH ltac:(lia)). replace (n - m - 1)%nat with (S (n - S m - 1)) in IH by lia. set (j := (n - S m - 1)%nat) in *.
    replace (INR (fact n) / (INR (fact j) * INR (fact (S m))) * (q ^ j * (1 - q) ^ S m)) with
      (INR (fact n) / (INR (fact (S j)) * INR (fact m)) * (q ^ S j * (1 - q) ^ m) + (INR (fact n) / (INR (fact j) * INR (fact (S m))) * (q ^ j * (1 - q) ^ S m) - INR (fact n) / (INR (fact (S j)) * INR (fact m)) * (q ^ S j * (1 - q) ^ m))) by ring.
    apply (is_derive_plus (K := R_AbsRing) (V := R_NormedModule)); [exact IH|]. unfold bino. replace (S m <=? n)%nat with true by (symmetry; apply Nat.leb_le; lia). unfold Binomial.C. replace (n - S m)%nat with (S j) by (unfold j; lia).
    assert (EK : INR (fact n) / (INR (fact j) * INR (fact (S m))) = INR (S j) * (INR (fact n) / (INR (fact (S m)) * INR (fact (S j)))) /\ INR (fact n) / (INR (fact (S j)) * INR (fact m)) = INR (S m) * (INR (fact n) / (INR (fact (S m)) * INR (fact (S j))))).
    { rewrite (fact_simpl m), (fact_simpl j), !mult_INR. pose proof (INR_fact_neq_0 m). pose proof (INR_fact_neq_0 j). assert (INR (S m) <> 0) by (apply not_0_INR; discriminate). assert (INR (S j) <> 0) by (apply not_0_INR; discriminate). split; field; auto. }
    destruct EK as [E1 E2]. rewrite E1, E2. generalize (INR (fact n) / (INR (fact (S m)) * INR (fact (S j)))). clear. intros K.
    auto_derive; [trivial|]. change (match m with O => 1 | S _ => INR m + 1 end) with (INR (S m)). change (match j with O => 1 | S _ => INR j + 1 end) with (INR (S j)).
    replace (1 + - (1 + - q)) with q by ring. unfold Rminus. cbn [pow]. generalize ((1 + - q) ^ m), (q ^ j), (INR (S m)), (INR (S j)). intros. ring. }
Qed.

Lemma minus_lim (f g : R -> R) (F : (R -> Prop) -> Prop) {FF : Filter F} (a b : R) : filterlim f F (locally a) -> filterlim g F (locally b) -> filterlim (fun t => f t - g t) F (locally (a - b)).
Proof.
  intros Hf Hg. apply (filterlim_comp_2 (G := locally a) (H := locally (- b)) f (fun t => - g t) Rplus); [exact Hf| |apply (filterlim_plus (V := R_NormedModule) a (- b))].
  apply (filterlim_comp _ _ _ g Ropp _ (locally b)); [exact Hg|apply (filterlim_opp (V := R_NormedModule) b)].
Qed.
Lemma bino_beta (I : R -> R) n m q : (m < n)%nat -> incomplete_beta I (INR (n - m)) (INR m + 1) (INR (fact (n - m - 1)) * INR (fact m) / INR (fact n)) -> 0 < q < 1 -> I q = bino_sum_upto n m q.
Proof.
  intros Hm (I0 & _ & IL & _ & ID) Hq.
  assert (B0 : bino_sum_upto n m 0 = 0).
  { unfold bino_sum_upto. clear - Hm. induction m as [|m IH]; cbn [sum_f_R0].
    - unfold bino. cbn [Nat.leb]. replace (1 - (1 - 0)) with 0 by ring. rewrite pow_i by lia. ring.
    - rewrite IH by lia. unfold bino. replace (1 - (1 - 0)) with 0 by ring. destruct (S m <=? n)%nat eqn:E; [|ring]. rewrite (pow_i (n - S m)) by lia. ring. }
  assert (L : filterlim (fun t => I t - bino_sum_upto n m t) (at_right 0) (locally (0 - 0))).
  { apply minus_lim; [apply at_right_proper_filter|exact IL|]. rewrite <- B0 at 2. apply (right_of (bino_sum_upto n m)). apply (ex_derive_continuous (bino_sum_upto n m)). eexists. apply bino_derive. exact Hm. }
  assert (E : I q - bino_sum_upto n m q = 0 - 0).
  { apply (right_const (fun t => I t - bino_sum_upto n m t) 0 1); [lra| |exact L]. intros t Ht.
    apply (same_derive I (bino_sum_upto n m) (fun t => Rpower t (INR (n - m) - 1) * Rpower (1 - t) (INR m + 1 - 1) / (INR (fact (n - m - 1)) * INR (fact m) / INR (fact n))) 0 1); try lra; intros u Hu; [apply ID; exact Hu|].
    replace (Rpower u (INR (n - m) - 1) * Rpower (1 - u) (INR m + 1 - 1) / (INR (fact (n - m - 1)) * INR (fact m) / INR (fact n))) with (INR (fact n) / (INR (fact (n - m - 1)) * INR (fact m)) * (u ^ (n - m - 1) * (1 - u) ^ m)); [apply bino_derive; exact Hm|].
    replace (INR (n - m) - 1) with (INR (n - m - 1)) by (rewrite (minus_INR (n - m) 1) by lia; reflexivity). replace (INR m + 1 - 1) with (INR m) by ring. rewrite !rpower_nat by lra. field. repeat split; apply INR_fact_neq_0. }
  lra.
Qed.
(** ** The other sums *)
Lemma geo_sum p n : sum_f_R0 (geo p) n = 1 - (1 - p) ^ S n.
Proof. induction n as [|n IH]; cbn [sum_f_R0]; [unfold geo; cbn; ring|]. rewrite IH. unfold geo. cbn [pow]. ring. Qed.
Lemma unif_sum n m : (m <= n)%nat -> sum_f_R0 (unif n) m = (INR m + 1) / (INR n + 1).
Proof.
  intros H. induction m as [|m IH]; cbn [sum_f_R0].
  - unfold unif. cbn [Nat.leb INR]. field. pose proof (pos_INR n). lra.
  - rewrite IH by lia. unfold unif. rewrite (proj2 (Nat.leb_le (S m) n) H). rewrite S_INR. field. pose proof (pos_INR n). lra.
Qed.
