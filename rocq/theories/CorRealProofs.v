(** Proofs about CorRealModel. *)
From Coq Require Import Lra.
From Verif Require Import CorRealModel CorRealSpec MatProofs MatProofs2 MatDotProofs MatProofs5 MatProofs6 SplitProofs DataProofs DataProofs2 DescProofs DescProofs2 HistProofs2 StatProofs ColProofs ColProofs2 ColProofs3 CorProofs CorProofs2 CorProofs3.
Local Open Scope Z_scope.

(** ** Rational numbers as real numbers *)
Section Real.
Local Open Scope R_scope.
Lemma real_plus a b : real (a + b)%Qc = real a + real b.
Proof. unfold real. rewrite <- Q2R_plus. apply Qeq_eqR. apply Qred_correct. Qed.
Lemma real_mult a b : real (a * b)%Qc = real a * real b.
Proof. unfold real. rewrite <- Q2R_mult. apply Qeq_eqR. apply Qred_correct. Qed.
Lemma real_opp a : real (- a)%Qc = - real a.
Proof. unfold real. rewrite <- Q2R_opp. apply Qeq_eqR. apply Qred_correct. Qed.
Lemma real_minus a b : real (a - b)%Qc = real a - real b.
Proof. unfold Qcminus. rewrite real_plus, real_opp. reflexivity. Qed.
Lemma real_le a b : (a <= b)%Qc <-> real a <= real b.
Proof. split; intros H; [apply Qle_Rle; exact H|apply Rle_Qle; exact H]. Qed.
Lemma real_lt a b : (a < b)%Qc <-> real a < real b.
Proof. split; intros H; [apply Qlt_Rlt; exact H|apply Rlt_Qlt; exact H]. Qed.
Lemma real_inj a b : real a = real b -> a = b.
Proof. intros H. apply Qc_is_canon. apply eqR_Qeq. exact H. Qed.
Lemma real_z n : real (qz n) = IZR n.
Proof. unfold real, qz. transitivity (Q2R (inject_Z n)); [apply Qeq_eqR, Qred_correct|]. unfold Q2R. cbn. field. Qed.
Lemma real_0 : real 0 = 0. Proof. apply (real_z 0). Qed.
Lemma real_1 : real 1 = 1. Proof. apply (real_z 1). Qed.
Lemma real_div a b : (b <> 0)%Qc -> real (a / b)%Qc = real a / real b.
Proof.
  intros H. assert (N : real b <> 0) by (rewrite <- real_0; intros E; apply H, real_inj; auto).
  assert (E : real a = real (a / b)%Qc * real b) by (rewrite <- real_mult; f_equal; field; auto). rewrite E. field. auto.
Qed.
Definition Rsum (l : list R) : R := fold_right Rplus 0 l.
Lemma real_qsum l : real (qsum l) = Rsum (map real l).
Proof. induction l as [|a t IH]; [apply real_0|]. change (qsum (a :: t)) with (a + qsum t)%Qc. rewrite real_plus, IH. reflexivity. Qed.
Lemma radd_all l : forall a, fold_left radd (map Some l) (Some a) = Some (a + Rsum l).
Proof. induction l as [|x t IH]; intros a; cbn [map fold_left]; [unfold Rsum; cbn [fold_right]; f_equal; ring|]. cbn [radd]. rewrite IH. f_equal. change (Rsum (x :: t)) with (x + Rsum t). ring. Qed.
Lemma radd_none l : fold_left radd l None = None.
Proof. induction l; auto. Qed.
Lemma radd_nan l : In None l -> forall a, fold_left radd l a = None.
Proof.
  induction l as [|x t IH]; intros H a; [destruct H|]. cbn [fold_left]. destruct H as [-> | H]; [|apply IH; auto]. destruct a; cbn; apply radd_none.
Qed.
End Real.

(** ** Constant variables *)
Lemma varies_b l : variesb l = true <-> varies l.
Proof.
  unfold variesb, varies. rewrite existsb_exists. split.
  - intros (x & Hx & E). apply existsb_exists in E. destruct E as (y & Hy & E). exists x, y. repeat split; auto. destruct (qeqb_spec x y); [discriminate|auto].
  - intros (x & y & Hx & Hy & N). exists x. split; auto. apply existsb_exists. exists y. split; auto. destruct (qeqb_spec x y); [contradiction|auto].
Qed.
Lemma dev_zero l : dev 2 l = 0%Qc <-> forall x, In x l -> x = avg l.
Proof.
  rewrite dev2_sum. set (a := avg l). clearbody a. split.
  - intros D x Hx. revert D Hx. induction l as [|y t IH]; [contradiction|]. cbn [map]. change (qsum (?u :: ?w)) with (u + qsum w)%Qc. intros D Hx.
    assert (T : (0 <= qsum (map (fun x => (x - a) * (x - a)) t))%Qc) by (apply qsum_nonneg, Forall_map, Forall_forall; intros; apply sq_nonneg).
    assert (Y := sq_nonneg (y - a)%Qc). destruct Hx as [<-|Hx].
    + assert (Z0 : (y - a = 0)%Qc) by (apply sq_zero; qlra). qlra.
    + apply IH; auto. apply Qcle_antisym; qlra.
  - intros H. induction l as [|y t IH]; [reflexivity|]. cbn [map]. change (qsum (?u :: ?w)) with (u + qsum w)%Qc. rewrite IH by (intros; apply H; right; auto). rewrite (H y) by (left; auto). ring.
Qed.
Lemma dev_varies l : variesb l = negb (qeqb (dev 2 l) 0).
Proof.
  destruct (qeqb_spec (dev 2 l) 0) as [E|E]; cbn [negb].
  - destruct (variesb l) eqn:V; auto. exfalso. apply varies_b in V. destruct V as (x & y & Hx & Hy & N). apply N. rewrite (proj1 (dev_zero l) E x Hx), (proj1 (dev_zero l) E y Hy). auto.
  - destruct (variesb l) eqn:V; auto. exfalso. apply E, dev_zero. intros x Hx.
    assert (C : forall y, In y l -> y = x).
    { intros y Hy. destruct (Qc_eq_dec y x) as [|N]; auto. exfalso. assert (T : variesb l = true) by (apply varies_b; exists y, x; auto). congruence. }
    clear V E. assert (S : qsum l = (qn (length l) * x)%Qc).
    { clear Hx. induction l as [|y t IH]; [change (qsum []) with 0%Qc; change (qn (length (@nil Qc))) with 0%Qc; ring|]. change (qsum (y :: t)) with (y + qsum t)%Qc. rewrite IH by (intros; apply C; right; auto). rewrite (C y) by (left; auto). cbn [length]. rewrite qn_S. ring. }
    assert (NE : l <> []) by (intros ->; destruct Hx). rewrite (qsum_avg l NE) in S. assert (P : (0 < qn (length l))%Qc) by (apply qn_pos; destruct l; [contradiction|cbn; lia]).
    apply Qc_lt_ne in P. symmetry. apply (f_equal (fun z => z / qn (length l))%Qc) in S. unfold Qcdiv in S.
    assert (L : forall z : Qc, (qn (length l) * z * / qn (length l))%Qc = z) by (intros z; field; auto). rewrite !L in S. auto.
Qed.
Lemma dev_pos l : variesb l = true -> (0 < dev 2 l)%Qc.
Proof. intros V. rewrite dev_varies in V. destruct (qeqb_spec (dev 2 l) 0); [discriminate|]. destruct (Qcle_lt_or_eq _ _ (dev2_nonneg l)); auto. congruence. Qed.
Lemma dev_null l : variesb l = false -> dev 2 l = 0%Qc.
Proof. intros V. rewrite dev_varies in V. destruct (qeqb_spec (dev 2 l) 0); [auto|discriminate]. Qed.
Lemma codev_null P : dev 2 (xs P) = 0%Qc \/ dev 2 (ys P) = 0%Qc -> codev P = 0%Qc.
Proof. intros H. pose proof (codev_cs P) as C. apply sq_zero. destruct H as [E|E]; rewrite E in C; rewrite ?Qcmult_0_l, ?Qcmult_0_r in C; auto. Qed.
Lemma cor_value_ok P : cor_value (Some (codev P)) (Some (dev 2 (xs P))) (Some (dev 2 (ys P))) = cor_or_one P.
Proof.
  unfold cor_value, cor_or_one, cor_spec. rewrite !dev_varies. pose proof (codev_null P) as N. destruct (qeqb_spec (dev 2 (xs P)) 0) as [E1|E1], (qeqb_spec (dev 2 (ys P)) 0) as [E2|E2]; cbn [negb orb andb].
  - rewrite N by auto. reflexivity.
  - rewrite andb_false_r. reflexivity.
  - rewrite andb_false_r. reflexivity.
  - rewrite !andb_false_r. reflexivity.
Qed.
(** ** CorrelationColumn *)
Definition sums_of (P : list (Qc * Qc)) : cor_sums := CS (Z.of_nat (length P)) (avg (xs P)) (avg (ys P)) (codev P) (dev 2 (xs P)) (dev 2 (ys P)).
Lemma cor_nan_ok : forall l p, cor_nan l (sums_of p) = sums_of (p ++ pairs_of l).
Proof.
  induction l as [|[[d1|] [d2|]] t IH]; intros p; cbn [cor_nan]; try apply IH; [cbn; rewrite app_nil_r; auto|]. cbv zeta.
  destruct (step_ok (xs p) d1) as (A & A2 & _). destruct (step_ok (ys p) d2) as (B & B2 & _). cbv zeta in A, B, A2, B2. rewrite xs_len in A, A2. rewrite ys_len in B, B2.
  unfold sums_of. cbn [c_n c_mean1 c_mean2 c_m2 c_w1 c_w2]. replace (Z.of_nat (length p) + 1 - 1) with (Z.of_nat (length p)) by lia. change (qz (Z.of_nat (length p))) with (qn (length p)).
  change (xs p ++ [d1]) with (xs p ++ xs [(d1, d2)]) in *. change (ys p ++ [d2]) with (ys p ++ ys [(d1, d2)]) in *. rewrite <- xs_app, <- ys_app in *.
  pose proof (codev_snoc p d1 d2) as C.
  transitivity (cor_nan t (sums_of (p ++ [(d1, d2)]))).
  - f_equal. unfold sums_of. rewrite A2, B2, C, A, B, app_length. cbn [length]. f_equal. lia.
  - rewrite IH. rewrite <- app_assoc. reflexivity.
Qed.
Definition sumsf_of (P : list (Qc * Qc)) : cor_sums_f := CSF (Some (avg (xs P))) (Some (avg (ys P))) (Some (codev P)) (Some (dev 2 (xs P))) (Some (dev 2 (ys P))).
Lemma cor_all_ok : forall l p, cor_all (map (fun ab => (Some (fst ab), Some (snd ab))) l) (Z.of_nat (length p)) (sumsf_of p) = sumsf_of (p ++ l).
Proof.
  induction l as [|[d1 d2] t IH]; intros p; cbn [cor_all map fst snd]; [rewrite app_nil_r; auto|]. cbv zeta.
  destruct (step_ok (xs p) d1) as (A & A2 & _). destruct (step_ok (ys p) d2) as (B & B2 & _). cbv zeta in A, B, A2, B2. rewrite xs_len in A, A2. rewrite ys_len in B, B2.
  unfold sumsf_of. cbn [f_mean1 f_mean2 f_m2 f_w1 f_w2].
  change (Some d1 -f Some ?m) with (Some (d1 - m)%Qc). change (Some d2 -f Some (avg (ys p))) with (Some (d2 - avg (ys p))%Qc). rewrite !fdiv_ok by apply qz_succ.
  change (xs p ++ [d1]) with (xs p ++ xs [(d1, d2)]) in *. change (ys p ++ [d2]) with (ys p ++ ys [(d1, d2)]) in *. rewrite <- xs_app, <- ys_app in *.
  pose proof (codev_snoc p d1 d2) as C.
  transitivity (cor_all (map (fun ab => (Some (fst ab), Some (snd ab))) t) (Z.of_nat (length (p ++ [(d1, d2)]))) (sumsf_of (p ++ [(d1, d2)]))).
  - f_equal; [rewrite app_length; cbn [length]; lia|]. unfold sumsf_of. rewrite A2, B2, C, A, B. reflexivity.
  - rewrite IH. rewrite <- app_assoc. reflexivity.
Qed.
Lemma cor_all_m2 : forall l i a, f_m2 (cor_all l i a) = snd (cov_all l i (f_mean1 a) (f_mean2 a) (f_m2 a)).
Proof. induction l as [|[x y] t IH]; intros i a; [reflexivity|]. cbn [cor_all cov_all]. cbv zeta. rewrite IH. reflexivity. Qed.
