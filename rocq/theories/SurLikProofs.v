From Verif Require Import SurLikSpec MatProofs MatDotProofs DataProofs LsProofs SurProofs SurProofs2 SurProofs3 SurProofs7 SurFitProofs CorRealProofs.
From Coq Require Import Lia ZifyBool Lra.
Local Open Scope R_scope.

Lemma r_sum_const {A} (l : list A) c f : r_sum (map (fun t => c + f t) l) = INR (length l) * c + r_sum (map f l).
Proof. induction l as [|a l IH]; [cbn; ring|]. cbn [map r_sum length]. rewrite IH, S_INR. ring. Qed.
Lemma r_sum_real {A} (l : list A) c (f : A -> Qc) : r_sum (map (fun t => c * real (f t)) l) = c * real (qsum (map f l)).
Proof. induction l as [|a l IH]; [cbn; rewrite real_0; ring|]. cbn [map r_sum]. rewrite IH. change (qsum (f a :: map f l)) with (f a + qsum (map f l))%Qc. rewrite real_plus. ring. Qed.
Lemma lik_form N m W det e : (0 <= N)%Z -> log_likelihood N m W det e = - (IZR N / 2) * (IZR m * ln (2 * PI) + ln (real det)) - / 2 * real (sys_ssr N m W e).
Proof.
  intros P. unfold log_likelihood, log_density.
  rewrite (map_ext _ (fun t => (- (IZR m / 2) * ln (2 * PI) - / 2 * ln (real det)) + (- / 2) * real (sum_to m (fun i => sum_to m (fun j => W i j * (e t i * e t j)))%Qc))) by (intros; ring).
  rewrite r_sum_const, r_sum_real. rewrite upto_length. rewrite INR_IZR_INZ, Z2Nat.id by auto.
  assert (E : qsum (map (fun t => sum_to m (fun i => sum_to m (fun j => W i j * (e t i * e t j)))%Qc) (upto N)) = sys_ssr N m W e).
  { change (qsum (map ?f (upto N))) with (sum_to N f). rewrite st_swap. apply st_ext. intros i _. rewrite st_swap. apply st_ext. intros j _. apply (st_mul N (W i j)). }
  rewrite E. field.
Qed.
(** The weighted sum of squares with the inverse of the covariances of the residuals is N m. *)
Lemma ssr_trace N m W e : (0 < N)%Z -> (0 <= m)%Z -> inverse_of m (fun i j => cross N e i j / qz N)%Qc W -> sys_ssr N m W e = (qz N * qz m)%Qc.
Proof.
  intros PN Pm I. assert (Nz : qz N <> 0%Qc) by (apply Qc_lt_ne; apply (qz_lt 0); auto).
  unfold sys_ssr. rewrite (st_ext m _ (fun i => qz N * product m W (fun i j => cross N e i j / qz N)%Qc i i)%Qc).
  - rewrite st_mul. f_equal. rewrite (st_ext m _ (fun _ => 1%Qc)).
    + unfold sum_to. rewrite <- (Z2Nat.id m) at 2 by auto. unfold upto. rewrite <- (seq_length (Z.to_nat m) 0) at 2. generalize (seq 0 (Z.to_nat m)). clear. induction l as [|a l IH]; [reflexivity|]. cbn [map length]. change (qsum (1%Qc :: ?t)) with (1 + qsum t)%Qc. rewrite IH. rewrite Nat2Z.inj_succ. unfold Z.succ. rewrite qz_add. change (qz 1) with 1%Qc. ring.
    + intros i Hi. destruct (I i i Hi Hi) as (_ & ->). unfold iden. rewrite Z.eqb_refl. reflexivity.
  - intros i Hi. rewrite product_sum, <- st_mul. apply st_ext. intros j Hj. rewrite (cross_sym N e j i). field. auto.
Qed.
(** The coefficients of the unrestricted estimation are the best for all weights. *)
Lemma ols_any_weights (N m k : Z) W y x b c : (0 < k)%Z -> (0 <= m)%Z -> StatSpec.symmetric m W -> psd m W -> normal N m k y x b -> (sys_ssr N m W (residual k y x b) <= sys_ssr N m W (residual k y x c))%Qc.
Proof.
  intros Pk Pm Sy Ps Nm. set (q := (k * m)%Z).
  assert (H : forall f i j, (0 <= i < k)%Z -> (0 <= j < m)%Z -> restricted k q iden (fun l => f (l mod k)%Z (l / k)%Z) i j = f i j).
  { intros f i j Hi Hj. unfold restricted. assert (Hr : (0 <= j * k + i < q)%Z) by (unfold q; nia). rewrite (st_ext q _ (fun l => if (j * k + i =? l)%Z then f (l mod k)%Z (l / k)%Z else 0%Qc)) by (intros; unfold iden; destruct (_ =? _)%Z; ring).
    rewrite (st_pick q (fun l => f (l mod k)%Z (l / k)%Z) _ Hr). destruct (pair_div j i k Hi) as (-> & ->). reflexivity. }
  assert (Hres : forall f t j, (0 <= j < m)%Z -> residual k y x (restricted k q iden (fun l => f (l mod k)%Z (l / k)%Z)) t j = residual k y x f t j).
  { intros f t j Hj. unfold residual. apply (f_equal (fun z => y t j - z)%Qc). apply st_ext. intros i Hi. rewrite H by auto. reflexivity. }
  assert (Hs : forall f, sys_ssr N m W (residual k y x f) = sys_ssr N m W (residual k y x (restricted k q iden (fun l => f (l mod k)%Z (l / k)%Z)))).
  { intros f. apply st_ext. intros i Hi. apply st_ext. intros j Hj. f_equal. apply st_ext. intros t Ht. rewrite !Hres by auto. reflexivity. }
  rewrite (Hs b), (Hs c). apply gls_min; auto. intros l Hl. unfold grad. rewrite (st_ext m _ (fun _ => 0%Qc)); [apply st_zero|]. intros j' Hj'. rewrite (st_ext m _ (fun _ => 0%Qc)); [apply st_zero|]. intros j Hj.
  rewrite (st_ext k _ (fun _ => 0%Qc)); [rewrite st_zero; ring|]. intros i Hi. rewrite (st_ext N _ (fun t => x t i * residual k y x b t j)%Qc) by (intros; rewrite Hres by auto; reflexivity). rewrite (Nm i j Hi Hj). ring.
Qed.
Lemma lik_best n (v w s t : R) : 0 < n -> 0 < v -> 0 < w -> w = s / n -> s <= t -> - (n / 2) * ln v - / 2 * (t / v) <= - (n / 2) * ln w - / 2 * (s / w).
Proof.
  intros Pn Pv Pw E L. assert (Es : s = w * n) by (rewrite E; field; lra). assert (A : s / w = n) by (rewrite Es; field; lra). rewrite A.
  assert (B : s / v <= t / v) by (apply Rmult_le_compat_r; [left; apply Rinv_0_lt_compat; auto|auto]).
  assert (C : s / v = n * (w / v)) by (rewrite Es; field; lra).
  assert (P : 0 < w / v) by (apply Rmult_lt_0_compat; [auto|apply Rinv_0_lt_compat; auto]).
  assert (D : ln (w / v) <= w / v - 1).
  { assert (G := exp_ineq1_le (ln (w / v))). rewrite exp_ln in G by auto. lra. }
  assert (F : ln (w / v) = ln w - ln v) by (unfold Rdiv; rewrite ln_mult, ln_Rinv; auto; apply Rinv_0_lt_compat; auto). rewrite F in D.
  assert (G : n * (ln w - ln v) <= n * (w / v - 1)) by (apply Rmult_le_compat_l; lra). nra.
Qed.
