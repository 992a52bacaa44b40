(** Proofs: the differencing polynomial. *)
From Verif Require Import VarmaModel VarmaSpec PolyProofs PolyProofs2 MatProofs VarmaProofs.
From Coq Require Import Lia.
Local Open Scope Qc_scope.

Definition seas (n : nat) : list Qc := 1 :: repeat 0 n ++ [- (1)].
Lemma seas_length n : length (seas n) = (n + 2)%nat.
Proof. unfold seas. cbn [length]. rewrite app_length, repeat_length. cbn. lia. Qed.
Lemma seas_tail_lag n g u : lag_sum (repeat 0 n ++ [- (1)]) g u = - g (u - Z.of_nat n)%Z.
Proof.
  revert u. induction n as [|n IH]; intros u; cbn [repeat app lag_sum]; [replace (u - Z.of_nat 0)%Z with u by lia; ring|]. rewrite IH. replace (u - 1 - Z.of_nat n)%Z with (u - Z.of_nat (S n))%Z by lia. ring.
Qed.
Lemma seas_lag n g u : lag_sum (seas n) g u = diff_by (Z.of_nat n + 1) g u.
Proof. unfold seas, diff_by. cbn [lag_sum]. rewrite seas_tail_lag. replace (u - 1 - Z.of_nat n)%Z with (u - (Z.of_nat n + 1))%Z by lia. ring. Qed.
Lemma seas_tail_eval n x : eval (repeat 0 n ++ [- (1)]) x = - qpow x n.
Proof. induction n as [|n IH]; cbn [repeat app eval qpow]; [ring|]. rewrite IH. ring. Qed.
Lemma seas_eval n x : eval (seas n) x = 1 - qpow x (S n).
Proof. unfold seas. cbn [eval qpow]. rewrite seas_tail_eval. ring. Qed.
Lemma upd_repeat_last (v : Qc) n : upd n v (repeat 0 (S n)) = repeat 0 n ++ [v].
Proof. induction n as [|n IH]; [reflexivity|]. change (repeat 0 (S (S n))) with (0 :: repeat 0 (S n)). cbn [upd]. rewrite IH. reflexivity. Qed.

Lemma pow1_ok d work : (1 <= d)%Z -> (2 * d + 2 <= ti_max)%Z -> (pow_size d 1 ti_max + pow_work d 1 ti_max <= Z.of_nat (length work))%Z ->
  exists r, diff_pow1 d work = Ok r /\ length r = Z.to_nat (d + 1) /\ (forall f t, lag_sum r f t = diff_times (Z.to_nat d) 1 f t) /\ (forall x, eval r x = qpow (1 - x) (Z.to_nat d)).
Proof.
  intros H1 H2 L. assert (S1 : (0 <= pow_size d 1 ti_max)%Z) by (unfold pow_size, ti_max in *; lia). assert (S2 : (0 <= pow_work d 1 ti_max)%Z) by (unfold pow_work, mul_size, pow_size, ti_max in *; lia).
  destruct (pow_val ti_max [1; - (1)] d 1 H1 ltac:(lia) ltac:(reflexivity) ltac:(lia) (piece work 0 (pow_size d 1 ti_max)) (piece work (pow_size d 1 ti_max) (pow_work d 1 ti_max))) as (r & E & ER & EL); try (apply piece_length; lia).
  exists r. split; [exact E|]. split; [rewrite EL; f_equal; lia|]. split; intros; rewrite ER.
  - apply lag_power; [cbn; lia|]. intros g u. apply (seas_lag 0).
  - rewrite eval_power by (cbn; lia). f_equal. cbn [eval]. ring.
Qed.
Lemma pow2_ok D s work p : (1 <= D)%Z -> (1 <= s)%Z -> (0 <= p)%Z -> (s * D + s + 1 <= ti_max)%Z -> (p + (s + 1) + pow_size D s ti_max + pow_work D s ti_max <= Z.of_nat (length work))%Z ->
  exists r, diff_pow2 D s work p = Ok r /\ length r = Z.to_nat (s * D + 1) /\ (forall f t, lag_sum r f t = diff_times (Z.to_nat D) s f t) /\ (forall x, eval r x = qpow (1 - qpow x (Z.to_nat s)) (Z.to_nat D)).
Proof.
  intros H1 H2 Hp H3 L. unfold diff_pow2. revert H3 L. generalize ti_max. intros M H3 L. assert (0 <= s * D)%Z by nia. assert (S1 : (0 <= pow_size D s M)%Z) by (unfold pow_size in *; nia).
  assert (S2 : (0 <= pow_work D s M)%Z) by (unfold pow_work, mul_size, pow_size in *; nia).
  rewrite fill_ok by (rewrite piece_length by lia; lia). cbn [bind].
  assert (E : skipn (Z.to_nat (s + 1)) (piece work p (s + 1)) = []) by (apply skipn_all2; rewrite piece_length by lia; lia). rewrite E, app_nil_r. clear E.
  rewrite wr_ok by (rewrite repeat_length; lia). cbn [bind]. rewrite wr_ok by (rewrite upd_length, repeat_length; lia). cbn [bind].
  set (n := (Z.to_nat s - 1)%nat). assert (EJ : upd (Z.to_nat s) (- (1)) (upd (Z.to_nat 0) 1 (repeat 0 (Z.to_nat (s + 1)))) = seas n).
  { replace (Z.to_nat (s + 1)) with (S (S n)) by (unfold n; lia). replace (Z.to_nat s) with (S n) by (unfold n; lia). change (repeat 0 (S (S n))) with (0 :: repeat 0 (S n)). change (Z.to_nat 0) with 0%nat. cbn [upd]. rewrite upd_repeat_last. reflexivity. }
  rewrite EJ.
  destruct (pow_val M (seas n) D s H1 H2 ltac:(rewrite seas_length; unfold n; lia) ltac:(lia) (piece work (p + (s + 1)) (pow_size D s M)) (piece work (p + (s + 1) + pow_size D s M) (pow_work D s M))) as (r & E & ER & EL); try (apply piece_length; lia).
  exists r. split; [exact E|]. split; [rewrite EL; f_equal; lia|]. split; intros; rewrite ER.
  - apply lag_power; [rewrite seas_length; lia|]. intros g u. rewrite seas_lag. f_equal. unfold n. lia.
  - rewrite eval_power by (rewrite seas_length; lia). f_equal. rewrite seas_eval. do 3 f_equal. unfold n. lia.
Qed.
Lemma expand_diff_ok d D s work : (0 <= d)%Z -> (0 <= D)%Z -> (D = 0 \/ 1 <= s)%Z -> ~ (d = 0 /\ D = 0)%Z -> (2 * d + s * D + s + 2 <= ti_max)%Z -> (0 <= s)%Z -> (expand_diff_ws d D s <= Z.of_nat (length work))%Z ->
  exists r, expand_diff d D s work = Ok r /\ length r = Z.to_nat (d + s * D + 1) /\
    (forall f t, lag_sum r f t = diff_times (Z.to_nat d) 1 (diff_times (Z.to_nat D) s f) t) /\
    (forall x, eval r x = qpow (1 - x) (Z.to_nat d) * qpow (1 - qpow x (Z.to_nat s)) (Z.to_nat D)).
Proof.
  intros Hd HD Hs HN HM S0 L. unfold expand_diff_ws in L. unfold expand_diff.
  assert (SD : (0 <= s * D)%Z) by nia.
  assert (EP1 : pow_size d 1 ti_max = (d + 1)%Z) by (unfold pow_size; lia).
  assert (EW1 : pow_work d 1 ti_max = (d + 2)%Z) by (unfold pow_work, mul_size; rewrite EP1; lia).
  assert (EP2 : pow_size D s ti_max = (s * D + 1)%Z) by (unfold pow_size; lia).
  assert (EW2 : pow_work D s ti_max = (s * D + s + 1)%Z) by (unfold pow_work, mul_size; rewrite EP2; lia).
  assert (EM : mul_size (pow_size d 1 ti_max - 1) (pow_size D s ti_max - 1) ti_max = (d + s * D + 1)%Z) by (rewrite EP1, EP2; unfold mul_size; lia).
  destruct (Z.eqb_spec d 0) as [-> |Nd]; destruct (Z.eqb_spec D 0) as [-> |ND]; cbn [andb orb] in L.
  - lia.
  - destruct (pow2_ok D s work 0) as (r & E & EL & ES & EV); try lia. exists r. split; auto. split; [rewrite EL; f_equal; lia|]. split; auto. intros x. rewrite EV. cbn [Z.to_nat qpow]. ring.
  - destruct (pow1_ok d work) as (r & E & EL & ES & EV); try lia. rewrite E. cbn [bind]. exists r. split; auto. split; [rewrite EL; f_equal; lia|]. split; auto. intros x. rewrite EV. change (Z.to_nat 0) with 0%nat. cbn [qpow]. ring.
  - destruct (pow1_ok d work) as (a & E1 & EL1 & ES1 & EV1); try lia. rewrite E1. cbn [bind].
    destruct (pow2_ok D s work (pow_size d 1 ti_max + pow_work d 1 ti_max)) as (b & E2 & EL2 & ES2 & EV2); try lia. rewrite E2. cbn [bind].
    assert (LA : (1 <= length a)%nat) by lia. assert (LB : (1 <= length b)%nat) by lia.
    set (ms := mul_size (pow_size d 1 ti_max - 1) (pow_size D s ti_max - 1) ti_max) in *.
    assert (EN : ms = Z.of_nat (length a + length b - 1)) by lia.
    rewrite (mul_calc_ok _ a b _ ti_max (length a + length b - 1)); auto; try (unfold mul_size, degree, ti_max in *; lia).
    + cbn [bind fst snd]. rewrite Nat2Z.id, firstn_trunc_app. eexists. split; [reflexivity|]. split; [rewrite truncated_length; lia|]. split.
      * intros f t. rewrite lag_product by auto. rewrite ES1. clear - ES2. generalize (Z.to_nat d). intros n. revert t. induction n as [|n IH]; intros t; cbn [diff_times]; auto. unfold diff_by. rewrite !IH. auto.
      * intros x. rewrite eval_product by auto. rewrite EV1, EV2. auto.
    + rewrite piece_length; lia.
Qed.
