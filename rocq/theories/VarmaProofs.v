(** Proofs: lags and differencing polynomial. *)
From Verif Require Import VarmaModel VarmaSpec PolyProofs PolyProofs2 MatProofs.
From Coq Require Import Lia.
Local Open Scope Z_scope.

Lemma seasonal_loop_ok s P : 0 < s -> forall n a, Z.of_nat n = P - a + 1 -> seasonal_loop n (s * a) s (s * P) = Ok (map (fun k => s * k) (zrange a (Z.of_nat n))).
Proof.
  intros Hs. induction n as [|n IH]; intros a E.
  - cbn [seasonal_loop]. destruct (Z.leb_spec (s * a) (s * P)); [nia|]. reflexivity.
  - cbn [seasonal_loop]. destruct (Z.leb_spec (s * a) (s * P)); [|nia]. replace (s * a + s) with (s * (a + 1)) by ring. rewrite IH by lia. cbn [bind].
    f_equal. unfold zrange. rewrite !Nat2Z.id. cbn [seq map]. rewrite Z.add_0_r. f_equal. rewrite <- seq_shift, !map_map. apply map_ext. intros k. f_equal. lia.
Qed.
Lemma expand_poly_ok p P s : 0 <= p -> 0 <= P -> (0 < s \/ s = 0 /\ P = 0) -> expand_poly p P s = Ok (zrange 1 p ++ map (fun k => s * k) (zrange 1 P)).
Proof.
  intros Hp HP Hs. unfold expand_poly. destruct ((p =? 0) && (P =? 0)) eqn:E.
  - assert (p = 0) as -> by lia. assert (P = 0) as -> by lia. reflexivity.
  - destruct (Z.ltb_spec 0 s).
    + replace (seasonal_loop _ s s (s * P)) with (seasonal_loop (Z.to_nat P) (s * 1) s (s * P)) by (f_equal; ring). rewrite seasonal_loop_ok by lia. cbn [bind]. rewrite Z2Nat.id by lia. reflexivity.
    + destruct Hs as [Hs|[-> ->]]; [lia|]. reflexivity.
Qed.
Definition lags_of (p P s : Z) : list Z := zrange 1 p ++ map (fun k => s * k) (zrange 1 P).
Lemma lags_in p P s l : In l (lags_of p P s) <-> is_lag p P s l.
Proof.
  unfold lags_of, is_lag. rewrite in_app_iff, in_zrange, in_map_iff. split.
  - intros [H|(k & <- & H)]; [left; lia|]. apply in_zrange in H. right. exists k. split; auto; lia.
  - intros [H|(k & H & ->)]; [left; lia|]. right. exists k. split; auto. apply in_zrange. lia.
Qed.
Lemma lags_length p P s : 0 <= p -> 0 <= P -> Z.of_nat (length (lags_of p P s)) = p + P.
Proof. intros. unfold lags_of. rewrite app_length, map_length, !zrange_length. lia. Qed.
Lemma last_app_ne (l t : list Z) : t <> [] -> last_lag (l ++ t) = last_lag t.
Proof.
  intros H. unfold last_lag. rewrite app_length. assert (length t <> 0)%nat by (destruct t; [congruence|cbn; lia]).
  destruct (Nat.eqb_spec (length l + length t) 0); [lia|]. destruct (Nat.eqb_spec (length t) 0); [lia|]. rewrite app_nth2 by lia. f_equal. lia.
Qed.
Lemma last_map (f : Z -> Z) n : 0 < n -> last_lag (map f (zrange 1 n)) = f n.
Proof.
  intros H. unfold last_lag. rewrite map_length, zrange_length. destruct (Nat.eqb_spec (Z.to_nat n) 0); [lia|].
  rewrite (nth_indep _ 0 (f 0)) by (rewrite map_length, zrange_length; lia). rewrite map_nth. f_equal. apply nth_error_nth. rewrite zrange_nth by lia. f_equal. lia.
Qed.
Lemma last_lags p P s : 0 <= p -> 0 <= P -> last_lag (lags_of p P s) = if P =? 0 then p else s * P.
Proof.
  intros Hp HP. unfold lags_of. destruct (Z.eqb_spec P 0) as [-> |N].
  - cbn [map]. change (zrange 1 0) with (@nil Z). cbn [map]. rewrite app_nil_r. destruct (Z.eq_dec p 0) as [-> |]; [reflexivity|]. rewrite <- (map_id (zrange 1 p)). rewrite (last_map (fun x => x)) by lia. auto.
  - rewrite last_app_ne; [apply last_map; lia|]. intros E. apply (f_equal (@length Z)) in E. rewrite map_length, zrange_length in E. cbn in E. lia.
Qed.

Lemma zrange_sorted a : forall n, StronglySorted Z.lt (map (fun k => a + Z.of_nat k) (seq 0 n)).
Proof.
  intros n. revert a. induction n as [|n IH]; intros a; [constructor|]. cbn [seq map]. rewrite <- seq_shift, map_map. constructor.
  - specialize (IH (a + 1)). erewrite map_ext; [apply IH|]. intros k. cbn beta. lia.
  - apply Forall_forall. intros x H. apply in_map_iff in H as (k & <- & _). lia.
Qed.
Lemma sorted_map (f : Z -> Z) l : (forall a b, a < b -> f a < f b) -> StronglySorted Z.lt l -> StronglySorted Z.lt (map f l).
Proof. intros H. induction 1 as [|a l S IH F]; cbn; constructor; auto. apply Forall_map. eapply Forall_impl; [|exact F]. cbn. auto. Qed.
Lemma sorted_app (l1 l2 : list Z) : StronglySorted Z.lt l1 -> StronglySorted Z.lt l2 -> (forall a b, In a l1 -> In b l2 -> a < b) -> StronglySorted Z.lt (l1 ++ l2).
Proof.
  induction 1 as [|a l S IH F]; intros H2 H; auto. cbn. constructor; [apply IH; auto; intros; apply H; cbn; auto|].
  apply Forall_app. split; auto. apply Forall_forall. intros b Hb. apply H; cbn; auto.
Qed.
Lemma lags_sorted p P s : 0 < s -> (p < s \/ P = 0) -> StronglySorted Z.lt (lags_of p P s).
Proof.
  intros Hs H. unfold lags_of. apply sorted_app; [apply zrange_sorted|apply sorted_map; [intros; nia|apply zrange_sorted]|].
  intros a b Ha Hb. apply in_zrange in Ha. apply in_map_iff in Hb as (k & <- & Hk). apply in_zrange in Hk. nia.
Qed.
Lemma lags_dup p P s : 2 <= s <= p -> 1 <= P -> ~ NoDup (lags_of p P s).
Proof.
  intros H1 H2 N. unfold lags_of in N. assert (A : In s (zrange 1 p)) by (apply in_zrange; lia). assert (B : In s (map (fun k => s * k) (zrange 1 P))) by (apply in_map_iff; exists 1; split; [lia|apply in_zrange; lia]).
  apply in_split in A as (u & v & E). rewrite E in N. rewrite <- app_assoc in N. cbn in N. apply NoDup_remove_2 in N. apply N. rewrite !in_app_iff. auto.
Qed.

(** ** Differencing polynomial *)
Local Open Scope Qc_scope.
Lemma piece_length {A} (w : list A) p n : (0 <= p)%Z -> (0 <= n)%Z -> (p + n <= Z.of_nat (length w))%Z -> length (piece w p n) = Z.to_nat n.
Proof. intros. unfold piece. rewrite firstn_length, skipn_length. lia. Qed.
Lemma pow_val (M : Z) (a : list Qc) (p : Z) n : (1 <= p)%Z -> (1 <= n)%Z -> length a = Z.to_nat (n + 1) -> (p * n + n + 1 <= M)%Z ->
  forall st wk, length st = Z.to_nat (pow_size p n M) -> length wk = Z.to_nat (pow_work p n M) ->
  exists r, pow_calc (pow_size p n M) (pow_work p n M) a (Z.to_nat p) st wk M = Ok r /\
    r = truncated (Z.to_nat p * (length a - 1) + 1) (power (coef a) (Z.to_nat p)) /\ length r = Z.to_nat (p * n + 1).
Proof.
  intros HP HN LA HM st wk L1 L2. assert (E1 : pow_size p n M = (p * n + 1)%Z) by (unfold pow_size; nia). assert (E2 : pow_work p n M = (p * n + n + 1)%Z) by (unfold pow_work, mul_size; rewrite E1; nia).
  assert (DG : degree a = n) by (unfold degree; lia). assert (PN : (0 <= p * n)%Z) by nia. rewrite E1, E2 in *.
  assert (K : (Z.to_nat p * (length a - 1) + 1)%nat = Z.to_nat (p * n + 1)). { rewrite LA. replace (Z.to_nat (n + 1) - 1)%nat with (Z.to_nat n) by lia. rewrite <- Z2Nat.inj_mul by lia. lia. }
  eexists. split; [|split].
  - apply (pow_calc_ok _ _ a (Z.to_nat p) st wk M (Z.to_nat (p * n + 1)) (Z.to_nat (p * n + n + 1))); rewrite ?DG, ?Z2Nat.id by lia; try lia; try (right; rewrite LA; nia).
  - rewrite K. auto.
  - rewrite truncated_length. auto.
Qed.
Lemma fill_len v n (d d' : list Qc) : fill v n d = Ok d' -> length d = n -> d' = repeat v n.
Proof.
  revert n d'. induction d as [|x d IH]; intros n d' E L; cbn in L; subst n; cbn in E; [injection E as <-; auto|]. destruct (fill v (length d) d) as [t| |] eqn:F; try discriminate. injection E as <-. cbn. f_equal. apply IH; auto.
Qed.
Lemma lag_sum_ext c f g t : (forall u, f u = g u) -> lag_sum c f t = lag_sum c g t.
Proof. intros H. revert t. induction c as [|x c IH]; intros t; cbn; auto. rewrite H, IH. auto. Qed.
Lemma lag_sum_sumn c f t : forall n, (length c <= n)%nat -> lag_sum c f t = sumn (fun k => coef c k * f (t - Z.of_nat k)%Z) n.
Proof.
  revert t. induction c as [|x c IH]; intros t n H; [symmetry; apply sumn_zero; intros; unfold coef; rewrite nth_overflow by (cbn; lia); ring|].
  destruct n as [|n]; [cbn in H; lia|]. rewrite sumn_front. cbn [lag_sum]. rewrite (IH _ n) by (cbn in H; lia). change (coef (x :: c) 0) with x. replace (t - Z.of_nat 0)%Z with t by lia. f_equal.
  apply sumn_ext. intros i Hi. replace (t - 1 - Z.of_nat i)%Z with (t - Z.of_nat (S i))%Z by lia. reflexivity.
Qed.
Lemma lag_sum_scale x c f t : lag_sum (map (fun y => x * y) c) f t = x * lag_sum c f t.
Proof. revert t. induction c as [|y c IH]; intros t; cbn; [ring|]. rewrite IH. ring. Qed.
(** The product of lag polynomials is their composition. *)
Lemma lag_conv b f : forall a n t, (length a + length b <= n)%nat -> sumn (fun k => conv (coef a) (coef b) k * f (t - Z.of_nat k)%Z) n = lag_sum a (lag_sum b f) t.
Proof.
  induction a as [|c a IH]; intros n t H.
  - cbn [lag_sum]. apply sumn_zero. intros i Hi. rewrite conv_zero_l; [ring|]. intros j. apply coef_out. cbn. lia.
  - destruct n as [|n]; [cbn in H; lia|].
    assert (E : forall k, conv (coef (c :: a)) (coef b) k * f (t - Z.of_nat k)%Z = c * (coef b k * f (t - Z.of_nat k)%Z) + match k with O => 0 | S k' => conv (coef a) (coef b) k' * f (t - 1 - Z.of_nat k')%Z end).
    { intros k. rewrite conv_sumn, sumn_front. rewrite Nat.sub_0_r. destruct k as [|k]; [rewrite sumn_0; unfold coef; cbn [nth]; ring|]. replace (t - 1 - Z.of_nat k)%Z with (t - Z.of_nat (S k))%Z by lia. rewrite conv_sumn. change (coef (c :: a) 0) with c.
      replace (sumn (fun k0 => coef (c :: a) (S k0) * coef b (S k - S k0)) (S k)) with (sumn (fun i => coef a i * coef b (k - i)) (S k)) by (apply sumn_ext; intros; reflexivity). ring. }
    rewrite (sumn_ext _ _ _ (fun k _ => E k)), sumn_add, sumn_mul, <- lag_sum_sumn by (cbn in H; lia). cbn [lag_sum]. f_equal. rewrite sumn_front. rewrite (IH n (t - 1)%Z) by (cbn in H; lia). ring.
Qed.
Lemma lag_product a b f t : (1 <= length a)%nat -> (1 <= length b)%nat -> lag_sum (truncated (length a + length b - 1) (conv (coef a) (coef b))) f t = lag_sum a (lag_sum b f) t.
Proof.
  intros LA LB. rewrite (lag_sum_sumn _ _ _ (length a + length b)) by (rewrite truncated_length; lia). rewrite <- (lag_conv b f a (length a + length b)) by auto. apply sumn_ext. intros k Hk. f_equal. apply coef_trunc.
  intros i Hi. apply (conv_beyond _ _ (length a - 1) (length b - 1)); try (intros; apply coef_out); lia.
Qed.
Lemma lag_one f t : lag_sum [1] f t = f t.
Proof. cbn. ring. Qed.
Lemma lag_power a s f t : (1 <= length a)%nat -> (forall g u, lag_sum a g u = diff_by s g u) -> forall p, lag_sum (truncated (p * (length a - 1) + 1) (power (coef a) p)) f t = diff_times p s f t.
Proof.
  intros LA HA p. revert t. induction p as [|p IH]; intros t; [cbn; unfold one; ring|]. cbn [power diff_times]. rewrite <- HA. set (q := truncated (p * (length a - 1) + 1) (power (coef a) p)) in *.
  assert (LQ : length q = (p * (length a - 1) + 1)%nat) by (unfold q; apply truncated_length).
  assert (L1 : (1 <= length q)%nat) by (rewrite LQ, Nat.add_1_r; apply le_n_S, Nat.le_0_l).
  rewrite (lag_sum_ext a _ (lag_sum q f)) by (intros; symmetry; apply IH).
  rewrite <- lag_product by auto. rewrite LQ. replace (length a + (p * (length a - 1) + 1) - 1)%nat with (S p * (length a - 1) + 1)%nat by (cbn [Nat.mul]; generalize (p * (length a - 1))%nat; lia).
  f_equal. apply truncated_ext. intros k Hk. apply conv_ext; auto. intros i Hi. symmetry. apply coef_trunc. intros j Hj. apply (power_beyond a (length a - 1)); [lia|]. revert Hj. generalize (p * (length a - 1))%nat. lia.
Qed.
