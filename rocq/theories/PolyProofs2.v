(** Powers, values and trimming: proofs. *)
From Verif Require Import PolyModel PolySpec MatProofs SplitProofs SplitProofs4 MatProofs6 PolyProofs.
From Coq Require Import Lia.
Local Open Scope Qc_scope.

Lemma mul_calc_len size a b storage max n d : mul_size (degree a) (degree b) max = Z.of_nat n -> (Z.of_nat n <= size)%Z -> (n <= length storage)%nat ->
  mul_calc size a b storage max = Ok (d, Z.of_nat n) -> length d = length storage.
Proof. intros E S L. rewrite (mul_calc_ok _ _ _ _ _ n) by auto. intros [= <-]. rewrite app_length, truncated_length, skipn_length. lia. Qed.

(** Copy of the first [n] elements. *)
Lemma copy_ok {A} (src d : list A) n : (n <= length src)%nat -> (n <= length d)%nat ->
  writes (map (fun i => (i, rd src i)) (zrange 0 (Z.of_nat n))) d = Ok (firstn n src ++ skipn n d).
Proof.
  intros H1 H2. rewrite zrange_seq, map_map.
  destruct (writes_fun (fun z => nth_error src (Z.to_nat z)) (map (fun x => (Z.of_nat x, rd src (Z.of_nat x))) (seq 0 n)) d) as (d' & E & L & N).
  - intros p e H. apply in_map_iff in H as (x & [= <- <-] & Hx). apply in_seq in Hx. split; [lia|]. destruct (rd_ok src (Z.of_nat x)) as (v & V & R); [lia|]. exists v. auto.
  - rewrite E. f_equal. apply list_ext_nth_error. intros k. rewrite N. unfold in_fst.
    destruct (Nat.ltb_spec k n) as [Hk|Hk].
    + rewrite nth_error_app1 by (rewrite firstn_length; lia). rewrite nth_firstn by auto.
      destruct (existsb _ _) eqn:X; [rewrite Nat2Z.id; auto|]. exfalso. apply Bool.not_true_iff_false in X. apply X. apply existsb_exists. exists (Z.of_nat k, rd src (Z.of_nat k)). split; [|cbn; apply Z.eqb_refl].
      apply in_map_iff. exists k. split; auto. apply in_seq. lia.
    + rewrite nth_error_app2 by (rewrite firstn_length; lia). rewrite firstn_length, nth_skipn. replace (n + (k - Nat.min n (length src)))%nat with k by lia.
      destruct (existsb _ _) eqn:X; auto. exfalso. apply existsb_exists in X as ((p, e) & Hin & Hp). apply in_map_iff in Hin as (x & [= <- <-] & Hx). apply in_seq in Hx. cbn in Hp. apply Z.eqb_eq in Hp. lia.
Qed.

Lemma conv_trunc f g n k : (k < n)%nat -> conv f (coef (truncated n g)) k = conv f g k.
Proof. intros H. rewrite !conv_sumn. apply sumn_ext. intros i Hi. f_equal. apply truncated_nth. lia. Qed.
Lemma conv_one f k : conv f one k = f k.
Proof.
  rewrite conv_sumn. transitivity (sumn (fun i => if (i =? k)%nat then f i else 0) (S k)).
  - apply sumn_ext. intros i Hi. destruct (Nat.eqb_spec i k) as [-> |NE]; [rewrite Nat.sub_diag; cbn; ring|]. destruct (k - i)%nat eqn:E; [lia|]. cbn. ring.
  - rewrite sumn_single. destruct (Nat.ltb_spec k (S k)); [auto|lia].
Qed.
Lemma conv_ext f f' g g' k : (forall i, (i <= k)%nat -> f i = f' i) -> (forall i, (i <= k)%nat -> g i = g' i) -> conv f g k = conv f' g' k.
Proof. intros H1 H2. rewrite !conv_sumn. apply sumn_ext. intros i Hi. rewrite H1, H2 by lia. auto. Qed.
Lemma firstn_trunc_app n f (l : list Qc) : firstn n (truncated n f ++ l) = truncated n f.
Proof. rewrite firstn_app, truncated_length, Nat.sub_diag, firstn_O, app_nil_r. apply firstn_all2. rewrite truncated_length. auto. Qed.
Lemma firstn_trunc n m f : (n <= m)%nat -> firstn n (truncated m f) = truncated n f.
Proof.
  intros H. unfold truncated. rewrite firstn_map. f_equal. replace m with (n + (m - n))%nat by lia. rewrite seq_app, firstn_app, seq_length, Nat.sub_diag, firstn_O, app_nil_r. apply firstn_all2. rewrite seq_length. auto.
Qed.

Lemma pow_loop_ok a n m max : (1 <= length a)%nat -> (1 <= n)%nat -> mul_size (degree a) (Z.of_nat n - 1) max = Z.of_nat m -> (n <= m)%nat ->
  forall k j d work, firstn n d = truncated n (power (coef a) j) -> (n <= length d)%nat -> (m <= length work)%nat ->
  exists d', pow_loop a (Z.of_nat n) k max d work = Ok d' /\ firstn n d' = truncated n (power (coef a) (k + j)).
Proof.
  intros LA N1 EM NM. induction k as [|k IH]; intros j d work ED LD LW; [exists d; auto|]. cbn [pow_loop]. rewrite Nat2Z.id, ED.
  assert (DG : degree (truncated n (power (coef a) j)) = (Z.of_nat n - 1)%Z) by (unfold degree; rewrite truncated_length; lia).
  rewrite (mul_calc_ok _ _ _ _ _ m) by (rewrite ?DG; auto; lia). cbn [bind fst].
  rewrite copy_ok by (rewrite ?app_length, ?truncated_length; lia). cbn [bind].
  rewrite firstn_app, truncated_length. replace (n - m)%nat with 0%nat by lia. rewrite firstn_O, app_nil_r, firstn_trunc by auto.
  destruct (IH (S j) (truncated n (conv (coef a) (coef (truncated n (power (coef a) j)))) ++ skipn n d) (truncated m (conv (coef a) (coef (truncated n (power (coef a) j)))) ++ skipn m work)) as (d' & E & F).
  - rewrite firstn_trunc_app. cbn [power]. apply truncated_ext. intros i Hi. apply conv_trunc. auto.
  - rewrite app_length, truncated_length. lia.
  - rewrite app_length, truncated_length, skipn_length. lia.
  - exists d'. split; auto. rewrite F. f_equal. f_equal. lia.
Qed.

Lemma pow_calc_ok size wsize a p storage work max n m : (1 <= length a)%nat -> (1 <= max)%Z -> (p = 0%nat \/ Z.of_nat (length a) <= max)%Z ->
  pow_size (Z.of_nat p) (degree a) max = Z.of_nat n -> pow_work (Z.of_nat p) (degree a) max = Z.of_nat m ->
  (Z.of_nat n <= size)%Z -> (Z.of_nat m <= wsize)%Z -> (n <= length storage)%nat -> (m <= length work)%nat ->
  pow_calc size wsize a p storage work max = Ok (truncated n (power (coef a) p)).
Proof.
  intros LA M1 HM EN EM S1 S2 L1 L2. unfold pow_calc. rewrite EN, EM. destruct (Z.ltb_spec size (Z.of_nat n)); [lia|]. destruct (Z.ltb_spec wsize (Z.of_nat m)); [lia|]. cbn [orb].
  rewrite Nat2Z.id, fill_ok by auto. cbn [bind].
  assert (N1 : (1 <= n)%nat). { unfold pow_size, degree in EN. assert (0 <= Z.of_nat p * (Z.of_nat (length a) - 1))%Z by (apply Z.mul_nonneg_nonneg; lia). lia. }
  assert (LF : forall d : list Qc, (n <= length (repeat 0%Qc n ++ d))%nat) by (intros; rewrite app_length, repeat_length; lia).
  destruct p as [|k].
  - rewrite wr_ok by (rewrite app_length, repeat_length; lia). cbn [bind]. f_equal. apply truncated_eq.
    + rewrite firstn_length, upd_length, app_length, repeat_length. lia.
    + intros k Hk. replace (nth k (firstn n (upd (Z.to_nat 0) 1 (repeat 0 n ++ skipn n storage))) 0) with (nth k (upd 0 1 (repeat 0 n ++ skipn n storage)) 0).
      * destruct k as [|k]; [rewrite nth_upd_same by (specialize (LF (skipn n storage)); lia); auto|]. rewrite nth_upd_other by lia. rewrite nth_app_repeat by auto. auto.
      * symmetry. change (Z.to_nat 0) with 0%nat. set (u := upd 0 1 (repeat 0 n ++ skipn n storage)). assert (LU : (n <= length u)%nat) by (unfold u; rewrite upd_length; auto).
        rewrite <- (firstn_skipn n u) at 2. symmetry. apply app_nth1. rewrite firstn_length. lia.
  - assert (LAN : (length a <= n)%nat).
    { destruct HM as [X|HM]; [lia|]. unfold pow_size, degree in EN. assert (Z.of_nat (length a) - 1 <= Z.of_nat (S k) * (Z.of_nat (length a) - 1))%Z by (clear - LA; nia). lia. }
    rewrite copy_ok by (try (specialize (LF (skipn n storage)); lia); lia). cbn [bind].
    assert (EM' : mul_size (degree a) (Z.of_nat n - 1) max = Z.of_nat m) by (rewrite <- EN; exact EM).
    destruct (pow_loop_ok a n m max LA N1 EM') with (k := k) (j := 1%nat) (d := firstn (length a) a ++ skipn (length a) (repeat 0 n ++ skipn n storage)) (work := work) as (d' & E & F); auto.
    + unfold mul_size, degree in EM'. unfold pow_size in EN. lia.
    + cbn [power]. apply truncated_eq.
      * rewrite firstn_length, app_length, firstn_length, skipn_length. specialize (LF (skipn n storage)). lia.
      * intros i Hi. rewrite conv_one. rewrite firstn_all. assert (E : nth i (firstn n (a ++ skipn (length a) (repeat 0 n ++ skipn n storage))) 0 = nth i (a ++ skipn (length a) (repeat 0 n ++ skipn n storage)) 0).
        { rewrite <- (firstn_skipn n (a ++ skipn (length a) (repeat 0 n ++ skipn n storage))) at 2. symmetry. apply app_nth1. rewrite firstn_length, app_length, skipn_length. specialize (LF (skipn n storage)). lia. }
        rewrite E. destruct (Nat.ltb_spec i (length a)) as [Hl|Hl]; [rewrite app_nth1 by auto; auto|]. rewrite app_nth2, coef_out by auto.
        rewrite skipn_app, repeat_length. rewrite app_nth1 by (rewrite skipn_length, repeat_length; lia). replace n with (length a + (n - length a))%nat by lia. rewrite repeat_app, skipn_app, repeat_length, Nat.sub_diag.
        rewrite (skipn_all2 (repeat 0 (length a))) by (rewrite repeat_length; auto). cbn [app skipn]. apply nth_repeat.
    + rewrite app_length, firstn_length, skipn_length. specialize (LF (skipn n storage)). lia.
    + rewrite E. cbn [bind]. rewrite F. do 2 f_equal. f_equal. lia.
Qed.

Lemma pow_calc_ub a p storage work max : (1 <= p)%nat -> (1 <= max)%Z -> (max < Z.of_nat (length a))%Z -> length storage = Z.to_nat (pow_size (Z.of_nat p) (degree a) max) -> poly_pow a p storage work max = UB.
Proof.
  intros P1 M1 HM LS. unfold poly_pow, pow_calc. rewrite !Z.ltb_irrefl. cbn [orb]. set (n := pow_size (Z.of_nat p) (degree a) max) in *.
  assert (NN : n = max). { unfold n, pow_size, degree. assert (Z.of_nat (length a) - 1 <= Z.of_nat p * (Z.of_nat (length a) - 1))%Z by (clear - P1 M1 HM; nia). lia. }
  rewrite fill_ok by lia. cbn [bind]. destruct p as [|k]; [lia|].
  rewrite writes_ub; auto.
  - intros q e H. apply in_map_iff in H as (x & [= <- <-] & Hx). rewrite zrange_seq in Hx. apply in_map_iff in Hx as (y & <- & Hy). apply in_seq in Hy. destruct (rd_ok a (Z.of_nat y)) as (v & V & R); [lia|]. eauto.
  - exists (Z.of_nat (length a) - 1)%Z, (rd a (Z.of_nat (length a) - 1)). split.
    + apply in_map_iff. exists (Z.of_nat (length a) - 1)%Z. split; auto. rewrite zrange_seq. apply in_map_iff. exists (length a - 1)%nat. split; [lia|]. apply in_seq. lia.
    + rewrite app_length, repeat_length, skipn_length. lia.
Qed.

(** ** Values *)
Lemma eval_sumn a x : forall n, (length a <= n)%nat -> eval a x = sumn (fun k => coef a k * qpow x k) n.
Proof.
  induction a as [|c a IH]; intros n H; [symmetry; apply sumn_zero; intros; unfold coef; rewrite nth_overflow by (cbn; lia); ring|].
  destruct n as [|n]; [cbn in H; lia|]. rewrite sumn_front. cbn [eval coef nth qpow]. rewrite (IH n) by (cbn in H; lia). rewrite <- sumn_mul. rewrite Qcmult_1_r. f_equal. apply sumn_ext. intros i Hi. unfold coef. ring.
Qed.
Lemma conv_zero_l f g k : (forall i, f i = 0) -> conv f g k = 0.
Proof. intros H. rewrite conv_sumn. apply sumn_zero. intros. rewrite H. ring. Qed.
Lemma eval_conv b x : forall a n, (length a + length b <= n)%nat -> sumn (fun k => conv (coef a) (coef b) k * qpow x k) n = eval a x * eval b x.
Proof.
  induction a as [|c a IH]; intros n H.
  - cbn [eval]. rewrite sumn_zero; [ring|]. intros i Hi. rewrite conv_zero_l; [ring|]. intros j. apply coef_out. cbn. lia.
  - destruct n as [|n]; [cbn in H; lia|].
    assert (E : forall k, conv (coef (c :: a)) (coef b) k * qpow x k = c * (coef b k * qpow x k) + match k with O => 0 | S k' => x * (conv (coef a) (coef b) k' * qpow x k') end).
    { intros k. rewrite conv_sumn, sumn_front. rewrite Nat.sub_0_r. destruct k as [|k]; [rewrite sumn_0; unfold coef; cbn [nth]; ring|].
      replace (sumn (fun i => coef (c :: a) (S i) * coef b (S k - S i)) (S k)) with (conv (coef a) (coef b) k) by (rewrite conv_sumn; apply sumn_ext; intros; reflexivity). unfold coef at 1. cbn [nth qpow]. ring. }
    rewrite (sumn_ext _ _ _ (fun i _ => E i)), sumn_add, sumn_mul. rewrite (sumn_front (fun k => match k with O => 0 | S k' => _ end)), sumn_mul. rewrite IH by (cbn in H; lia). rewrite <- (eval_sumn b) by (cbn in H; lia). cbn [eval]. ring.
Qed.
Lemma conv_beyond f g m n k : (forall i, (m < i)%nat -> f i = 0) -> (forall i, (n < i)%nat -> g i = 0) -> (m + n < k)%nat -> conv f g k = 0.
Proof.
  intros F G H. rewrite conv_sumn. apply sumn_zero. intros i Hi. destruct (Nat.ltb_spec m i); [rewrite F by auto; ring|]. rewrite G by lia. ring.
Qed.
Lemma power_beyond a m : (length a <= S m)%nat -> forall p k, (p * m < k)%nat -> power (coef a) p k = 0.
Proof.
  intros L. induction p as [|p IH]; intros k Hk; cbn [power].
  - destruct k; [lia|]. auto.
  - apply (conv_beyond _ _ m (p * m)); [intros; apply coef_out; lia|auto|cbn in Hk; lia].
Qed.
Lemma coef_trunc n f k : (forall i, (n <= i)%nat -> f i = 0) -> coef (truncated n f) k = f k.
Proof. intros H. destruct (Nat.ltb_spec k n); [apply truncated_nth; auto|]. rewrite coef_out by (rewrite truncated_length; auto). symmetry. auto. Qed.
Lemma eval_product a b x : (1 <= length a)%nat -> (1 <= length b)%nat -> eval (truncated (length a + length b - 1) (conv (coef a) (coef b))) x = eval a x * eval b x.
Proof.
  intros LA LB. rewrite (eval_sumn _ _ (length a + length b)) by (rewrite truncated_length; lia). rewrite <- (eval_conv b x a (length a + length b)) by auto. apply sumn_ext. intros k Hk. f_equal. apply coef_trunc.
  intros i Hi. apply (conv_beyond _ _ (length a - 1) (length b - 1)); try (intros; apply coef_out); lia.
Qed.
Lemma eval_power a x : (1 <= length a)%nat -> forall p, eval (truncated (p * (length a - 1) + 1) (power (coef a) p)) x = qpow (eval a x) p.
Proof.
  intros LA. induction p as [|p IH]; [cbn; ring|]. cbn [power qpow]. rewrite <- IH. set (q := truncated (p * (length a - 1) + 1) (power (coef a) p)).
  assert (LQ : length q = (p * (length a - 1) + 1)%nat) by (unfold q; apply truncated_length).
  assert (L1 : (1 <= length q)%nat) by (rewrite LQ, Nat.add_1_r; apply le_n_S, Nat.le_0_l).
  rewrite <- eval_product by auto. rewrite LQ. replace (length a + (p * (length a - 1) + 1) - 1)%nat with (S p * (length a - 1) + 1)%nat by (cbn [Nat.mul]; generalize (p * (length a - 1))%nat; lia).
  f_equal. apply truncated_ext. intros k Hk. apply conv_ext; auto. intros i Hi. symmetry. apply coef_trunc. intros j Hj. apply (power_beyond a (length a - 1)); [lia|]. revert Hj. generalize (p * (length a - 1))%nat. lia.
Qed.

(** ** Trimming *)
Lemma trim_len_ok d : forall j, (j <= length d)%nat -> exists k, trim_len d j = Ok k /\ (k <= j)%nat /\ (forall i, (k <= i < j)%nat -> coef d i = 0) /\ (k = 0%nat \/ coef d (k - 1) <> 0).
Proof.
  induction j as [|j IH]; intros H; [exists 0%nat; cbn; repeat split; auto; lia|]. cbn [trim_len]. rewrite rd_coef by lia. cbn [bind]. destruct (qeqb_spec (coef d j) 0) as [E|E].
  - destruct IH as (k & E1 & E2 & E3 & E4); [lia|]. exists k. repeat split; auto. intros i Hi. destruct (Nat.eq_dec i j) as [-> |]; auto. apply E3. lia.
  - exists (S j). repeat split; auto; [lia|]. right. replace (S j - 1)%nat with j by lia. auto.
Qed.
