(** Inversion of matrix polynomials: proofs. *)
From Verif Require Import MPolyModel MPolySpec MatProofs MatProofs2 MatDotProofs SplitProofs SplitProofs4 MatProofs4 MatProofs6 PolyProofs PolyProofs2 MPolyProofs.
From Coq Require Import Lia.
Local Open Scope Z_scope.

Notation fn := (Z -> Z -> Qc).
Lemma product_sumn m (a b : fn) i j : product (Z.of_nat m) a b i j = sumn (fun l => a i (Z.of_nat l) * b (Z.of_nat l) j)%Qc m.
Proof. unfold product, upto, sumn. rewrite Nat2Z.id, map_map. auto. Qed.
Definition same (m : nat) (a b : fn) : Prop := forall i j, within m i j -> a i j = b i j.
Lemma product_ext m a a' b b' : same m a a' -> same m b b' -> same m (product (Z.of_nat m) a b) (product (Z.of_nat m) a' b').
Proof. intros HA HB i j (H1 & H2). rewrite !product_sumn. apply sumn_ext. intros l Hl. rewrite HA, HB by (split; lia). auto. Qed.
Lemma product_assoc m a b c i j : product (Z.of_nat m) (product (Z.of_nat m) a b) c i j = product (Z.of_nat m) a (product (Z.of_nat m) b c) i j.
Proof.
  rewrite !product_sumn. transitivity (sumn (fun l => sumn (fun p => a i (Z.of_nat p) * b (Z.of_nat p) (Z.of_nat l) * c (Z.of_nat l) j)%Qc m) m).
  - apply sumn_ext. intros l Hl. rewrite product_sumn, Qcmult_comm, <- sumn_mul. apply sumn_ext. intros. ring.
  - rewrite sumn_swap. apply sumn_ext. intros p Hp. rewrite product_sumn, <- sumn_mul. apply sumn_ext. intros. ring.
Qed.
Lemma product_iden_l m b i j : within m i j -> product (Z.of_nat m) iden b i j = b i j.
Proof.
  intros (H1 & H2). rewrite product_sumn. transitivity (sumn (fun l => if (l =? Z.to_nat i)%nat then b (Z.of_nat l) j else 0%Qc) m).
  - apply sumn_ext. intros l Hl. unfold iden. destruct (Z.eqb_spec i (Z.of_nat l)), (Nat.eqb_spec l (Z.to_nat i)); try lia; ring.
  - rewrite (sumn_single (fun l => b (Z.of_nat l) j)). destruct (Nat.ltb_spec (Z.to_nat i) m); [|lia]. rewrite Z2Nat.id by lia. auto.
Qed.
Lemma product_sum_r {A} m a (f : A -> fn) l i j : product (Z.of_nat m) a (fun r c => qsum (map (fun p => f p r c) l)) i j = qsum (map (fun p => product (Z.of_nat m) a (f p) i j) l).
Proof.
  induction l as [|p l IH]; cbn [map].
  - apply product_zero_r. auto.
  - change (qsum (?x :: ?l)) with (x + qsum l)%Qc. rewrite <- IH, !product_sumn, <- sumn_add. apply sumn_ext. intros. change (qsum (?x :: ?l)) with (x + qsum l)%Qc. ring.
Qed.
Lemma product_neg_l m (a b : fn) i j : product (Z.of_nat m) (fun r c => (- (1) * a r c)%Qc) b i j = (- (1) * product (Z.of_nat m) a b i j)%Qc.
Proof. rewrite !product_sumn, <- sumn_mul. apply sumn_ext. intros. ring. Qed.
Lemma product_neg_r m (a b : fn) i j : product (Z.of_nat m) a (fun r c => (- (1) * b r c)%Qc) i j = (- (1) * product (Z.of_nat m) a b i j)%Qc.
Proof. rewrite !product_sumn, <- sumn_mul. apply sumn_ext. intros. ring. Qed.

Lemma mcoef_some a k A : nth_error a k = Some A -> mcoef a k = el A.
Proof. intros H. unfold mcoef. rewrite H. auto. Qed.
(** The blocks - inv0 * A_i. *)
Lemma neg_loop_ok m inv0 a : (1 <= m)%nat -> square_poly m a -> mat_ok inv0 -> rows inv0 = m -> cols inv0 = m -> forall is w, NoDup is ->
  Forall (fun i => 1 <= i < length a)%nat is -> ((length a - 1) * (m * m) <= length w)%nat ->
  exists w', neg_loop m inv0 a is w = Ok w' /\ length w' = length w /\
    (forall i, In i is -> same m (bel m w' (i - 1)) (fun r c => (- (1) * product (Z.of_nat m) (el inv0) (mcoef a i) r c)%Qc)) /\
    (forall k, ~ In (S k) is -> same m (bel m w' k) (bel m w k)).
Proof.
  intros M1 QA WI RI CI. induction is as [|i is IH]; intros w ND F L; [exists w; split; [reflexivity|]; split; [auto|]; split; [intros i []|unfold same; auto]|]. apply Forall_cons_iff in F as (Hi & F). apply NoDup_cons_iff in ND as (NI & ND). cbn [neg_loop].
  destruct (square_at m a i QA) as (A & EA & WA & RA & CA); [lia|]. unfold at_coef. rewrite EA. cbn [bind].
  assert (LB : (S (i - 1) * (m * m) <= length w)%nat) by (apply (block_fit m w _ (length a - 1)); auto; lia).
  destruct (dot_ok inv0 A (block m w (i - 1)) (-(1))%Qc 0 WI WA (block_ok _ _ _ LB)) as (X & -> & B); try (unfold ncols, nrows, block; cbn [rows cols]; lia). cbn [bind].
  unfold scaled in B. pose proof (put_length _ _ _ _ _ LB B) as LP. destruct (IH (put m w (i - 1) X) ND F) as (w' & E & L' & N1 & N2); [rewrite LP; auto|]. exists w'. split; auto. split; [lia|].
  assert (PB : forall k, same m (bel m (put m w (i - 1) X) k) (fun r c => if (k =? i - 1)%nat then (- (1) * product (Z.of_nat m) (el inv0) (mcoef a i) r c)%Qc else bel m w k r c)).
  { intros k r c H. rewrite (put_bel _ _ _ _ _ LB B) by auto. destruct (k =? i - 1)%nat; auto. unfold ncols. rewrite CI, (mcoef_some _ _ _ EA). ring. }
  split.
  - intros i' [<- |Hi']; auto. intros r c H. rewrite N2; auto; [|replace (S (i - 1)) with i by lia; auto]. rewrite PB by auto. rewrite Nat.eqb_refl. auto.
  - intros k Hk r c H. rewrite N2; auto; [|intros X'; apply Hk; right; auto]. rewrite PB by auto. destruct (Nat.eqb_spec k (i - 1)) as [-> |]; auto. exfalso. apply Hk. left. lia.
Qed.
Lemma add_in_ok (M B : mat Qc) : mat_ok M -> mat_ok B -> nrows B = nrows M -> ncols B = ncols M -> exists M', add_in M B = Ok M' /\ becomes M (fun i j => Some (el M i j + el B i j)%Qc) M'.
Proof.
  intros WM WB R C. unfold add_in. apply vmap_ok; auto. intros i j H. rewrite <- R. rewrite rd_el; auto.
  - cbn [bind]. eauto.
  - unfold inside in *. rewrite R, C. auto.
Qed.
(** The terms of coefficient s. *)
Definition term (m : nat) (N : nat -> fn) (st : list Qc) (s : nat) (i j : Z) (p : nat) : Qc := if (p <=? s)%nat then product (Z.of_nat m) (N p) (bel m st (s - p)) i j else 0%Qc.
Lemma inv_inner_ok m deg s n N : (1 <= m)%nat -> (s < n)%nat -> forall len j0 st w, (1 <= j0)%nat -> (j0 + len = S deg)%nat ->
  (n * (m * m) <= length st)%nat -> (S deg * (m * m) <= length w)%nat -> (forall p, (1 <= p <= deg)%nat -> same m (bel m w (p - 1)) (N p)) ->
  exists st' w', inv_inner m deg s (seq 0 n) (seq j0 len) st w = Ok (st', w') /\ length st' = length st /\ length w' = length w /\
    (forall p, (1 <= p <= deg)%nat -> same m (bel m w' (p - 1)) (N p)) /\
    (forall k, k <> s -> same m (bel m st' k) (bel m st k)) /\
    same m (bel m st' s) (fun i j => bel m st s i j + qsum (map (term m N st s i j) (seq j0 len)))%Qc.
Proof.
  intros M1 Hs. induction len as [|len IH]; intros j0 st w J0 JD LS LW HN.
  - exists st, w. cbn [seq inv_inner map]. repeat split; auto; try (unfold same; auto; fail). intros i j _. cbn. ring.
  - cbn [seq inv_inner]. destruct (Nat.ltb_spec s j0) as [H|H].
    + exists st, w. repeat split; auto; try (unfold same; auto; fail). intros i j _. change (j0 :: seq (S j0) len) with (seq j0 (S len)). replace (qsum (map (term m N st s i j) (seq j0 (S len)))) with 0%Qc; [ring|].
      symmetry. transitivity (qsum (map (fun _ => 0%Qc) (seq j0 (S len)))).
      * f_equal. apply map_ext_in. intros p Hp. apply in_seq in Hp. unfold term. destruct (Nat.leb_spec p s); [lia|auto].
      * induction (seq j0 (S len)) as [|x l IHl]; auto. cbn [map]. change (qsum (?x :: ?l)) with (x + qsum l)%Qc. rewrite IHl. ring.
    + rewrite !nth_error_seq0 by lia.
      assert (LBj : (S (j0 - 1) * (m * m) <= length w)%nat) by (apply (block_fit m w _ (S deg)); auto; lia).
      assert (LBd : (S deg * (m * m) <= length w)%nat) by auto.
      assert (LBs : (S (s - j0) * (m * m) <= length st)%nat) by (apply (block_fit m st _ n); auto; lia).
      destruct (dot_ok (block m w (j0 - 1)) (block m st (s - j0)) (block m w deg) 1 0 (block_ok _ _ _ LBj) (block_ok _ _ _ LBs) (block_ok _ _ _ LBd)) as (X & -> & B); try (unfold ncols, nrows, block; cbn [rows cols]; lia). cbn [bind].
      unfold scaled in B. pose proof (put_length _ _ _ _ _ LBd B) as LP. pose proof (put_bel _ _ _ _ _ LBd B) as PB. set (w1 := put m w deg X) in *.
      assert (LBss : (S s * (m * m) <= length st)%nat) by (apply (block_fit m st _ n); auto).
      assert (LB1 : (S deg * (m * m) <= length w1)%nat) by lia.
      destruct (add_in_ok (block m st s) (block m w1 deg) (block_ok _ _ _ LBss) (block_ok _ _ _ LB1) eq_refl eq_refl) as (R & -> & B2). cbn [bind].
      pose proof (put_length _ _ _ _ _ LBss B2) as LP2. pose proof (put_bel _ _ _ _ _ LBss B2) as PB2. set (st1 := put m st s R) in *.
      destruct (IH (S j0) st1 w1) as (st' & w' & E & L1 & L2 & N1 & N2 & N3); try lia.
      { intros p Hp r c Hin. rewrite PB by auto. destruct (Nat.eqb_spec (p - 1) deg); [lia|]. apply HN; auto. }
      exists st', w'. split; auto. split; [lia|]. split; [lia|]. split; auto. split.
      * intros k Hk r c Hin. rewrite N2 by auto. rewrite PB2 by auto. destruct (Nat.eqb_spec k s); [lia|auto].
      * intros i j Hin. rewrite N3 by auto. rewrite PB2 by auto. rewrite Nat.eqb_refl. cbn [map]. change (qsum (?x :: ?l)) with (x + qsum l)%Qc.
        replace (map (term m N st1 s i j) (seq (S j0) len)) with (map (term m N st s i j) (seq (S j0) len)).
        2:{ apply map_ext_in. intros p Hp. apply in_seq in Hp. unfold term. destruct (Nat.leb_spec p s); auto. apply product_ext; auto; [unfold same; auto|]. intros r c Hrc. rewrite PB2 by auto. destruct (Nat.eqb_spec (s - p) s); [lia|auto]. }
        assert (T : el (block m w1 deg) i j = term m N st s i j j0).
        { fold (bel m w1 deg i j). rewrite PB by auto. rewrite Nat.eqb_refl. unfold term. destruct (Nat.leb_spec j0 s); [|lia]. unfold ncols, block at 1. cbn [cols].
          rewrite (product_ext m (el (block m w (j0 - 1))) (N j0) (el (block m st (s - j0))) (bel m st (s - j0))); auto; [ring| |unfold same; auto]. apply HN. lia. }
        rewrite T. unfold bel at 1. ring.
Qed.
Lemma bel_el m st k i j : el (block m st k) i j = bel m st k i j. Proof. reflexivity. Qed.
Lemma inv_outer_ok m deg n N : (1 <= m)%nat -> forall len s0 st w, (1 <= s0)%nat -> (s0 + len = n)%nat ->
  (n * (m * m) <= length st)%nat -> (S deg * (m * m) <= length w)%nat -> (forall p, (1 <= p <= deg)%nat -> same m (bel m w (p - 1)) (N p)) ->
  exists st' w', inv_outer m deg (seq 0 n) (seq s0 len) st w = Ok (st', w') /\ length st' = length st /\
    (forall k, (k < s0)%nat -> same m (bel m st' k) (bel m st k)) /\
    (forall s, (s0 <= s < n)%nat -> same m (bel m st' s) (fun i j => qsum (map (term m N st' s i j) (seq 1 deg)))).
Proof.
  intros M1. induction len as [|len IH]; intros s0 st w S0 SN LS LW HN.
  - exists st, w. cbn [seq inv_outer]. repeat split; auto; try (unfold same; auto; fail). intros; lia.
  - cbn [seq inv_outer]. rewrite nth_error_seq0 by lia. assert (LB : (S s0 * (m * m) <= length st)%nat) by (apply (block_fit m st _ n); auto; lia).
    destruct (set_value_ok (block m st s0) 0 (block_ok _ _ _ LB)) as (M & -> & B). cbn [bind]. pose proof (put_length _ _ _ _ _ LB B) as LP. pose proof (put_bel _ _ _ (fun _ _ => 0%Qc) _ LB B) as PB. set (st1 := put m st s0 M) in *.
    destruct (inv_inner_ok m deg s0 n N M1) with (len := deg) (j0 := 1%nat) (st := st1) (w := w) as (st2 & w2 & -> & L1 & L2 & N1 & N2 & N3); try lia; auto. cbn [bind].
    destruct (IH (S s0) st2 w2) as (st' & w' & E & L' & K1 & K2); try lia; auto. exists st', w'. split; auto. split; [lia|]. split.
    + intros k Hk i j Hin. rewrite K1 by (auto; lia). rewrite N2 by (auto; lia). rewrite PB by auto. destruct (Nat.eqb_spec k s0); [lia|auto].
    + intros s Hs. destruct (Nat.eq_dec s s0) as [-> |NE]; [|apply K2; lia]. intros i j Hin. rewrite K1 by (auto; lia). rewrite N3 by auto. rewrite PB by auto. rewrite Nat.eqb_refl.
      replace (map (term m N st1 s0 i j) (seq 1 deg)) with (map (term m N st' s0 i j) (seq 1 deg)); [ring|]. apply map_ext_in. intros p Hp. apply in_seq in Hp. unfold term. destruct (Nat.leb_spec p s0); auto.
      apply product_ext; auto; [unfold same; auto|]. intros r c Hrc. rewrite K1 by (auto; lia). apply N2; auto; lia.
Qed.
Lemma minv_calc_ok lapack size wsize m a A0 info g st w max : (1 <= m)%nat -> square_poly m a -> nth_error a 0 = Some A0 -> (1 <= max)%nat ->
  Z.of_nat max * Z.of_nat (m * m) <= size -> Z.of_nat (length a) * Z.of_nat (m * m) <= wsize -> (max * (m * m) <= length st)%nat -> (length a * (m * m) <= length w)%nat ->
  lapack_leaves lapack m A0 info g ->
  exists st', minv_calc lapack size wsize [] a st w max = Ok (seq 0 max, st') /\ length st' = length st /\ same m (bel m st' 0) g /\
    forall s, (1 <= s < max)%nat -> same m (bel m st' s) (fun i j => qsum (map (term m (fun p r c => (- (1) * product (Z.of_nat m) g (mcoef a p) r c)%Qc) st' s i j) (seq 1 (length a - 1)))).
Proof.
  intros M1 QA EA MX S1 S2 LS LW HL. destruct a as [|A a']; [discriminate|]. injection EA as ->. set (a := A0 :: a') in *. unfold minv_calc, a at 1. fold a.
  assert (Q0 : mat_ok A0 /\ rows A0 = m /\ cols A0 = m) by (unfold a, square_poly in QA; apply Forall_cons_iff in QA as (? & ?); auto). destruct Q0 as (WA & RA & CA). rewrite RA.
  assert (LA : (length a - 1 + 1 = length a)%nat) by (unfold a; cbn; lia). rewrite LA.
  destruct (Z.ltb_spec size (Z.of_nat max * Z.of_nat (m * m))); [lia|]. destruct (Z.ltb_spec wsize (Z.of_nat (length a) * Z.of_nat (m * m))); [lia|]. cbn [orb app]. rewrite nth_error_seq0 by lia.
  assert (LB : (1 * (m * m) <= length st)%nat) by (apply (block_fit m st 0 max); auto).
  destruct (HL (data (block m st 0))) as (d' & E & B); [exact (block_ok m st 0 LB)|]. change (Mat m m (data (block m st 0))) with (block m st 0) in B.
  assert (EI : inv lapack A0 (block m st 0) = Ok (Mat m m d', info)).
  { unfold inv. change (nrows (block m st 0)) with (Z.of_nat m). change (ncols (block m st 0)) with (Z.of_nat m). unfold nrows, ncols. rewrite RA, CA, Z.eqb_refl. cbn [negb orb]. rewrite E. auto. }
  rewrite EI. cbn [bind]. pose proof (put_length _ _ _ _ _ LB B) as LP. pose proof (put_bel _ _ _ _ _ LB B) as PB. set (st0 := put m st 0 (Mat m m d')) in *.
  assert (LB0 : (1 * (m * m) <= length st0)%nat) by lia.
  destruct (neg_loop_ok m (block m st0 0) a M1 QA (block_ok _ _ _ LB0) eq_refl eq_refl (seq 1 (length a - 1)) w) as (w1 & -> & L1 & N1 & _).
  { apply seq_NoDup. } { apply Forall_forall. intros i Hi. apply in_seq in Hi. lia. } { eapply Nat.le_trans; [|exact LW]. apply Nat.mul_le_mono_r. lia. }
  cbn [bind]. set (N := fun p r c => (- (1) * product (Z.of_nat m) g (mcoef a p) r c)%Qc).
  destruct (inv_outer_ok m (length a - 1) max N M1) with (len := (max - 1)%nat) (s0 := 1%nat) (st := st0) (w := w1) as (st' & w' & -> & L' & K1 & K2); try lia.
  { intros p Hp r c Hin. rewrite N1 by (auto; apply in_seq; lia). unfold N. f_equal. apply product_ext; auto; [|unfold same; auto]. intros x y Hxy. rewrite bel_el, PB by auto. auto. }
  cbn [bind]. exists st'. split; auto. split; [lia|]. split.
  - intros i j Hin. rewrite K1 by (auto; lia). rewrite PB by auto. auto.
  - intros s Hs. apply K2. lia.
Qed.
Lemma qsum_split (f : nat -> Qc) n : qsum (map f (seq 0 (S n))) = (f 0%nat + qsum (map f (seq 1 n)))%Qc.
Proof. reflexivity. Qed.
Lemma qsum_seq_beyond (f : nat -> Qc) s n k : (n <= k)%nat -> (forall i, (s + n <= i)%nat -> f i = 0%Qc) -> qsum (map f (seq s k)) = qsum (map f (seq s n)).
Proof.
  intros H F. replace k with (n + (k - n))%nat by lia. rewrite seq_app, map_app, qsum_app. replace (qsum (map f (seq (s + n) (k - n)))) with 0%Qc; [ring|]. symmetry.
  generalize (k - n)%nat. intros q. assert (G : forall q x, (s + n <= x)%nat -> qsum (map f (seq x q)) = 0%Qc).
  { clear q. induction q as [|q IH]; intros x Hx; auto. cbn [seq map]. change (qsum (?x :: ?l)) with (x + qsum l)%Qc. rewrite IH, F by lia. ring. } apply G. auto.
Qed.
Lemma inverse_series m a g (B : nat -> fn) n : (1 <= n)%nat -> same m (product (Z.of_nat m) (mcoef a 0) g) iden -> same m (B 0%nat) g ->
  (forall s, (1 <= s < n)%nat -> same m (B s) (fun i j => qsum (map (fun p => if (p <=? s)%nat then product (Z.of_nat m) (fun r c => (- (1) * product (Z.of_nat m) g (mcoef a p) r c)%Qc) (B (s - p)%nat) i j else 0%Qc) (seq 1 (length a - 1))))) ->
  forall k, (k < n)%nat -> same m (mconv m (mcoef a) B k) (mone k).
Proof.
  intros N1 HG H0 HS k Hk i j Hin. unfold mconv. rewrite qsum_split, Nat.sub_0_r. destruct k as [|k].
  - cbn [seq map]. change (qsum []) with 0%Qc. rewrite (product_ext m (mcoef a 0) (mcoef a 0) (B 0%nat) g); auto; [|unfold same; auto]. rewrite HG by auto. cbn [mone]. ring.
  - cbn [mone].
    rewrite (product_ext m (mcoef a 0) (mcoef a 0) (B (S k)) (fun i j => qsum (map (fun p => if (p <=? S k)%nat then product (Z.of_nat m) (fun r c => (- (1) * product (Z.of_nat m) g (mcoef a p) r c)%Qc) (B (S k - p)%nat) i j else 0%Qc) (seq 1 (length a - 1))))); auto; [|unfold same; auto|apply HS; lia].
    rewrite product_sum_r.
    set (T := fun p => if (p <=? S k)%nat then product (Z.of_nat m) (mcoef a p) (B (S k - p)%nat) i j else 0%Qc).
    replace (qsum (map _ (seq 1 (length a - 1)))) with (- (1) * qsum (map T (seq 1 (length a - 1))))%Qc.
    + replace (qsum (map (fun p => product (Z.of_nat m) (mcoef a p) (B (S k - p)%nat) i j) (seq 1 (S k)))) with (qsum (map T (seq 1 (S k)))).
      2:{ f_equal. apply map_ext_in. intros p Hp. apply in_seq in Hp. unfold T. destruct (Nat.leb_spec p (S k)); [auto|lia]. }
      replace (qsum (map T (seq 1 (S k)))) with (qsum (map T (seq 1 (length a - 1)))); [ring|].
      transitivity (qsum (map T (seq 1 (length a - 1 + S k)))); [symmetry|]; apply qsum_seq_beyond; try lia; intros p Hp; unfold T; destruct (Nat.leb_spec p (S k)); auto; try lia. apply product_zero_l. intros. apply mcoef_out. lia.
    + rewrite <- qsum_map_mul. f_equal. apply map_ext_in. intros p Hp. unfold T. destruct (Nat.leb_spec p (S k)) as [L|L].
      * transitivity (product (Z.of_nat m) (mcoef a 0) (fun r c => - (1) * product (Z.of_nat m) g (product (Z.of_nat m) (mcoef a p) (B (S k - p)%nat)) r c)%Qc i j).
        -- rewrite product_neg_r. f_equal. rewrite <- product_assoc. rewrite (product_ext m _ iden _ (product (Z.of_nat m) (mcoef a p) (B (S k - p)%nat)) HG); auto; [|unfold same; auto]. rewrite product_iden_l by auto. auto.
        -- apply product_ext; auto; [unfold same; auto|]. intros r c Hrc. rewrite product_neg_l. f_equal. symmetry. apply product_assoc.
      * rewrite product_zero_r by auto. ring.
Qed.
