(** Matrix polynomials: proofs. *)
From Verif Require Import MPolyModel MPolySpec MatProofs MatProofs2 MatDotProofs SplitProofs SplitProofs4 MatProofs4 MatProofs6 PolyProofs PolyProofs2.
From Coq Require Import Lia.
Local Open Scope Z_scope.

Definition bel (m : nat) (st : list Qc) (k : nat) (i j : Z) : Qc := el (block m st k) i j.
Definition within (m : nat) (i j : Z) : Prop := 0 <= i < Z.of_nat m /\ 0 <= j < Z.of_nat m.
Lemma block_ok m st k : (S k * (m * m) <= length st)%nat -> mat_ok (block m st k).
Proof. intros H. unfold mat_ok, block. cbn [rows cols data]. rewrite skipn_length. cbn [Nat.mul] in H. lia. Qed.
Lemma block_fit m (st : list Qc) k K : (k < K)%nat -> (K * (m * m) <= length st)%nat -> (S k * (m * m) <= length st)%nat.
Proof. intros H1 H2. eapply Nat.le_trans; [|exact H2]. apply Nat.mul_le_mono_r. lia. Qed.
Lemma put_far m st k f M : (S k * (m * m) <= length st)%nat -> becomes (block m st k) f M ->
  length (put m st k M) = length st /\ block m (put m st k M) k = M /\
  forall p, (p < k * (m * m) \/ S k * (m * m) <= p)%nat -> nth_error (put m st k M) p = nth_error st p.
Proof.
  intros L B. assert (LF : length (firstn (k * (m * m)) st) = (k * (m * m))%nat) by (rewrite firstn_length; cbn [Nat.mul] in L; lia).
  assert (LM : length (data M) = (length st - k * (m * m))%nat) by (rewrite (bc_length _ _ _ B); unfold block; cbn [data]; rewrite skipn_length; auto).
  unfold put. split; [rewrite app_length, LF, LM; cbn [Nat.mul] in L; lia|]. split.
  - unfold block at 1. rewrite skipn_app, LF, Nat.sub_diag. rewrite skipn_all2 by (rewrite LF; auto). cbn [skipn app]. destruct M as [r c d]. cbn [data]. pose proof (bc_rows _ _ _ B) as R. pose proof (bc_cols _ _ _ B) as C. cbn [rows cols block] in R, C. subst. auto.
  - intros p [Hp|Hp].
    + rewrite nth_error_app1 by (rewrite LF; auto). apply nth_firstn. auto.
    + cbn [Nat.mul] in *. rewrite nth_error_app2 by (rewrite LF; lia). rewrite LF, (bc_behind _ _ _ B) by (cbn [block rows cols]; lia). unfold block. cbn [data]. rewrite nth_skipn. f_equal. lia.
Qed.
Lemma inside_block m st k i j : within m i j <-> inside (block m st k) i j.
Proof. unfold within, inside, nrows, ncols, block. cbn [rows cols]. tauto. Qed.
Lemma within_pos m i j : within m i j -> (Z.to_nat (j * Z.of_nat m + i) < m * m)%nat.
Proof. intros (H1 & H2). nia. Qed.
Lemma entry_block m st k i j : within m i j -> entry (block m st k) i j = nth_error st (k * (m * m) + Z.to_nat (j * Z.of_nat m + i)).
Proof. intros H. unfold entry. replace (insideb (block m st k) i j) with true by (symmetry; apply inside_b; apply inside_block; auto). unfold block, nrows. cbn [data rows]. apply nth_skipn. Qed.
Lemma put_bel m st k f M : (S k * (m * m) <= length st)%nat -> becomes (block m st k) (fun i j => Some (f i j)) M ->
  forall k' i j, within m i j -> bel m (put m st k M) k' i j = if (k' =? k)%nat then f i j else bel m st k' i j.
Proof.
  intros L B k' i j H. destruct (put_far _ _ _ _ _ L B) as (L1 & E & F). destruct (Nat.eqb_spec k' k) as [-> |NE].
  - unfold bel. rewrite E. unfold el. rewrite (bc_entry _ _ _ B) by (apply inside_block; auto). auto.
  - unfold bel, el. rewrite !entry_block by auto. rewrite F; auto. pose proof (within_pos _ _ _ H) as W. revert W. generalize (Z.to_nat (j * Z.of_nat m + i)). generalize (m * m)%nat. clear - NE. intros q n Hn. destruct (Nat.ltb_spec k' k); [left|right]; nia.
Qed.
Lemma put_length m st k f M : (S k * (m * m) <= length st)%nat -> becomes (block m st k) f M -> length (put m st k M) = length st.
Proof. intros L B. apply (put_far _ _ _ _ _ L B). Qed.

(** SetValue. *)
Lemma set_value_ok (M : mat Qc) v : mat_ok M -> exists M', set_value M v = Ok M' /\ becomes M (fun _ _ => Some v) M'.
Proof.
  intros W. unfold set_value. rewrite fill_ok by exact W. cbn [bind]. eexists. split; [reflexivity|]. unfold mat_ok in W. constructor; auto.
  - cbn. rewrite app_length, repeat_length, skipn_length. lia.
  - intros i j H. unfold entry. replace (insideb _ i j) with true by (symmetry; apply inside_b; exact H). cbn [with_data data]. destruct H as (H1 & H2). unfold nrows, ncols in H1, H2.
    assert (P : (Z.to_nat (j * nrows (with_data M (repeat v (rows M * cols M) ++ skipn (rows M * cols M) (data M))) + i) < rows M * cols M)%nat) by (unfold nrows; cbn [with_data rows]; nia).
    rewrite nth_error_app1 by (rewrite repeat_length; auto). rewrite nth_error_nth' with (d := v) by (rewrite repeat_length; auto). rewrite nth_repeat. auto.
  - intros k Hk. cbn. rewrite nth_error_app2 by (rewrite repeat_length; auto). rewrite repeat_length, nth_skipn. f_equal. lia.
Qed.
Lemma zero_blocks_ok m K : forall refs st, Forall (fun k => (k < K)%nat) refs -> (K * (m * m) <= length st)%nat ->
  exists st', zero_blocks m refs st = Ok st' /\ length st' = length st /\ forall k i j, within m i j -> bel m st' k i j = if existsb (Nat.eqb k) refs then 0%Qc else bel m st k i j.
Proof.
  induction refs as [|r refs IH]; intros st F L; [exists st; auto|]. apply Forall_cons_iff in F as (Hr & F). cbn [zero_blocks].
  pose proof (block_fit m st r K Hr L) as LB. destruct (set_value_ok (block m st r) 0 (block_ok _ _ _ LB)) as (M & -> & B). cbn [bind].
  pose proof (put_length _ _ _ _ _ LB B) as LP. destruct (IH (put m st r M) F) as (st' & E & L' & N); [rewrite LP; auto|]. exists st'. split; auto. split; [lia|]. intros k i j H. rewrite N by auto. cbn [existsb].
  rewrite (put_bel _ _ _ (fun _ _ => 0%Qc) _ LB B) by auto. destruct (existsb _ refs); [rewrite Bool.orb_true_r; auto|]. rewrite Bool.orb_false_r. auto.
Qed.

(** ** Multiplication *)
Definition hitsF (F : nat -> nat -> Qc) (k : nat) (ps : list (nat * nat)) : Qc := qsum (map (fun p => if (fst p + snd p =? k)%nat then F (fst p) (snd p) else 0%Qc) ps).
Lemma hitsF_conv F la lb k : (forall i j, (la <= i)%nat -> F i j = 0%Qc) -> (forall i j, (lb <= j)%nat -> F i j = 0%Qc) -> hitsF F k (nat_pairs la lb) = sumn (fun i => F i (k - i)%nat) (S k).
Proof.
  intros FA FB. unfold hitsF, nat_pairs. rewrite qsum_flat_map.
  transitivity (sumn (fun i => if (i <=? k)%nat then F i (k - i)%nat else 0%Qc) la).
  - apply sumn_ext. intros i Hi. rewrite map_map. cbn [fst snd]. destruct (Nat.leb_spec i k) as [L|L].
    + transitivity (sumn (fun j => if (j =? k - i)%nat then F i j else 0%Qc) lb).
      * apply sumn_ext. intros j Hj. destruct (Nat.eqb_spec (i + j) k), (Nat.eqb_spec j (k - i)); try lia; auto.
      * rewrite (sumn_single (F i)). destruct (Nat.ltb_spec (k - i) lb) as [H|H]; auto. rewrite FB by auto. auto.
    + apply sumn_zero. intros j Hj. destruct (Nat.eqb_spec (i + j) k); [lia|auto].
  - set (G := fun i => if (i <=? k)%nat then F i (k - i)%nat else 0%Qc). rewrite <- (sumn_beyond G la (la + S k)).
    + rewrite (sumn_beyond G (S k)); [|lia|intros i Hi; unfold G; destruct (Nat.leb_spec i k); [lia|auto]]. apply sumn_ext. intros i Hi. unfold G. destruct (Nat.leb_spec i k); [auto|lia].
    + lia.
    + intros i Hi. unfold G. destruct (Nat.leb_spec i k); auto.
Qed.
(** The operation on a pair adds [F i j] to the target. *)
Definition adds (m la lb : nat) (step : nat -> nat -> mat Qc -> res (mat Qc)) (F : nat -> nat -> Z -> Z -> Qc) : Prop :=
  forall i j T, (i < la)%nat -> (j < lb)%nat -> mat_ok T -> rows T = m -> cols T = m ->
  exists T', step i j T = Ok T' /\ becomes T (fun r c => Some (F i j r c + el T r c)%Qc) T'.
Lemma mmul_loop_ok m la lb step F n : adds m la lb step F -> forall ps st, Forall (fun p => (fst p < la)%nat /\ (snd p < lb)%nat) ps -> (n * (m * m) <= length st)%nat ->
  exists st', mmul_loop m step (seq 0 n) (Z.of_nat n) ps st = Ok st' /\ length st' = length st /\
    forall k i j, (k < n)%nat -> within m i j -> bel m st' k i j = (bel m st k i j + hitsF (fun p q => F p q i j) k ps)%Qc.
Proof.
  intros HS. induction ps as [|(p, q) ps IH]; intros st FP L; [exists st; repeat split; auto; intros; unfold hitsF; cbn; ring|]. apply Forall_cons_iff in FP as ((Hp & Hq) & FP). cbn [fst snd] in *. cbn [mmul_loop].
  destruct (Z.ltb_spec (Z.of_nat p + Z.of_nat q) (Z.of_nat n)) as [H|H].
  - assert (NE : nth_error (seq 0 n) (p + q) = Some (p + q)%nat) by (rewrite (nth_error_nth' _ 0%nat) by (rewrite seq_length; lia); rewrite seq_nth by lia; auto). rewrite NE.
    assert (LB : (S (p + q) * (m * m) <= length st)%nat) by (apply (block_fit m st _ n); auto; lia).
    destruct (HS p q (block m st (p + q)) Hp Hq (block_ok _ _ _ LB) eq_refl eq_refl) as (T & -> & B). cbn [bind]. pose proof (put_length _ _ _ _ _ LB B) as LP.
    destruct (IH (put m st (p + q) T) FP) as (st' & E & L' & N); [rewrite LP; auto|]. exists st'. split; auto. split; [lia|]. intros k i j Hk Hin. rewrite N by auto.
    rewrite (put_bel _ _ _ _ _ LB B) by auto. unfold hitsF. cbn [map fst snd]. change (qsum (?x :: ?l)) with (x + qsum l)%Qc. rewrite (Nat.eqb_sym k). destruct (Nat.eqb_spec (p + q) k) as [<- |]; [unfold bel; ring|ring].
  - destruct (IH st FP L) as (st' & E & L' & N). exists st'. split; auto. split; auto. intros k i j Hk Hin. rewrite N by auto. unfold hitsF. cbn [map fst snd]. change (qsum (?x :: ?l)) with (x + qsum l)%Qc. destruct (Nat.eqb_spec (p + q) k); [lia|]. ring.
Qed.
Lemma nat_pairs_bound m n : Forall (fun p => (fst p < m)%nat /\ (snd p < n)%nat) (nat_pairs m n).
Proof. exact (npairs_bound m n). Qed.
Lemma mresult_coef m refs st k i j r : nth_error refs k = Some r -> mcoef (mresult m (refs, st)) k i j = bel m st r i j.
Proof. intros H. unfold mcoef, mresult. cbn [fst snd]. rewrite nth_error_map, H. auto. Qed.
Lemma mresult_square m refs st K : Forall (fun r => (r < K)%nat) refs -> (K * (m * m) <= length st)%nat -> square_poly m (mresult m (refs, st)).
Proof.
  intros F L. unfold square_poly, mresult. cbn [fst snd]. apply Forall_map. eapply Forall_impl; [|exact F]. cbn. intros r Hr. split; [|auto]. apply block_ok. apply (block_fit m st r K); auto.
Qed.
Lemma Forall_seq_lt n : Forall (fun k => (k < n)%nat) (seq 0 n).
Proof. apply Forall_forall. intros k H. apply in_seq in H. lia. Qed.
Lemma nth_error_seq0 n k : (k < n)%nat -> nth_error (seq 0 n) k = Some k.
Proof. intros H. rewrite (nth_error_nth' _ 0%nat) by (rewrite seq_length; auto). rewrite seq_nth by auto. auto. Qed.
Lemma mmul_calc_ok size a m lb step F st max n : msize a = Ok m -> mmul_len (mdegree a) (Z.of_nat lb - 1) max = Z.of_nat n ->
  Z.of_nat n * Z.of_nat (m * m) <= size -> (n * (m * m) <= length st)%nat -> adds m (length a) lb step F ->
  (forall i j r c, (length a <= i)%nat -> F i j r c = 0%Qc) -> (forall i j r c, (lb <= j)%nat -> F i j r c = 0%Qc) ->
  exists st', mmul_calc size [] a lb step st max = Ok (seq 0 n, st') /\ has_coefs m (mresult m (seq 0 n, st')) n (fun k i j => qsum (map (fun p => F p (k - p)%nat i j) (seq 0 (S k)))).
Proof.
  intros EM EN S1 L HS FA FB. unfold mmul_calc. rewrite EM. cbn [bind]. rewrite EN. destruct (Z.ltb_spec size (Z.of_nat n * Z.of_nat (m * m))); [lia|]. rewrite Nat2Z.id. cbn [app].
  destruct (zero_blocks_ok m n (seq 0 n) st (Forall_seq_lt n) L) as (st1 & -> & L1 & N1). cbn [bind].
  destruct (mmul_loop_ok m (length a) lb step F n HS (nat_pairs (length a) lb) st1 (nat_pairs_bound _ _)) as (st2 & -> & L2 & N2); [lia|]. cbn [bind]. exists st2. split; auto.
  split; [unfold mresult; rewrite map_length; cbn [fst]; apply seq_length|]. split; [apply (mresult_square m (seq 0 n) st2 n (Forall_seq_lt n)); lia|]. intros k i j Hk Hi Hj. rewrite (mresult_coef m (seq 0 n) st2 k i j k (nth_error_seq0 n k Hk)).
  assert (W : within m i j) by (split; auto). rewrite N2 by auto. rewrite N1 by auto.
  replace (existsb (Nat.eqb k) (seq 0 n)) with true. 2:{ symmetry. apply existsb_exists. exists k. split; [apply in_seq; lia|apply Nat.eqb_refl]. }
  rewrite (hitsF_conv (fun p q => F p q i j)) by auto. unfold sumn. ring.
Qed.
Lemma square_at m a i : square_poly m a -> (i < length a)%nat -> exists A, nth_error a i = Some A /\ mat_ok A /\ rows A = m /\ cols A = m.
Proof. intros Q H. destruct (nth_error a i) as [A|] eqn:E; [|apply nth_error_None in E; lia]. exists A. split; auto. unfold square_poly in Q. rewrite Forall_forall in Q. apply Q. eapply nth_error_In; eauto. Qed.
Lemma msize_square m a : square_poly m a -> (1 <= length a)%nat -> msize a = Ok m.
Proof. intros Q L. destruct a as [|A a]; [cbn in L; lia|]. apply Forall_cons_iff in Q as ((_ & R & _) & _). cbn. rewrite R. auto. Qed.
Lemma mm_adds m a b : (1 <= m)%nat -> square_poly m a -> square_poly m b -> adds m (length a) (length b) (mm_step a b) (fun i j => product (Z.of_nat m) (mcoef a i) (mcoef b j)).
Proof.
  intros M1 QA QB i j T Hi Hj WT RT CT. destruct (square_at m a i QA Hi) as (A & EA & WA & RA & CA). destruct (square_at m b j QB Hj) as (B & EB & WB & RB & CB).
  unfold mm_step, at_coef. rewrite EA, EB. cbn [bind]. destruct (dot_ok A B T 1 1 WA WB WT) as (T' & E & G); unfold ncols, nrows; try lia.
  exists T'. split; auto. eapply becomes_ext; [exact G|]. intros r c H. unfold scaled. f_equal. unfold ncols. rewrite CA. unfold mcoef. rewrite EA, EB. unfold product. ring.
Qed.
Lemma ms_adds m a b : square_poly m a -> adds m (length a) (length b) (ms_step a b) (fun i j r c => mcoef a i r c * coef b j)%Qc.
Proof.
  intros QA i j T Hi Hj WT RT CT. destruct (square_at m a i QA Hi) as (A & EA & WA & RA & CA). unfold ms_step, at_coef. rewrite EA. cbn [bind]. rewrite rd_coef by auto. cbn [bind].
  destruct (multiply_scalar_ok A T WA WT (coef b j) 1) as (T' & E & G); unfold ncols, nrows; try lia. exists T'. split; auto. eapply becomes_ext; [exact G|]. intros r c H. cbn beta. f_equal. unfold mcoef. rewrite EA. ring.
Qed.
Lemma mcoef_out a k i j : (length a <= k)%nat -> mcoef a k i j = 0%Qc.
Proof. intros H. unfold mcoef. apply nth_error_None in H. rewrite H. auto. Qed.
Lemma product_zero_l n a b i j : (forall l, a i l = 0%Qc) -> product n a b i j = 0%Qc.
Proof. intros H. unfold product. induction (upto n) as [|l t IH]; auto. cbn [map]. change (qsum (?x :: ?l)) with (x + qsum l)%Qc. rewrite IH, H. ring. Qed.
Lemma product_zero_r n a b i j : (forall l, b l j = 0%Qc) -> product n a b i j = 0%Qc.
Proof. intros H. unfold product. induction (upto n) as [|l t IH]; auto. cbn [map]. change (qsum (?x :: ?l)) with (x + qsum l)%Qc. rewrite IH, H. ring. Qed.

Lemma mm_calc_ok size m a b st max n : (1 <= m)%nat -> square_poly m a -> square_poly m b -> (1 <= length a)%nat ->
  mmul_len (mdegree a) (mdegree b) max = Z.of_nat n -> Z.of_nat n * Z.of_nat (m * m) <= size -> (n * (m * m) <= length st)%nat ->
  exists st', mm_calc size [] a b st max = Ok (seq 0 n, st') /\ has_coefs m (mresult m (seq 0 n, st')) n (mconv m (mcoef a) (mcoef b)).
Proof.
  intros M1 QA QB LA EN S1 L. apply (mmul_calc_ok size a m (length b) (mm_step a b) (fun i j => product (Z.of_nat m) (mcoef a i) (mcoef b j)) st max n); auto.
  - apply msize_square; auto.
  - apply mm_adds; auto.
  - intros. apply product_zero_l. intros. apply mcoef_out. auto.
  - intros. apply product_zero_r. intros. apply mcoef_out. auto.
Qed.
Lemma ms_calc_ok size m a b st max n : square_poly m a -> (1 <= length a)%nat ->
  mmul_len (mdegree a) (degree b) max = Z.of_nat n -> Z.of_nat n * Z.of_nat (m * m) <= size -> (n * (m * m) <= length st)%nat ->
  exists st', ms_calc size [] a b st max = Ok (seq 0 n, st') /\ has_coefs m (mresult m (seq 0 n, st')) n (sconv (mcoef a) (coef b)).
Proof.
  intros QA LA EN S1 L. apply (mmul_calc_ok size a m (length b) (ms_step a b) (fun i j r c => mcoef a i r c * coef b j)%Qc st max n); auto.
  - apply msize_square; auto.
  - apply ms_adds; auto.
  - intros. rewrite mcoef_out by auto. ring.
  - intros. rewrite coef_out by auto. ring.
Qed.
