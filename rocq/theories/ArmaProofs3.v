(** Calculate of VarmaArma: proofs. *)
From Verif Require Import ArmaModel ArmaSpec MPolySpec MatProofs MatProofs2 MatDotProofs SplitProofs SplitProofs4 MatProofs4 MatProofs6 PolyProofs PolyProofs2 MPolyProofs MPolyProofs2 VarmaProofs3 VarmaProofs4 ArmaProofs ArmaProofs2.
From Coq Require Import Lia ZifyBool.
Local Open Scope Z_scope.

(** ** Lags *)
Lemma last_lag_cons l l1 t : last_lag (l :: l1 :: t) = last_lag (l1 :: t).
Proof. unfold last_lag. cbn [length Nat.eqb]. replace (S (S (length t)) - 1)%nat with (S (S (length t) - 1)) by lia. reflexivity. Qed.
Lemma last_lag_max l0 lags : ascending l0 lags -> forall l, In l lags -> l <= last_lag lags.
Proof.
  revert l0. induction lags as [|l1 t IH]; intros l0 A l H; [destruct H|]. destruct t as [|l2 t]; [destruct H as [<-|[]]; cbn; lia|].
  rewrite last_lag_cons. cbn in A. destruct A as (A0 & A1 & A2). assert (A' : ascending l1 (l2 :: t)) by (cbn; split; [exact A1|exact A2]). destruct H as [<-|H]; [|exact (IH l1 A' l H)].
  pose proof (IH l1 A' l2 (or_introl eq_refl)). lia.
Qed.
Lemma last_lag_pos lags : ascending 0 lags -> 0 <= last_lag lags.
Proof.
  intros A. destruct lags as [|l t]; [cbn; lia|]. pose proof (last_lag_max 0 _ A l (or_introl eq_refl)). pose proof (ascending_all 0 _ A l (or_introl eq_refl)). lia.
Qed.
Lemma poly_coef_beyond sgn g lags a s k i j : ascending 0 lags -> (Z.to_nat (last_lag lags) < k)%nat -> poly_coef sgn g lags a s k i j = 0%Qc.
Proof.
  intros A H. destruct k as [|k]; [lia|]. cbn [poly_coef]. destruct (isin lags (Z.of_nat (S k))) eqn:E; [|reflexivity]. apply isin_spec in E. pose proof (last_lag_max 0 _ A _ E). pose proof (last_lag_pos _ A). lia.
Qed.

(** ** Blocks *)
Lemma nth_skip {A} (d : A) l n i : nth i (skipn n l) d = nth (n + i) l d.
Proof. revert n. induction l as [|x l IH]; intros [|n]; auto; [destruct i; reflexivity|cbn [skipn]; rewrite IH; reflexivity]. Qed.
Lemma nth_first {A} (d : A) l n i : (i < n)%nat -> nth i (firstn n l) d = nth i l d.
Proof. revert n i. induction l as [|x l IH]; intros [|n] [|i] H; auto; try lia. cbn [firstn nth]. apply IH. lia. Qed.
Lemma bel_nth m st k i j : within m i j -> bel m st k i j = nth (k * (m * m) + Z.to_nat (j * Z.of_nat m + i)) st 0%Qc.
Proof.
  intros W. unfold bel, el. rewrite entry_block by exact W. destruct (nth_error st _) eqn:E; [symmetry; apply nth_error_nth; exact E|]. apply nth_error_None in E. symmetry. apply nth_overflow. exact E.
Qed.
Lemma bel_parts m st r p n : length r = (n * (m * m))%nat -> ((p + n) * (m * m) <= length st)%nat ->
  let st' := firstn (p * (m * m)) st ++ r ++ skipn ((p + n) * (m * m)) st in
  length st' = length st /\ forall k i j, within m i j -> bel m st' k i j = if (p <=? k)%nat && (k <? p + n)%nat then bel m r (k - p) i j else bel m st k i j.
Proof.
  intros LR L st'. assert (L1 : length (firstn (p * (m * m)) st) = (p * (m * m))%nat) by (rewrite firstn_length_le; nia). split.
  - unfold st'. rewrite !app_length, L1, LR, skipn_length. nia.
  - intros k i j W. rewrite !bel_nth by exact W. pose proof (within_pos _ _ _ W) as Q. set (x := Z.to_nat (j * Z.of_nat m + i)) in *. clearbody x. set (mm := (m * m)%nat) in *. clearbody mm. clear W. unfold st'.
    destruct (Nat.leb_spec p k) as [H1|H1]; cbn [andb].
    + rewrite app_nth2 by (rewrite L1; nia). rewrite L1. destruct (Nat.ltb_spec k (p + n)) as [H2|H2].
      * rewrite app_nth1 by (rewrite LR; nia). f_equal. nia.
      * rewrite app_nth2 by (rewrite LR; nia). rewrite LR, nth_skip. f_equal. nia.
    + rewrite app_nth1 by (rewrite L1; nia). apply nth_first. nia.
Qed.
Lemma blocks_poly m st s n : ((s + n) * (m * m) <= length st)%nat -> square_poly m (map (block m st) (seq s n)) /\ forall k i j, mcoef (map (block m st) (seq s n)) k i j = if (k <? n)%nat then bel m st (s + k) i j else 0%Qc.
Proof.
  intros L. split.
  - apply Forall_map. apply Forall_forall. intros k Hk. apply in_seq in Hk. split; [|auto]. apply block_ok. apply (block_fit m st k (s + n)); [lia|exact L].
  - intros k i j. unfold mcoef. rewrite nth_error_map. destruct (Nat.ltb_spec k n) as [H|H].
    + replace (nth_error (seq s n) k) with (Some (s + k)%nat); [reflexivity|]. symmetry. rewrite nth_error_nth' with (d := 0%nat) by (rewrite seq_length; exact H). rewrite seq_nth by exact H. reflexivity.
    + replace (nth_error (seq s n) k) with (@None nat); [reflexivity|]. symmetry. apply nth_error_None. rewrite seq_length. exact H.
Qed.
(** ** Series *)
Lemma sconv_beyond a d k i j x y : (forall p, (x < p)%nat -> a p i j = 0%Qc) -> (forall p, (y < p)%nat -> d p = 0%Qc) -> (x + y < k)%nat -> sconv a d k i j = 0%Qc.
Proof.
  intros HA HD H. unfold sconv. apply qsum_map0. intros p Hp. apply in_seq in Hp. destruct (Nat.ltb_spec x p); [rewrite HA by lia; ring|rewrite HD by lia; ring].
Qed.
Lemma filtered_one y k i j : filtered (coef [1%Qc]) y k i j = y k i j.
Proof.
  unfold filtered. rewrite sumn_front, Nat.sub_0_r. change (coef [1%Qc] 0) with 1%Qc. rewrite sumn_zero; [ring|]. intros q _. unfold coef. destruct q; cbn; ring.
Qed.
Lemma mconv_one_l m b k : same m (mconv m mone b k) (b k).
Proof.
  intros i j W. rewrite mconv_sumn, sumn_front, Nat.sub_0_r. cbn [mone]. rewrite product_iden_l by exact W. rewrite sumn_zero; [ring|]. intros q _. apply product_zero_l. reflexivity.
Qed.
Lemma mconv_one_r m a k : same m (mconv m a mone k) (a k).
Proof.
  intros i j W. rewrite mconv_sumn, sumn_S, Nat.sub_diag. cbn [mone]. rewrite sumn_zero.
  - rewrite Qcplus_0_l. unfold product, iden. destruct W as [_ Wj]. transitivity (qsum (map (fun l => if l =? j then a k i l else 0%Qc) (upto (Z.of_nat m)))); [|apply (pick (Z.of_nat m) (fun l => a k i l) j Wj)]. apply (f_equal qsum). apply map_ext. intros l. cbv beta. change (mone 0 l j) with (if l =? j then 1%Qc else 0%Qc). destruct (l =? j); [apply Qcmult_1_r|apply Qcmult_0_r].
  - intros q Hq. destruct (k - q)%nat eqn:E; [lia|]. apply product_zero_r. reflexivity.
Qed.

(** ** Inversion *)
(** dgetrf and dgetri, given an identity matrix, leave the identity matrix (and report no error). *)
Definition inverts_identity (lapack : mat Qc -> list Qc -> list Qc * Z) (m : nat) : Prop :=
  forall A, mat_ok A -> rows A = m -> cols A = m -> (forall i j, within m i j -> el A i j = iden i j) -> lapack_leaves lapack m A 0 iden.
Lemma invert_ok lapack size wsize m a st w n : (1 <= m)%nat -> inverts_identity lapack m -> square_poly m a -> (1 <= length a)%nat -> same m (mcoef a 0) iden -> (1 <= n)%nat ->
  Z.of_nat n * Z.of_nat (m * m) <= size -> Z.of_nat (length a) * Z.of_nat (m * m) <= wsize -> (n * (m * m) <= length st)%nat -> (length a * (m * m) <= length w)%nat ->
  exists st', minv_calc lapack size wsize [] a st w n = Ok (seq 0 n, st') /\ length st' = length st /\ forall k, (k < n)%nat -> same m (mconv m (mcoef a) (bel m st') k) (mone k).
Proof.
  intros M1 HI QA LA H0 N1 S1 S2 L1 L2. destruct (nth_error a 0) as [A0|] eqn:E0; [|apply nth_error_None in E0; lia].
  assert (WA : mat_ok A0 /\ rows A0 = m /\ cols A0 = m). { unfold square_poly in QA. rewrite Forall_forall in QA. apply QA. apply nth_error_In in E0. exact E0. }
  destruct (minv_calc_ok lapack size wsize m a A0 0 iden st w n) as (st' & E & L & B0 & BS); auto; try lia.
  { apply HI; try tauto. intros i j W. rewrite <- (H0 i j W). rewrite (mcoef_some _ _ _ E0). reflexivity. }
  exists st'. split; [exact E|]. split; [exact L|]. apply (inverse_series m a iden (bel m st') n N1); auto.
  intros i j W. rewrite (product_ext m (mcoef a 0) iden iden iden); auto; [|unfold same; auto]. apply product_iden_l. exact W.
Qed.

(** ** The whole calculation *)
Section Calc.
Variables (lapack : mat Qc -> list Qc -> list Qc * Z) (z : vsizes) (n : nat) (cm : mat Qc) (st work : list Qc).
Let m := Z.to_nat (v_eqs z).
Let a := Z.to_nat (v_armax z).
Let q := Z.to_nat (v_mamax z).
Let p := (S a + S q)%nat.
Let AR := poly_coef (- (1)) (v_eqs z) (v_arlags z) (el cm) 0.
Let MA := poly_coef 1 (v_eqs z) (v_malags z) (el cm) (v_mastart z).
Let pure := negb (v_hasdiff z) && negb (v_hasar z).
Hypotheses (G : 1 <= v_eqs z) (NX : 0 <= v_exo z) (A1 : ascending 0 (v_arlags z)) (A2 : ascending 0 (v_malags z)) (HD : hd_error (v_diff z) = Some 1%Qc)
  (WC : mat_ok cm) (RC : nrows cm = v_eqs z) (CC : ncols cm = v_paramseq z) (HI : inverts_identity lapack m) (BT : v_armaxd z < ti_max) (BN : Z.of_nat n <= ti_max)
  (LS : ((p + n + if pure then 1 else 0) * (m * m) <= length st)%nat) (LW : arma_work z (Z.of_nat n) <= Z.of_nat (length work)).

Lemma mm_eq : mm z = Z.of_nat (m * m). Proof. unfold mm, m. nia. Qed.
Lemma arma_calc_ok : exists st', arma_calc lapack z n cm st work = Ok st' /\ length st' = length st /\
  (forall k, (k <= a)%nat -> same m (bel m st' k) (AR k)) /\ (forall k, (k <= q)%nat -> same m (bel m st' (S a + k)) (MA k)) /\
  (forall k, (k < n)%nat -> same m (mconv m AR (filtered (coef (v_diff z)) (fun k => bel m st' (p + k))) k) (MA k)) /\
  (forall k, (p + n + (if pure then 1 else 0) <= k)%nat -> same m (bel m st' k) (bel m st k)) /\
  (pure = true -> n <> O -> forall i j, within m i j -> bel m st' (p + n) i j = 0%Qc).
Proof.
  assert (M1 : (1 <= m)%nat) by (unfold m; lia). assert (Gm : Z.of_nat m = v_eqs z) by (unfold m; lia).
  assert (A0 : 0 <= v_armax z) by (apply last_lag_pos; exact A1). assert (Q0 : 0 <= v_mamax z) by (apply last_lag_pos; exact A2).
  pose proof mm_eq as EM. assert (MM1 : (1 <= m * m)%nat) by nia.
  unfold arma_calc. rewrite CC, Z.eqb_refl. cbn [negb]. cbv zeta. fold m a q. change (S a + S q)%nat with p.
  destruct (arma_poly_ok m cm true (v_arlags z) 0 0 M1 WC ltac:(lia) ltac:(lia) ltac:(unfold v_paramseq, v_mastart, v_arlen, v_malen in *; nia) A1 a st) as (s1 & E1 & L1 & N1).
  { etransitivity; [|exact LS]. apply Nat.mul_le_mono_r. unfold p. lia. }
  rewrite E1. cbn [bind].
  replace (v_paramseq z - v_eqs z * v_malen z) with (v_mastart z) by (unfold v_paramseq; lia).
  destruct (arma_poly_ok m cm false (v_malags z) (S a) (v_mastart z) M1 WC ltac:(lia) ltac:(unfold v_mastart, v_arlen; nia) ltac:(unfold v_paramseq, v_malen in *; nia) A2 q s1) as (s2 & E2 & L2 & N2).
  { rewrite L1. etransitivity; [|exact LS]. apply Nat.mul_le_mono_r. unfold p. lia. }
  rewrite E2. cbn [bind]. cbv zeta in *.
  assert (B1 : forall k, (k <= a)%nat -> same m (bel m s2 k) (AR k)).
  { intros k Hk i j W. rewrite N2 by exact W. replace ((S a <=? k)%nat) with false by lia. cbn [andb]. rewrite N1 by exact W. replace ((0 <=? k)%nat && (k <=? 0 + a)%nat) with true by lia. rewrite Nat.sub_0_r, Gm. reflexivity. }
  assert (B2 : forall k, (k <= q)%nat -> same m (bel m s2 (S a + k)) (MA k)).
  { intros k Hk i j W. rewrite N2 by exact W. replace ((S a <=? S a + k)%nat && (S a + k <=? S a + q)%nat) with true by lia. replace (S a + k - S a)%nat with k by lia. rewrite Gm. reflexivity. }
  assert (B3 : forall k, (p <= k)%nat -> same m (bel m s2 k) (bel m st k)).
  { intros k Hk i j W. unfold p in Hk. rewrite N2 by exact W. replace ((S a <=? k)%nat && (k <=? S a + q)%nat) with false by lia. rewrite N1 by exact W. replace ((0 <=? k)%nat && (k <=? 0 + a)%nat) with false by lia. reflexivity. }
  destruct (Nat.eqb_spec n 0) as [Z0|NZ].
  { exists s2. split; [reflexivity|]. split; [lia|]. split; [exact B1|]. split; [exact B2|]. split; [intros k Hk; lia|]. split; [intros k Hk; apply B3; lia|]. intros _ H. lia. }
  change (negb (v_hasdiff z) && negb (v_hasar z)) with pure. destruct pure eqn:EP.
  - (* only MA *)
    assert (EA : v_arlags z = [] /\ v_diff z = [1%Qc]).
    { unfold pure, v_hasdiff, v_hasar, v_arlen in EP. apply andb_true_iff in EP. destruct EP as [P1 P2]. rewrite negb_involutive in P2. destruct (v_arlags z); [|cbn in P2; lia]. split; [reflexivity|]. destruct (v_diff z) as [|x [|y t]]; [discriminate HD|injection HD as ->; reflexivity|cbn in P1; lia]. }
    destruct EA as [EAR ED]. assert (a = 0%nat) as EA0 by (unfold a, v_armax; rewrite EAR; reflexivity).
    destruct (copy_ma_ok m p n M1 (S q) (S a) 0 s2) as (s3 & E3 & L3 & N3 & N4); [unfold p; lia|lia|rewrite L2, L1; etransitivity; [|exact LS]; apply Nat.mul_le_mono_r; lia|].
    rewrite E3. cbn [bind]. set (c := Nat.min n (0 + S q)) in *. assert (Cb : (c <= n /\ c <= S q /\ (c = n \/ c = S q))%nat) by lia. clearbody c.
    destruct (zero_blocks_ok m (p + S n) (map (Nat.add p) (seq c (S n - c))) s3) as (s4 & E4 & L4 & N5).
    { apply Forall_map. apply Forall_forall. intros k Hk. apply in_seq in Hk. lia. }
    { rewrite L3, L2, L1. etransitivity; [|exact LS]. apply Nat.mul_le_mono_r. lia. }
    rewrite E4. exists s4. split; [reflexivity|]. split; [lia|].
    assert (Ex : forall k, existsb (Nat.eqb k) (map (Nat.add p) (seq c (S n - c))) = (p + c <=? k)%nat && (k <=? p + n)%nat).
    { intros k. apply eq_true_iff_eq. rewrite existsb_exists. split.
      - intros (x & Hx & Ek). apply Nat.eqb_eq in Ek. subst x. apply in_map_iff in Hx. destruct Hx as (y & <- & Hy). apply in_seq in Hy. lia.
      - intros H. exists k. split; [|apply Nat.eqb_refl]. apply in_map_iff. exists (k - p)%nat. split; [lia|]. apply in_seq. lia. }
    assert (Keep : forall k, (k < p)%nat -> same m (bel m s4 k) (bel m s2 k)).
    { intros k Hk i j W. rewrite N5, Ex by exact W. replace ((p + c <=? k)%nat) with false by lia. cbn [andb]. apply N3; [exact W|lia]. }
    split; [intros k Hk i j W; rewrite (Keep k) by (try exact W; unfold p; lia); apply B1; [exact Hk|exact W]|].
    split; [intros k Hk i j W; rewrite (Keep (S a + k)%nat) by (try exact W; unfold p; lia); apply B2; [exact Hk|exact W]|].
    split; [|split].
    + intros k Hk. assert (Psi : forall k', (k' <= k)%nat -> same m (bel m s4 (p + k')) (MA k')).
      { intros k' Hk' i j W. rewrite N5, Ex by exact W. destruct (Nat.ltb_spec k' c) as [H|H].
        - replace ((p + c <=? p + k')%nat) with false by lia. cbn [andb]. rewrite N4 by (try exact W; lia). rewrite Nat.sub_0_r. apply B2; [lia|exact W].
        - replace ((p + c <=? p + k')%nat && (p + k' <=? p + n)%nat) with true by lia. unfold MA. symmetry. apply poly_coef_beyond; [exact A2|]. fold (v_mamax z). fold q. lia. }
      intros i j W. transitivity (mconv m mone MA k i j); [|apply mconv_one_l; exact W]. apply mconv_ext; [| |exact W]; intros p0 Hp0 i0 j0 W0.
      * unfold AR. rewrite EAR. destruct p0; reflexivity.
      * rewrite ED, filtered_one. apply Psi; [lia|exact W0].
    + intros k Hk i j W. rewrite N5, Ex by exact W. replace ((p + c <=? k)%nat && (k <=? p + n)%nat) with false by lia. rewrite N3 by (try exact W; lia). apply B3; [lia|exact W].
    + intros _ _ i j W. rewrite N5, Ex by exact W. replace ((p + c <=? p + n)%nat && (p + n <=? p + n)%nat) with true by lia. reflexivity.
  - (* AR or differences *)
    rewrite Nat.add_0_r in LS |- *. assert (LS2 : (p * (m * m) <= length s2)%nat) by (rewrite L2, L1; etransitivity; [|exact LS]; apply Nat.mul_le_mono_r; lia).
    destruct (blocks_poly m s2 0 (S a)) as [SA VA]; [etransitivity; [|exact LS2]; apply Nat.mul_le_mono_r; unfold p; lia|].
    destruct (blocks_poly m s2 (S a) (S q)) as [SM VM]; [exact LS2|].
    set (ar := map (block m s2) (seq 0 (S a))) in *. set (ma := map (block m s2) (seq (S a) (S q))) in *.
    assert (La : length ar = S a) by (unfold ar; rewrite map_length; apply seq_length). assert (Lm : length ma = S q) by (unfold ma; rewrite map_length; apply seq_length). clearbody ar ma.
    assert (CA : forall k, same m (mcoef ar k) (AR k)).
    { intros k i j W. rewrite VA. destruct (Nat.ltb_spec k (S a)) as [H|H]; [apply B1; [lia|exact W]|]. symmetry. apply poly_coef_beyond; [exact A1|]. fold (v_armax z). fold a. lia. }
    assert (CM : forall k, same m (mcoef ma k) (MA k)).
    { intros k i j W. rewrite VM. destruct (Nat.ltb_spec k (S q)) as [H|H]; [apply B2; [lia|exact W]|]. symmetry. apply poly_coef_beyond; [exact A2|]. fold (v_mamax z). fold q. lia. }
    set (q0 := if v_hasdiff z then Z.of_nat (length (v_diff z)) + mul1_size z else 0).
    set (iwork := (ardiff_degree z + 1) * mm z). set (isize := Z.of_nat n * mm z).
    assert (AD0 : 0 <= ardiff_degree z). { unfold ardiff_degree, v_diffdeg. destruct (v_hasdiff z); [|lia]. destruct (length (v_diff z) =? 0)%nat; lia. }
    assert (M10 : 0 <= mul1_size z). { unfold mul1_size. rewrite EM. apply Z.mul_nonneg_nonneg; [|lia]. unfold mmul_len, ti_max, v_diffdeg. destruct (Nat.eqb_spec (length (v_diff z)) 0); lia. }
    assert (LW' : q0 + (if v_hasma z then iwork + isize else iwork) <= Z.of_nat (length work)).
    { unfold arma_work in LW. replace (0 <? Z.of_nat n) with true in LW by lia. fold pure in LW. rewrite EP in LW. fold q0 iwork isize in LW. exact LW. }
    assert (IW0 : 0 <= iwork) by (unfold iwork; rewrite EM; nia). assert (IS0 : 0 <= isize) by (unfold isize; rewrite EM; nia). assert (Q00 : 0 <= q0) by (unfold q0; destruct (v_hasdiff z); lia).
    assert (LW1 : q0 + iwork <= Z.of_nat (length work)) by (destruct (v_hasma z); lia).
    assert (Diff : exists ad, (if v_hasdiff z then
         do dp <- writes (map (fun i => (i, rd (v_diff z) i)) (zrange 0 (Z.of_nat (length (v_diff z))))) (piece work 0 (Z.of_nat (length (v_diff z))));
         do r <- ms_calc (mul1_size z) [] ar dp (piece work (Z.of_nat (length (v_diff z))) (mul1_size z)) ti_max;
         Ok (mresult m r, Z.of_nat (length (v_diff z)) + mul1_size z)
       else Ok (ar, 0)) = Ok (ad, q0) /\ square_poly m ad /\ (1 <= length ad)%nat /\ Z.of_nat (length ad) <= ardiff_degree z + 1 /\ forall k, same m (mcoef ad k) (sconv AR (coef (v_diff z)) k)).
    { unfold q0 in *. destruct (v_hasdiff z) eqn:HDf.
      - assert (DD : v_diffdeg z = Z.of_nat (length (v_diff z)) - 1 /\ (2 <= length (v_diff z))%nat) by (unfold v_hasdiff in HDf; unfold v_diffdeg; destruct (Nat.eqb_spec (length (v_diff z)) 0); lia). destruct DD as [DD D2].
        set (d := length (v_diff z)) in *. assert (PL : length (piece work 0 (Z.of_nat d)) = d) by (unfold piece; rewrite Nat2Z.id; cbn [Z.to_nat skipn]; rewrite firstn_length; lia).
        pose proof (copy_ok (v_diff z) (piece work 0 (Z.of_nat d)) d ltac:(unfold d; lia) ltac:(lia)) as CO. rewrite CO. cbn [bind].
        rewrite skipn_all2 by lia. rewrite app_nil_r. unfold d at 1. rewrite firstn_all.
        assert (EN : mmul_len (mdegree ar) (degree (v_diff z)) ti_max = Z.of_nat (a + d)).
        { unfold mmul_len, mdegree, degree. rewrite La. fold d. unfold v_armaxd in BT. rewrite DD in BT. unfold ti_max in *. lia. }
        assert (EN2 : mul1_size z = Z.of_nat (a + d) * Z.of_nat (m * m)).
        { unfold mul1_size. rewrite EM. f_equal. rewrite <- EN. unfold mdegree, degree. rewrite La. fold d. rewrite DD. unfold a. f_equal; lia. }
        assert (PL2 : length (piece work (Z.of_nat d) (mul1_size z)) = ((a + d) * (m * m))%nat).
        { unfold piece. rewrite firstn_length, skipn_length. rewrite EN2 in *. clear - LW1 IW0 D2. lia. }
        destruct (ms_calc_ok (mul1_size z) m ar (v_diff z) (piece work (Z.of_nat d) (mul1_size z)) ti_max (a + d) SA ltac:(lia) EN ltac:(lia) ltac:(lia)) as (s3 & E3 & H1 & H2 & H3).
        rewrite E3. cbn [bind]. eexists. split; [reflexivity|]. split; [exact H2|]. rewrite H1. split; [lia|]. split.
        + unfold ardiff_degree. rewrite HDf, DD. unfold a. lia.
        + intros k i j W. destruct (Nat.ltb_spec k (a + d)) as [H|H].
          * rewrite H3 by (try exact H; apply W). unfold sconv. f_equal. apply map_ext. intros x. rewrite (CA x i j W). reflexivity.
          * rewrite mcoef_out by lia. symmetry. apply (sconv_beyond _ _ _ _ _ a (d - 1)); [| |lia].
            -- intros x Hx. apply poly_coef_beyond; [exact A1|exact Hx].
            -- intros x Hx. unfold coef. apply nth_overflow. fold d. lia.
      - exists ar. split; [reflexivity|]. split; [exact SA|]. split; [lia|]. split; [unfold ardiff_degree; rewrite HDf; unfold a in La; lia|].
        assert (ED : v_diff z = [1%Qc]). { unfold v_hasdiff in HDf. destruct (v_diff z) as [|x [|y t]]; [discriminate HD|injection HD as ->; reflexivity|cbn in HDf; lia]. }
        intros k i j W. rewrite (CA k i j W), ED. unfold sconv. rewrite seq_S, map_app, qsum_app. cbn [map Nat.add]. rewrite Nat.sub_diag. change (coef [1%Qc] 0) with 1%Qc. rewrite qsum_map0; [change (qsum [?x]) with (x + 0)%Qc; ring|].
        intros x Hx. apply in_seq in Hx. unfold coef. destruct (k - x)%nat as [|[|y]] eqn:Ek; [lia| |]; cbn; ring. }
    destruct Diff as (ad & ED & SD & LD & DD & CD). rewrite ED. cbn [bind]. fold isize iwork.
    assert (C0 : same m (mcoef ad 0) iden).
    { intros i j W. rewrite (CD 0%nat i j W). unfold sconv. cbn [seq map]. rewrite Nat.sub_diag. change (qsum [?x]) with (x + 0)%Qc. replace (coef (v_diff z) 0) with 1%Qc by (destruct (v_diff z); [discriminate HD|injection HD as ->; reflexivity]). change (AR 0%nat i j) with (iden i j). ring. }
    assert (Inv : Z.of_nat n * Z.of_nat (m * m) <= isize) by (unfold isize; rewrite EM; lia).
    assert (Wrk : Z.of_nat (length ad) * Z.of_nat (m * m) <= iwork) by (unfold iwork; rewrite EM; nia).
    assert (PH : length (piece s2 (Z.of_nat (p * (m * m))) isize) = (n * (m * m))%nat).
    { unfold piece. rewrite firstn_length, skipn_length, Nat2Z.id, L2, L1. unfold isize. rewrite EM. replace (Z.to_nat (Z.of_nat n * Z.of_nat (m * m))) with (n * (m * m))%nat by lia. clear - LS. nia. }
    assert (Fin : forall r, length r = (n * (m * m))%nat -> (forall k, (k < n)%nat -> same m (mconv m (sconv AR (coef (v_diff z))) (bel m r) k) (MA k)) ->
      let s4 := firstn (p * (m * m)) s2 ++ r ++ skipn ((p + n) * (m * m)) s2 in length s4 = length st /\
      (forall k, (k <= a)%nat -> same m (bel m s4 k) (AR k)) /\ (forall k, (k <= q)%nat -> same m (bel m s4 (S a + k)) (MA k)) /\
      (forall k, (k < n)%nat -> same m (mconv m AR (filtered (coef (v_diff z)) (fun k => bel m s4 (p + k))) k) (MA k)) /\
      (forall k, (p + n <= k)%nat -> same m (bel m s4 k) (bel m st k)) /\ (false = true -> n <> O -> forall i j, within m i j -> bel m s4 (p + n) i j = 0%Qc)).
    { intros r Lr HR s4. destruct (bel_parts m s2 r p n Lr) as [L4 N4]; [rewrite L2, L1; exact LS|]. fold s4 in L4, N4. split; [lia|].
      split; [intros k Hk i j W; rewrite N4 by exact W; replace ((p <=? k)%nat) with false by (unfold p; lia); cbn [andb]; apply B1; [exact Hk|exact W]|].
      split; [intros k Hk i j W; rewrite N4 by exact W; replace ((p <=? S a + k)%nat) with false by (unfold p; lia); cbn [andb]; apply B2; [exact Hk|exact W]|].
      split; [|split; [|discriminate]].
      - intros k Hk i j W. rewrite <- (HR k Hk i j W). rewrite mconv_scalar. apply mconv_ext; [intros x Hx i0 j0 W0; reflexivity| |exact W]. intros x Hx i0 j0 W0. unfold filtered. apply sumn_ext. intros y Hy. rewrite N4 by exact W0.
        replace ((p <=? p + (x - y))%nat && (p + (x - y) <? p + n)%nat) with true by lia. replace (p + (x - y) - p)%nat with (x - y)%nat by lia. reflexivity.
      - intros k Hk i j W. rewrite N4 by exact W. replace ((p <=? k)%nat && (k <? p + n)%nat) with false by lia. apply B3; [lia|exact W]. }
    destruct (v_hasma z) eqn:HM.
    + assert (P1 : length (piece work q0 isize) = (n * (m * m))%nat).
      { unfold piece. rewrite firstn_length, skipn_length. unfold isize in *. rewrite EM in *. clear - LW' IW0 Q00. lia. }
      assert (P2 : Z.of_nat (length (piece work (q0 + isize) iwork)) = iwork).
      { unfold piece. rewrite firstn_length, skipn_length. clear - LW' IW0 Q00 IS0. lia. }
      destruct (invert_ok lapack isize iwork m ad (piece work q0 isize) (piece work (q0 + isize) iwork) n) as (s5 & E5 & L5 & I5); auto; try lia.
      rewrite E5. cbn [bind].
      assert (SB : square_poly m (mresult m (seq 0 n, s5))) by (apply (mresult_square m (seq 0 n) s5 n (Forall_seq_lt n)); lia).
      assert (LB : length (mresult m (seq 0 n, s5)) = n) by (unfold mresult; rewrite map_length; apply seq_length).
      assert (VB : forall k, (k < n)%nat -> forall i j, mcoef (mresult m (seq 0 n, s5)) k i j = bel m s5 k i j) by (intros k Hk i j; apply mresult_coef; apply nth_error_seq0; exact Hk).
      destruct (mm_calc_len (mmul_len (Z.of_nat n - 1) (v_mamax z) ti_max * mm z) m (mresult m (seq 0 n, s5)) ma (piece s2 (Z.of_nat (p * (m * m))) isize) (Z.of_nat n) n) as (s6 & E6 & L6 & V6); auto; try lia.
      { unfold mmul_len, mdegree. rewrite LB, Lm. lia. }
      { rewrite EM. apply Z.mul_le_mono_nonneg_r; [lia|]. unfold mmul_len. lia. }
      rewrite E6. cbn [bind snd]. eexists. split; [reflexivity|]. apply Fin; [lia|]. intros k Hk.
      destruct V6 as (_ & _ & V6).
      assert (Ps : forall x, (x <= k)%nat -> same m (bel m s6 x) (mconv m (bel m s5) MA x)).
      { intros x Hx i j W. rewrite <- (mresult_coef m (seq 0 n) s6 x i j x) by (apply nth_error_seq0; lia). rewrite V6 by (try lia; apply W). apply mconv_ext; [intros y Hy i0 j0 W0; apply VB; lia|intros y Hy i0 j0 W0; apply CM; exact W0|exact W]. }
      intros i j W. transitivity (mconv m (sconv AR (coef (v_diff z))) (mconv m (bel m s5) MA) k i j); [apply mconv_ext; [intros x _ i0 j0 _; reflexivity|exact Ps|exact W]|].
      rewrite <- mconv_assoc. transitivity (mconv m mone MA k i j); [|apply mconv_one_l; exact W]. apply mconv_ext; [|intros x _ i0 j0 _; reflexivity|exact W].
      intros x Hx i0 j0 W0. rewrite <- (I5 x ltac:(lia) i0 j0 W0). symmetry. apply mconv_ext; [intros y _; apply CD|intros y _ i1 j1 _; reflexivity|exact W0].
    + assert (P2 : Z.of_nat (length (piece work q0 iwork)) = iwork).
      { unfold piece. rewrite firstn_length, skipn_length. clear - LW' IW0 Q00. lia. }
      destruct (invert_ok lapack isize iwork m ad (piece s2 (Z.of_nat (p * (m * m))) isize) (piece work q0 iwork) n) as (s5 & E5 & L5 & I5); auto; try lia.
      rewrite E5. cbn [bind snd]. eexists. split; [reflexivity|]. apply Fin; [lia|]. intros k Hk i j W.
      transitivity (mone k i j).
      * rewrite <- (I5 k Hk i j W). symmetry. apply mconv_ext; [intros y _; apply CD|intros y _ i1 j1 _; reflexivity|exact W].
      * unfold MA. assert (EMl : v_malags z = []) by (unfold v_hasma, v_malen in HM; destruct (v_malags z); [reflexivity|cbn in HM; lia]). rewrite EMl. destruct k; reflexivity.
Qed.
End Calc.
