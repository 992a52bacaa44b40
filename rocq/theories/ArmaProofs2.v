(** The polynomials of a VARMA model in the storage: proofs. *)
From Verif Require Import ArmaModel ArmaSpec MPolySpec MatProofs MatProofs2 MatDotProofs SplitProofs SplitProofs4 MatProofs4 MatProofs6 PolyProofs PolyProofs2 MPolyProofs MPolyProofs2 VarmaProofs3 VarmaProofs4 ArmaProofs.
From Coq Require Import Lia ZifyBool.
Local Open Scope Z_scope.

Lemma diagonal_ok (M : mat Qc) dv ov : mat_ok M -> nrows M = ncols M -> exists M', diagonal M dv ov = Ok M' /\ turns M (fun i j => if i =? j then dv else ov) M'.
Proof.
  intros W E. unfold diagonal. rewrite E, Z.eqb_refl. cbn [negb]. destruct (set_value_ok M ov W) as (M1 & -> & B1). cbn [bind]. pose proof (turns_ok M (fun _ _ => ov) M1 W B1) as W1.
  destruct (line_ok M1 (nrows M1) (fun t => t) (fun t => t) (fun _ => Ok dv) (fun i j => i =? j) (fun _ _ => Some dv) W1) as (M2 & E2 & B2).
  - intros t Ht. split; [|split; [lia|eauto]]. assert (ncols M1 = ncols M) by (apply (turns_ncols _ (fun _ _ => ov)); exact B1). assert (nrows M1 = nrows M) by (apply (turns_nrows _ (fun _ _ => ov)); exact B1). split; lia.
  - intros i j [Hi Hj] H. exists i. lia.
  - exists M2. split; [exact E2|]. apply (turns_trans M (fun _ _ => ov) M1); [exact B1|]. eapply becomes_ext; [exact B2|]. cbn. intros i j H. destruct (i =? j); [reflexivity|].
    rewrite (bc_entry _ _ _ B1); [reflexivity|]. apply (turns_inside _ _ _ _ _ B1). exact H.
Qed.
Lemma apply_in_ok (M : mat Qc) f : mat_ok M -> exists M', apply_in f M = Ok M' /\ turns M (fun i j => f (el M i j)) M'.
Proof. intros W. apply (vmap_ok M M (fun _ x => Ok (f x)) (fun i j => Some (f (el M i j)))); auto. intros i j _. eauto. Qed.
Lemma copy_to_ok (M S : mat Qc) : mat_ok M -> mat_ok S -> nrows S = nrows M -> ncols S = ncols M -> exists S', copy_to M S = Ok S' /\ turns S (el M) S'.
Proof.
  intros W WS R C. assert (E : copy_to M S = vmap M S (fun _ x => Ok x)). { unfold copy_to, vmap. f_equal. apply map_ext. intros k. f_equal. destruct (rd (data M) k); reflexivity. }
  rewrite E. apply (vmap_ok M S (fun _ x => Ok x) (fun i j => Some (el M i j))); auto. intros i j _. eauto.
Qed.

Section Poly.
Variables (m : nat) (coef : mat Qc) (neg : bool) (lags : list Z) (base : nat) (i0 : Z).
Hypotheses (HM : (1 <= m)%nat) (WC : mat_ok coef) (RC : nrows coef = Z.of_nat m) (I0 : 0 <= i0) (CC : i0 + Z.of_nat m * Z.of_nat (length lags) <= ncols coef) (AS : ascending 0 lags).
Let sgn : Qc := if neg then (- (1))%Qc else 1%Qc.
Lemma coef_loop_ok : forall len k0 st, (1 <= k0)%nat -> ((base + k0 + len) * (m * m) <= length st)%nat ->
  exists st', coef_loop m coef neg lags base (seq k0 len) (i0 + Z.of_nat m * rank lags (Z.of_nat k0)) st = Ok st' /\ length st' = length st /\
    forall k i j, within m i j -> bel m st' k i j = if (base + k0 <=? k)%nat && (k <? base + k0 + len)%nat then poly_coef sgn (Z.of_nat m) lags (el coef) i0 (k - base) i j else bel m st k i j.
Proof.
  induction len as [|len IH]; intros k0 st K L.
  - exists st. split; [reflexivity|]. split; [reflexivity|]. intros k i j _. replace ((base + k0 <=? k)%nat && (k <? base + k0 + 0)%nat) with false by lia. reflexivity.
  - assert (LB : (S (base + k0) * (m * m) <= length st)%nat) by (apply (block_fit m st (base + k0) (base + k0 + S len)); [lia|exact L]).
    assert (Step : exists M, (if existsb (Z.eqb (Z.of_nat k0)) lags then do M <- set_sub0 (block m st (base + k0)) 0 0 coef 0 (i0 + Z.of_nat m * rank lags (Z.of_nat k0)) (Z.of_nat m) (Z.of_nat m); (if neg then apply_in Qcopp M else Ok M) else set_value (block m st (base + k0)) 0) = Ok M /\
      turns (block m st (base + k0)) (poly_coef sgn (Z.of_nat m) lags (el coef) i0 k0) M).
    { pose proof (block_ok m st (base + k0) LB) as WB. destruct (existsb (Z.eqb (Z.of_nat k0)) lags) eqn:Ex.
      - assert (Hin : In (Z.of_nat k0) lags) by (apply isin_spec; exact Ex). pose proof (rank_in lags 0 _ AS Hin) as RI. pose proof (rank_bound lags (Z.of_nat k0)) as RB.
        destruct (block_ok_n (block m st (base + k0)) coef 0 0 0 (i0 + Z.of_nat m * rank lags (Z.of_nat k0)) (Z.of_nat m) (Z.of_nat m)) as (M & E & T); auto; try (unfold nrows, ncols, block; cbn [rows cols]; lia); try nia.
        rewrite E. cbn [bind]. pose proof (turns_ok _ _ _ WB T) as WM.
        assert (V : forall i j, inside (block m st (base + k0)) i j -> el M i j = el coef i (i0 + Z.of_nat m * rank lags (Z.of_nat k0) + j)).
        { intros i j Hij. rewrite (turns_el _ _ _ _ _ T Hij). apply inside_block in Hij. destruct Hij as [Hi Hj]. unfold in_block. replace ((0 <=? i) && (i <? 0 + Z.of_nat m) && (0 <=? j) && (j <? 0 + Z.of_nat m)) with true by lia. f_equal; lia. }
        assert (Pc : forall i j, poly_coef sgn (Z.of_nat m) lags (el coef) i0 k0 i j = (sgn * el coef i (i0 + Z.of_nat m * rank lags (Z.of_nat k0) + j))%Qc).
        { intros i j. destruct k0; [lia|]. cbn [poly_coef]. unfold isin. rewrite Ex. reflexivity. }
        destruct neg.
        + destruct (apply_in_ok M Qcopp WM) as (M2 & -> & T2). exists M2. split; [reflexivity|]. apply (turns_trans _ _ _ _ _ T). eapply becomes_ext; [exact T2|]. cbn. intros i j Hij. apply (turns_inside _ _ _ _ _ T) in Hij. f_equal. rewrite V, Pc by exact Hij. unfold sgn. ring.
        + exists M. split; [reflexivity|]. eapply becomes_ext; [exact T|]. cbn. intros i j Hij. f_equal. transitivity (el M i j); [symmetry; exact (turns_el _ _ _ _ _ T Hij)|]. rewrite V, Pc by exact Hij. unfold sgn. ring.
      - destruct (set_value_ok (block m st (base + k0)) 0 WB) as (M & E & B). exists M. split; [exact E|]. eapply becomes_ext; [exact B|]. cbn. intros i j _. f_equal. destruct k0; [lia|]. cbn [poly_coef]. unfold isin. rewrite Ex. reflexivity. }
    destruct Step as (M & E & T). pose proof (put_length _ _ _ _ _ LB T) as LP.
    destruct (IH (S k0) (put m st (base + k0) M)) as (st' & E' & L' & N); [lia|rewrite LP; replace (base + S k0 + len)%nat with (base + k0 + S len)%nat by lia; exact L|].
    exists st'. split; [|split; [lia|]].
    + cbn [seq coef_loop]. replace (Z.of_nat (S k0)) with (Z.of_nat k0 + 1) in E' by lia. rewrite (rank_next lags 0 _ AS) in E'. unfold isin in E'.
      destruct (existsb (Z.eqb (Z.of_nat k0)) lags); [|rewrite E; cbn [bind]; rewrite Z.add_0_r in E'; exact E'].
      destruct (set_sub0 _ _ _ _ _ _ _ _) as [M1| |]; cbn [bind] in E |- *; try discriminate. rewrite E. cbn [bind].
      replace (i0 + Z.of_nat m * rank lags (Z.of_nat k0) + Z.of_nat m) with (i0 + Z.of_nat m * (rank lags (Z.of_nat k0) + 1)) by lia. exact E'.
    + intros k i j W. rewrite N by exact W. rewrite (put_bel _ _ _ _ _ LB T) by exact W.
      destruct (Nat.eqb_spec k (base + k0)) as [->|Ne].
      * replace ((base + S k0 <=? base + k0)%nat) with false by lia. replace ((base + k0 <=? base + k0)%nat && (base + k0 <? base + k0 + S len)%nat) with true by lia. cbn [andb]. replace (base + k0 - base)%nat with k0 by lia. reflexivity.
      * replace ((base + k0 <=? k)%nat && (k <? base + k0 + S len)%nat) with ((base + S k0 <=? k)%nat && (k <? base + S k0 + len)%nat) by lia. reflexivity.
Qed.
Lemma arma_poly_ok max st : (S (base + max) * (m * m) <= length st)%nat ->
  exists st', arma_poly m coef neg lags base max i0 st = Ok st' /\ length st' = length st /\
    forall k i j, within m i j -> bel m st' k i j = if (base <=? k)%nat && (k <=? base + max)%nat then poly_coef sgn (Z.of_nat m) lags (el coef) i0 (k - base) i j else bel m st k i j.
Proof.
  intros L. unfold arma_poly. assert (LB : (S base * (m * m) <= length st)%nat) by (apply (block_fit m st base (S (base + max))); [lia|exact L]).
  destruct (diagonal_ok (block m st base) 1 0 (block_ok m st base LB) eq_refl) as (D & -> & T). cbn [bind]. pose proof (put_length _ _ _ _ _ LB T) as LP.
  destruct (Nat.eqb_spec max 0) as [->|Nz].
  - eexists. split; [reflexivity|]. split; [exact LP|]. intros k i j W. rewrite (put_bel _ _ _ _ _ LB T) by exact W. destruct (Nat.eqb_spec k base) as [->|Ne].
    + replace ((base <=? base)%nat && (base <=? base + 0)%nat) with true by lia. rewrite Nat.sub_diag. reflexivity.
    + replace ((base <=? k)%nat && (k <=? base + 0)%nat) with false by lia. reflexivity.
  - destruct (coef_loop_ok max 1 (put m st base D)) as (st' & E & L' & N); [lia|rewrite LP; replace (base + 1 + max)%nat with (S (base + max)) by lia; exact L|].
    rewrite (rank_0 lags 0 (Z.of_nat 1) AS) in E by lia. rewrite Z.mul_0_r, Z.add_0_r in E. exists st'. split; [exact E|]. split; [lia|]. intros k i j W. rewrite N by exact W. rewrite (put_bel _ _ _ _ _ LB T) by exact W.
    destruct (Nat.eqb_spec k base) as [->|Ne].
    + replace ((base + 1 <=? base)%nat && (base <? base + 1 + max)%nat) with false by lia. replace ((base <=? base)%nat && (base <=? base + max)%nat) with true by lia. rewrite Nat.sub_diag. reflexivity.
    + replace ((base <=? k)%nat && (k <=? base + max)%nat) with ((base + 1 <=? k)%nat && (k <? base + 1 + max)%nat) by lia. reflexivity.
Qed.
End Poly.

Lemma copy_ma_ok m base n : (1 <= m)%nat -> forall len s i st, (s + len <= base)%nat -> (i <= n)%nat -> ((base + S n) * (m * m) <= length st)%nat ->
  exists st', copy_ma m (seq s len) base i n st = Ok (st', Nat.min n (i + len)) /\ length st' = length st /\
    (forall k r c, within m r c -> (k < base + i \/ base + n < k)%nat -> bel m st' k r c = bel m st k r c) /\
    (forall j r c, within m r c -> (i <= j < Nat.min n (i + len))%nat -> bel m st' (base + j) r c = bel m st (s + (j - i)) r c).
Proof.
  intros HM. induction len as [|len IH]; intros s i st Hs Hi L; cbn [seq copy_ma].
  - exists st. rewrite Nat.add_0_r, Nat.min_r by lia. split; [reflexivity|]. split; [reflexivity|]. split; [reflexivity|]. intros j r c _ H. lia.
  - assert (L1 : (S s * (m * m) <= length st)%nat) by (apply (block_fit m st s (base + S n)); [lia|exact L]).
    assert (L2 : (S (base + i) * (m * m) <= length st)%nat) by (apply (block_fit m st (base + i) (base + S n)); [lia|exact L]).
    destruct (copy_to_ok (block m st s) (block m st (base + i)) (block_ok _ _ _ L1) (block_ok _ _ _ L2) eq_refl eq_refl) as (M & -> & T). cbn [bind]. pose proof (put_length _ _ _ _ _ L2 T) as LP. pose proof (put_bel _ _ _ _ _ L2 T) as PB.
    destruct (Nat.eqb_spec i n) as [->|Ne].
    + eexists. rewrite Nat.min_l by lia. split; [reflexivity|]. split; [exact LP|]. split; [|intros j r c _ H; lia]. intros k r c W H. rewrite PB by exact W. replace (k =? base + n)%nat with false by lia. reflexivity.
    + destruct (IH (S s) (S i) (put m st (base + i) M)) as (st' & -> & L' & N1 & N2); [lia|lia|rewrite LP; exact L|]. exists st'. replace (S i + len)%nat with (i + S len)%nat by lia. split; [reflexivity|]. split; [lia|]. split.
      * intros k r c W H. rewrite N1 by (auto; lia). rewrite PB by exact W. replace (k =? base + i)%nat with false by lia. reflexivity.
      * intros j r c W H. destruct (Nat.eq_dec j i) as [->|Nj].
        -- rewrite N1 by (auto; lia). rewrite PB by exact W. rewrite Nat.eqb_refl. rewrite Nat.sub_diag, Nat.add_0_r. reflexivity.
        -- rewrite N2 by (auto; lia). rewrite PB by exact W. replace (S s + (j - S i) =? base + i)%nat with false by lia. f_equal. lia.
Qed.
(** The multiplication keeps the length of its storage. *)
Lemma mm_calc_len size m a b st max n : (1 <= m)%nat -> square_poly m a -> square_poly m b -> (1 <= length a)%nat ->
  mmul_len (mdegree a) (mdegree b) max = Z.of_nat n -> Z.of_nat n * Z.of_nat (m * m) <= size -> (n * (m * m) <= length st)%nat ->
  exists st', mm_calc size [] a b st max = Ok (seq 0 n, st') /\ length st' = length st /\ has_coefs m (mresult m (seq 0 n, st')) n (mconv m (mcoef a) (mcoef b)).
Proof.
  intros M1 QA QB LA EN S1 L. destruct (mm_calc_ok size m a b st max n M1 QA QB LA EN S1 L) as (st' & E & H). exists st'. split; [exact E|]. split; [|exact H].
  unfold mm_calc, mmul_calc in E. rewrite (msize_square m a QA LA) in E. cbn [bind] in E. change (Z.of_nat (length b) - 1) with (mdegree b) in E. rewrite EN in E. destruct (Z.ltb_spec size (Z.of_nat n * Z.of_nat (m * m))); [lia|]. rewrite Nat2Z.id in E. cbn [app] in E.
  destruct (zero_blocks_ok m n (seq 0 n) st (Forall_seq_lt n) L) as (st1 & E1 & L1 & _). rewrite E1 in E. cbn [bind] in E.
  destruct (mmul_loop_ok m (length a) (length b) (mm_step a b) _ n (mm_adds m a b M1 QA QB) (nat_pairs (length a) (length b)) st1 (nat_pairs_bound _ _)) as (st2 & E2 & L2 & _); [lia|]. rewrite E2 in E. cbn [bind] in E.
  injection E as <-. lia.
Qed.
