(** Proofs about CorRealModel: the matrices of all pairs. *)
From Coq Require Import Lra.
From Verif Require Import CorRealModel CorRealSpec MatProofs MatProofs2 MatDotProofs MatProofs5 MatProofs6 SplitProofs DataProofs DataProofs2 DescProofs DescProofs2 HistProofs2 StatProofs ColProofs ColProofs2 ColProofs3 CorProofs CorProofs2 CorProofs3 CorRealProofs CorRealProofs2.
Local Open Scope Z_scope.

Lemma swap_xs P : xs (map (fun ab : Qc * Qc => (snd ab, fst ab)) P) = ys P /\ ys (map (fun ab : Qc * Qc => (snd ab, fst ab)) P) = xs P.
Proof. unfold xs, ys. rewrite !map_map. auto. Qed.
Lemma rho_swap P : rho (map (fun ab => (snd ab, fst ab)) P) = rho P.
Proof. unfold rho. rewrite codev_swap. destruct (swap_xs P) as [-> ->]. f_equal. apply Rmult_comm. Qed.
Lemma cor_swap P : cor_spec (map (fun ab => (snd ab, fst ab)) P) = cor_spec P.
Proof. unfold cor_spec. rewrite rho_swap. destruct (swap_xs P) as [-> ->]. rewrite andb_comm. reflexivity. Qed.
Lemma cor_one_swap P : cor_or_one (map (fun ab => (snd ab, fst ab)) P) = cor_or_one P.
Proof. unfold cor_or_one. rewrite cor_swap. destruct (swap_xs P) as [-> ->]. rewrite orb_comm. reflexivity. Qed.
Lemma cor_no_nan_swap M j k : cor_no_nan M k j = cor_no_nan M j k.
Proof. unfold cor_no_nan. rewrite (complete_swap M j k), cor_swap, orb_comm. reflexivity. Qed.

Lemma pearson_cor_ok M sR sM sV work lower : mat_ok M -> 2 <= nrows M -> 0 < ncols M -> (cols M * cols M <= length sR)%nat -> (cols M <= length sM)%nat -> (cols M <= length sV)%nat -> mlength M <= work ->
  exists S Me Va, pearson_cor M sR sM sV work lower = Ok (S, Me, Va) /\ length (data S) = length sR /\ square_of (ncols M) lower (cor_no_nan M) S /\
    filled sM (data Me) 0 (ncols M) (fun j => Some (if_no_nan (col_values M j) mean_spec)) /\
    filled sV (data Va) 0 (ncols M) (fun j => Some (if_no_nan (col_values M j) (variance_spec false))).
Proof.
  intros W HR HC LR LM LV HW. unfold pearson_cor. destruct (Z.ltb_spec work (mlength M)); [lia|]. unfold columns_means_variances.
  assert (ML : forall s, mlength (Mat (cols M) 1 s : mat (option Qc)) = ncols M) by (intros; unfold mlength, nrows, ncols; cbn [rows cols]; lia). rewrite !ML, Z.eqb_refl. cbn [negb orb].
  destruct (col_writes M W (Mat (cols M) 1 sM) (fun l => fst (variance_of false false l))) as (Me & E & RM & CM & F); [unfold mat_ok; cbn [rows cols data]; lia|apply ML|].
  destruct (col_writes M W (Mat (cols M) 1 sV) (fun l => snd (variance_of false false l))) as (Va & EV & RV & CV & FV); [unfold mat_ok; cbn [rows cols data]; lia|apply ML|].
  rewrite E. cbn [bind]. rewrite EV. cbn [bind fst snd]. clear E EV. cbn [rows cols data] in *. destruct F as [FL F1]. destruct FV as [FVL FV].
  assert (VO : forall j, variance_of false false (col_values M j) = (if_no_nan (col_values M j) mean_spec, if_no_nan (col_values M j) (variance_spec false))).
  { intros j. apply variance_all_spec. rewrite col_length. unfold nrows in HR. lia. }
  destruct (columnwise_ok (T := option R) M (fun j x => do m <- rd (data Me) j; do v <- rd (data Va) j; Ok (standardize x m v)) (fun j x => standardize x (if_no_nan (col_values M j) mean_spec) (if_no_nan (col_values M j) (variance_spec false))) W) as (C & EC & RC & CC & WC & GC).
  { intros j x Hj. destruct (rd_ok (data Me) j) as (v & E1 & E2); [unfold ncols in Hj; lia|]. rewrite E2. cbn [bind]. rewrite F1 in E1. rewrite Z2Nat.id in E1 by lia.
    destruct (rd_ok (data Va) j) as (u & E3 & E4); [unfold ncols in Hj; lia|]. rewrite E4. cbn [bind]. rewrite FV in E3. rewrite Z2Nat.id in E3 by lia.
    destruct ((0 <=? j) && (j <? 0 + ncols M)) eqn:B; [|lia]. rewrite Z.sub_0_r, VO in E1, E3. cbn [fst snd] in E1, E3. injection E1 as <-. injection E3 as <-. reflexivity. }
  rewrite EC. cbn [bind]. assert (NC : nrows C = nrows M /\ ncols C = ncols M) by (unfold nrows, ncols; rewrite RC, CC; auto). destruct NC as [NR NC].
  destruct (gram_ok (T := option R) (Some 0%R) radd rmul C (Mat (cols M) (cols M) sR) (std_spec M) lower WC) as (S1 & E1 & B1); [unfold mat_ok; cbn [rows cols data]; lia|exact GC|lia|lia|cbn; auto|cbn; auto|].
  rewrite E1. cbn [bind]. assert (W1 : mat_ok S1) by (eapply becomes_ok; [|exact B1]; unfold mat_ok; cbn [rows cols data]; lia).
  destruct (map_in_ok (T := option R) (fun x => match x with Some v => Some (v / IZR (nrows M))%R | None => None end) S1 W1) as (S2 & E2 & B2). rewrite E2. cbn [bind].
  destruct (becomes_dims _ _ _ B1) as [D1 D2]. destruct (becomes_dims _ _ _ B2) as [D3 D4]. unfold nrows at 2 in D1. unfold ncols at 2 in D2. cbn [rows cols] in D1, D2.
  exists S2, Me, Va. split; auto. split; [rewrite (bc_length _ _ _ B2), (bc_length _ _ _ B1); auto|]. split; [|split; split; auto].
  - split; [unfold ncols; lia|]. split; [unfold ncols in *; lia|]. intros i j Hi Hj HL.
    assert (IN : inside S1 i j) by (split; unfold ncols in *; lia). rewrite (bc_entry _ _ _ B2) by auto.
    rewrite (bc_entry _ _ _ B1) by (split; unfold nrows, ncols in *; cbn [rows cols]; lia). rewrite NR.
    destruct (Z.leb_spec i j); [f_equal; apply cor_inner; lia|]. destruct lower; [|lia]. rewrite <- cor_no_nan_swap. f_equal. apply cor_inner. lia.
  - intros k. rewrite F1. destruct ((0 <=? Z.of_nat k) && (Z.of_nat k <? 0 + ncols M)); auto. rewrite VO. auto.
  - intros k. rewrite FV. destruct ((0 <=? Z.of_nat k) && (Z.of_nat k <? 0 + ncols M)); auto. rewrite VO. auto.
Qed.
(** NaN left out: the diagonal is set to 1 (and its counts are not set). *)
Lemma pearson_cor_nan_ok M adjust sR sC lower : mat_ok M -> 2 <= nrows M -> (cols M * cols M <= length sR)%nat -> sym_length true (ncols M) <= Z.of_nat (length sC) ->
  exists S C, pearson_cor_nan M sR sC adjust lower = Ok (S, C) /\ length (data S) = length sR /\ length (sdata C) = length sC /\ srows C = cols M /\
    square_of (ncols M) lower (fun i j => if i =? j then Some 1%R else cor_or_one (complete_pairs M i j)) S /\
    forall i j, 0 <= i < ncols M -> 0 <= j < ncols M -> sym_get0 true C i j = if i =? j then sym_get0 true (Sym (cols M) sC) i j else Ok (Z.of_nat (length (complete_pairs M i j))).
Proof.
  intros OM HR LR LC. unfold pearson_cor_nan. set (S := Mat (cols M) (cols M) sR).
  assert (NS : nrows S = ncols M /\ ncols S = ncols M) by (split; reflexivity). destruct NS as [NS1 NS2].
  edestruct (square_writes S (ncols M) lower (fun i j => if i =? j then Some 1%R else cor_or_one (complete_pairs M i j))) as (S' & ES & LS & SQ); [exact LR|auto|auto| | |rewrite ES; cbn [bind]].
  - intros p e H. apply in_flat_map in H. destruct H as (i & Hi & H). apply in_zrange in Hi. destruct H as [H|H].
    + injection H as <- <-. exists i, i. split; [split; lia|]. split; auto. rewrite Z.eqb_refl. split; [reflexivity|left; lia].
    + unfold pair_writes in H. apply in_flat_map in H. destruct H as (j & Hj & H). apply in_zrange in Hj. destruct (Z.ltb_spec i j); [|destruct H].
      rewrite (correlation_column_nan_ok M i j adjust) in H by (auto; lia). destruct H as [H|H].
      * injection H as <- <-. exists i, j. split; [split; lia|]. split; auto. destruct (Z.eqb_spec i j); [lia|]. split; [reflexivity|left; lia].
      * destruct lower; [|destruct H]. destruct H as [H|[]]. injection H as <- <-. exists j, i. split; [split; lia|]. split; auto. destruct (Z.eqb_spec j i); [lia|]. split; auto. cbn [bind k_cor]. rewrite (complete_swap M i j), cor_one_swap. reflexivity.
  - intros i j (Hi & Hj) L. apply in_map_iff. destruct (Z.lt_trichotomy i j) as [T|[->|T]].
    + eexists. split; [|apply in_flat_map; exists i; split; [apply in_zrange; lia|right; apply in_flat_map; exists j; split; [apply in_zrange; lia|destruct (Z.ltb_spec i j); [left; reflexivity|lia]]]]. reflexivity.
    + eexists. split; [|apply in_flat_map; exists j; split; [apply in_zrange; lia|left; reflexivity]]. reflexivity.
    + destruct L as [L | ->]; [lia|]. eexists. split; [|apply in_flat_map; exists j; split; [apply in_zrange; lia|right; apply in_flat_map; exists i; split; [apply in_zrange; lia|destruct (Z.ltb_spec j i); [right; left; reflexivity|lia]]]]. reflexivity.
  - set (Wr := flat_map (fun i => flat_map (fun j => if i <? j then [(sym_index true (ncols M) i j, do r <- correlation_column M i j adjust true; Ok (match k_count r with Some c => c | None => 0 end))] else []) (zrange 0 (ncols M))) (zrange 0 (ncols M))).
    assert (IW : forall p e, In (p, e) Wr -> exists i j, 0 <= i < ncols M /\ 0 <= j < ncols M /\ i < j /\ p = sym_index true (ncols M) i j /\ e = Ok (Z.of_nat (length (complete_pairs M i j)))).
    { intros p e H. apply in_flat_map in H. destruct H as (i & Hi & H). apply in_zrange in Hi. apply in_flat_map in H. destruct H as (j & Hj & H). apply in_zrange in Hj. destruct (Z.ltb_spec i j); [|destruct H]. destruct H as [H|[]]. injection H as <- <-.
      exists i, j. do 4 (split; [auto; lia|]). rewrite (correlation_column_nan_ok M i j adjust) by (auto; lia). reflexivity. }
    edestruct (sym_writes (dg := true) sC (cols M) (fun i j => Z.of_nat (length (complete_pairs M i j))) Wr) as (d & ED & LD & V); [exact LC| | |rewrite ED; cbn [bind]].
    + intros i j. rewrite (complete_swap M i j), map_length. auto.
    + intros p e H. destruct (IW p e H) as (i & j & Hi & Hj & L & -> & ->). exists i, j. split; [repeat split; auto; unfold ncols in *; lia|]. auto.
    + exists S', (Sym (cols M) d). split; auto. split; auto. split; auto. split; auto. split; auto. intros i j Hi Hj.
      assert (SP : sym_pair true (Z.of_nat (cols M)) i j) by (repeat split; auto; unfold ncols in *; lia). destruct (V i j SP) as [V1 V2].
      assert (Q : forall i j, 0 <= i < ncols M -> 0 <= j < ncols M -> i < j -> In (sym_index true (Z.of_nat (cols M)) i j) (map fst Wr)).
      { intros a b Ha Hb L. apply in_map_iff.
        eexists. split; [|apply in_flat_map; exists a; split; [apply in_zrange; lia|apply in_flat_map; exists b; split; [apply in_zrange; lia|destruct (Z.ltb_spec a b); [left; reflexivity|lia]]]]. reflexivity. }
      destruct (Z.eqb_spec i j) as [->|N].
      * apply V2. intros HI. apply in_map_iff in HI. destruct HI as ([p e] & EP & HI). cbn [fst] in EP. subst p. destruct (IW _ _ HI) as (a & b & Ha & Hb & L & EI & _).
        apply sym_index_inj in EI; [lia|auto|]. repeat split; auto; unfold ncols in *; lia.
      * apply V1. destruct (Z.lt_ge_cases i j); [apply Q; auto|]. rewrite sym_index_comm. apply Q; auto. lia.
Qed.
Lemma with_nan_cor K i j : mat_ok K -> 0 <= i < ncols K -> 0 <= j < ncols K -> cor_no_nan (with_nan K) i j = cor_spec (col_pairs K i j).
Proof. intros W Hi Hj. unfold cor_no_nan. rewrite !with_nan_none, with_nan_pairs by auto. reflexivity. Qed.
Lemma spearman_cor_ok M sR sM sV work lower : mat_ok M -> 2 <= nrows M -> 0 < ncols M -> (cols M * cols M <= length sR)%nat -> (cols M <= length sM)%nat -> (cols M <= length sV)%nat ->
  2 * mlength M <= Z.of_nat (length work) ->
  exists S Me Va, spearman_cor M sR sM sV work lower = Ok (S, Me, Va) /\ length (data S) = length sR /\ square_of (ncols M) lower (fun i j => cor_spec (rank_pairs (col_pairs M i j))) S.
Proof.
  intros W HR HC LR LM LV LW. unfold spearman_cor.
  assert (0 <= mlength M) by (unfold mlength, nrows, ncols; lia).
  destruct (rank_matrix (nrows M) (ncols M) M (from (mlength M) work) work W) as (K & E & RK & CK & WK & LK & CO & CP); [unfold mlength; lia|unfold from; rewrite skipn_length; lia|lia|].
  rewrite E. cbn [bind]. assert (NR : nrows (with_nan K) = nrows M) by (unfold nrows; cbn [with_nan rows]; rewrite RK; auto). assert (NC : ncols (with_nan K) = ncols M) by (unfold ncols; cbn [with_nan cols]; rewrite CK; auto).
  destruct (pearson_cor_ok (with_nan K) sR sM sV (Z.of_nat (length work) - mlength M) lower) as (S & Me & Va & E2 & LS & SQ & _).
  { apply with_nan_ok. auto. } { lia. } { lia. } { cbn [with_nan cols]. rewrite CK. auto. } { cbn [with_nan cols]. rewrite CK. auto. } { cbn [with_nan cols]. rewrite CK. auto. } { unfold mlength in *. rewrite NR, NC. lia. }
  assert (NCK : ncols K = ncols M) by exact NC.
  exists S, Me, Va. split; auto. split; auto.
  destruct SQ as (Q1 & Q2 & Q3). split; [lia|]. split; [lia|]. intros i j Hi Hj L. rewrite Q3 by lia || auto. rewrite with_nan_cor by (auto; lia). rewrite CP by auto. reflexivity.
Qed.
Definition spearman_rho M i j : option R := cor_spec (rank_pairs (complete_pairs M i j)).
Lemma spearman_rho_swap M i j : spearman_rho M i j = spearman_rho M j i.
Proof. unfold spearman_rho. rewrite (complete_swap M i j), rank_pairs_swap, cor_swap. reflexivity. Qed.
Lemma spearman_cor_pair_ok M i j : mat_ok M -> 0 <= i < ncols M -> 0 <= j < ncols M -> (2 <= length (complete_pairs M i j))%nat -> spearman_cor_pair M i j = Ok (spearman_rho M i j).
Proof.
  intros W Hi Hj N. unfold spearman_cor_pair. destruct (pair_ranks_ok M i j W Hi Hj) as (K & E & WK & CK & RK & LK & CP). rewrite E. cbn [bind].
  assert (NR : nrows (with_nan K) = nrows K) by reflexivity. assert (NC : ncols (with_nan K) = 2) by exact CK. assert (CK' : cols (with_nan K) = 2%nat) by (unfold ncols in NC; lia).
  destruct (pearson_cor_ok (with_nan K) (repeat None 4) (repeat None 2) (repeat None 2) (2 * nrows M) false) as (S & Me & Va & E2 & LS & SQ & _).
  { apply with_nan_ok. auto. } { lia. } { lia. } { rewrite CK', repeat_length. lia. } { rewrite CK', repeat_length. lia. } { rewrite CK', repeat_length. lia. } { unfold mlength in *. lia. }
  rewrite E2. cbn [bind fst]. destruct SQ as (Q1 & Q2 & Q3). specialize (Q3 0 1 ltac:(lia) ltac:(lia) ltac:(left; lia)). rewrite with_nan_cor, CP in Q3 by (auto; lia).
  unfold entry in Q3. rewrite (proj2 (inside_b S 0 1)) in Q3 by (split; lia). rewrite Q1, NC in Q3. change (Z.to_nat (1 * 2 + 0)) with 2%nat in Q3. unfold rd. change (2 <? 0) with false. cbv iota. change (Z.to_nat 2) with 2%nat. rewrite Q3. reflexivity.
Qed.
