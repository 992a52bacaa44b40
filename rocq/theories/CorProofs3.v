(** Proofs about CorModel: ranks. *)
From Verif Require Import CorModel CorSpec MatProofs MatProofs2 MatDotProofs MatProofs5 MatProofs6 SplitProofs DataProofs DataProofs2 DescProofs DescProofs2 HistProofs2 StatProofs ColProofs ColProofs2 ColProofs3 CorProofs CorProofs2.
Local Open Scope Z_scope.

Lemma entry_map {A B} (f : A -> B) (M : mat A) i j : entry (Mat (rows M) (cols M) (map f (data M))) i j = match entry M i j with Some x => Some (f x) | None => None end.
Proof. unfold entry. change (insideb (Mat (rows M) (cols M) (map f (data M))) i j) with (insideb M i j). destruct (insideb M i j); auto. cbn [data]. rewrite nth_error_map. change (nrows (Mat (rows M) (cols M) (map f (data M)))) with (nrows M). destruct (nth_error _ _); auto. Qed.
Lemma opel_with_nan K i j : mat_ok K -> inside K i j -> opel (with_nan K) i j = Some (el K i j).
Proof. intros W H. unfold opel, with_nan. rewrite entry_map, (entry_el K i j W H). reflexivity. Qed.
Lemma el_numbers D i j v : entry D i j = Some (Some v) -> el (numbers D) i j = v.
Proof. intros H. unfold el, numbers. rewrite entry_map, H. reflexivity. Qed.
Lemma upto_in n k : In k (upto n) <-> 0 <= k < n.
Proof. split; intros H; [apply (proj1 (in_zrange 0 _ k)) in H; lia|apply (proj2 (in_zrange 0 _ k)); lia]. Qed.
Lemma with_nan_pairs K i j : mat_ok K -> 0 <= i < ncols K -> 0 <= j < ncols K -> complete_pairs (with_nan K) i j = col_pairs K i j.
Proof.
  intros W Hi Hj. unfold complete_pairs, col_pairs. change (nrows (with_nan K)) with (nrows K).
  assert (F : forall k, In k (upto (nrows K)) -> 0 <= k < nrows K) by (intros k; apply upto_in).
  induction (upto (nrows K)) as [|k t IH]; auto. cbn [flat_map map]. rewrite IH by (intros; apply F; right; auto).
  rewrite !opel_with_nan by (auto; split; auto; apply F; left; auto). reflexivity.
Qed.
Lemma with_nan_none K j : mat_ok K -> 0 <= j < ncols K -> existsb is_nan (col_values (with_nan K) j) = false.
Proof.
  intros W Hj. destruct (existsb is_nan _) eqn:E; auto. apply existsb_exists in E. destruct E as (x & Hx & N). unfold col_values in Hx. apply in_map_iff in Hx. destruct Hx as (k & <- & Hk).
  apply upto_in in Hk. rewrite opel_with_nan in N by (auto; split; auto). discriminate.
Qed.
Lemma with_nan_cov K adjust i j : mat_ok K -> 0 <= i < ncols K -> 0 <= j < ncols K -> cov_no_nan adjust (with_nan K) i j = covariance_spec adjust (col_pairs K i j).
Proof. intros W Hi Hj. unfold cov_no_nan. rewrite !with_nan_none, with_nan_pairs by auto. reflexivity. Qed.
Lemma with_nan_ok K : mat_ok K -> mat_ok (with_nan K).
Proof. unfold mat_ok, with_nan. cbn [rows cols data]. rewrite map_length. auto. Qed.
Lemma combine_maps {A B C} (f : A -> B) (g : A -> C) l : combine (map f l) (map g l) = map (fun x => (f x, g x)) l.
Proof. induction l; cbn; congruence. Qed.
Lemma col_xs M i j : xs (col_pairs M i j) = col_of M i /\ ys (col_pairs M i j) = col_of M j.
Proof. unfold xs, ys, col_pairs, col_of. rewrite !map_map. auto. Qed.
Lemma ranks_col M c : ranks (col_of M c) = map (fun k => qz (rank_of false (el M k c) (col_of M c))) (upto (nrows M)).
Proof. unfold ranks. set (f := fun x => qz (rank_of false x (col_of M c))). change (map f (map (fun i => el M i c) (upto (nrows M))) = map (fun k => f (el M k c)) (upto (nrows M))). rewrite map_map. reflexivity. Qed.
(** The matrix of ranks. *)
Lemma rank_matrix dr dc M work storage : mat_ok M -> mlength M <= dr * dc -> mlength M <= Z.of_nat (length work) -> mlength M <= Z.of_nat (length storage) ->
  exists K, rank dr dc M work storage false = Ok K /\ rows K = rows M /\ cols K = cols M /\ mat_ok K /\ length (data K) = length storage /\
    (forall j, 0 <= j < ncols M -> col_of K j = ranks (col_of M j)) /\ forall i j, 0 <= i < ncols M -> 0 <= j < ncols M -> col_pairs K i j = rank_pairs (col_pairs M i j).
Proof.
  intros W D Lw Ls. destruct (rank_ok false dr dc M work storage W D Lw Ls) as (K & E & B).
  assert (W2 : mat_ok (Mat (rows M) (cols M) storage)) by (unfold mat_ok, mlength, nrows, ncols in *; cbn [rows cols data]; lia).
  assert (WK := becomes_ok _ _ _ W2 B). destruct (becomes_dims _ _ _ B) as [D1 D2].
  exists K. split; auto. split; [apply B|]. split; [apply B|]. split; auto. split; [apply B|].
  assert (EL : forall k c, 0 <= k < nrows M -> 0 <= c < ncols M -> el K k c = qz (rank_of false (el M k c) (col_of M c))).
  { intros k c Hk Hc. unfold el. rewrite (bc_entry _ _ _ B) by (split; auto). reflexivity. }
  assert (NK : nrows K = nrows M) by (unfold nrows; rewrite (bc_rows _ _ _ B); auto). split.
  - intros j Hj. rewrite ranks_col. unfold col_of at 1. rewrite NK. apply map_ext_in. intros k Hk. apply upto_in in Hk. auto.
  - intros i j Hi Hj. unfold rank_pairs. destruct (col_xs M i j) as [-> ->]. rewrite !ranks_col, combine_maps. unfold col_pairs. rewrite NK.
    apply map_ext_in. intros k Hk. apply upto_in in Hk. rewrite !EL by auto. reflexivity.
Qed.
Lemma with_nan_mean K j : mat_ok K -> 0 <= j < ncols K -> if_no_nan (col_values (with_nan K) j) mean_spec = mean_spec (col_of K j).
Proof.
  intros W Hj. unfold if_no_nan. rewrite with_nan_none by auto. f_equal. unfold col_values, col_of. change (nrows (with_nan K)) with (nrows K).
  assert (F : forall k, In k (upto (nrows K)) -> 0 <= k < nrows K) by (intros k; apply upto_in).
  induction (upto (nrows K)) as [|k t IH]; auto. cbn [map]. rewrite opel_with_nan by (auto; split; auto; apply F; left; auto).
  unfold present in *. cbn [flat_map app]. rewrite IH by (intros; apply F; right; auto). reflexivity.
Qed.
Lemma spearman_cov_ok M sR sM work adjust lower : mat_ok M -> 0 < nrows M -> 0 < ncols M -> (cols M * cols M <= length sR)%nat -> (cols M <= length sM)%nat ->
  2 * mlength M <= Z.of_nat (length work) ->
  exists S Me, spearman_cov M sR sM work adjust lower = Ok (S, Me) /\ length (data S) = length sR /\ square_of (ncols M) lower (fun i j => covariance_spec adjust (rank_pairs (col_pairs M i j))) S /\ rows Me = cols M /\ cols Me = 1%nat /\
    filled sM (data Me) 0 (ncols M) (fun j => Some (mean_spec (ranks (col_of M j)))).
Proof.
  intros W HR HC LR LM LW. unfold spearman_cov.
  assert (0 <= mlength M) by (unfold mlength, nrows, ncols; lia).
  destruct (rank_matrix (nrows M) (ncols M) M (from (mlength M) work) work W) as (K & E & RK & CK & WK & LK & CO & CP); [unfold mlength; lia|unfold from; rewrite skipn_length; lia|lia|].
  rewrite E. cbn [bind]. assert (NR : nrows (with_nan K) = nrows M) by (unfold nrows; cbn [with_nan rows]; rewrite RK; auto). assert (NC : ncols (with_nan K) = ncols M) by (unfold ncols; cbn [with_nan cols]; rewrite CK; auto).
  destruct (pearson_cov_ok (with_nan K) sR sM (Z.of_nat (length work) - mlength M) adjust lower) as (S & Me & E2 & LS & SQ & RM & CM & F).
  { apply with_nan_ok. auto. } { lia. } { lia. } { cbn [with_nan cols]. rewrite CK. auto. } { cbn [with_nan cols]. rewrite CK. auto. } { unfold mlength in *. rewrite NR, NC. lia. }
  assert (NCK : ncols K = ncols M) by exact NC.
  exists S, Me. split; auto. split; auto. split; [|split; [cbn [with_nan cols] in RM; congruence|split; auto]].
  - destruct SQ as (Q1 & Q2 & Q3). split; [lia|]. split; [lia|]. intros i j Hi Hj L. rewrite Q3 by lia || auto. rewrite with_nan_cov by (auto; lia). rewrite CP by auto. reflexivity.
  - destruct F as [F1 F2]. split; auto. intros k. rewrite F2, NC. destruct ((0 <=? Z.of_nat k) && (Z.of_nat k <? 0 + ncols M)) eqn:B; auto.
    rewrite with_nan_mean by (auto; lia). rewrite CO by lia. reflexivity.
Qed.

(** One pair of columns. *)
Lemma skip_entry (M : mat (option Qc)) i j : match entry M i j with Some v => negb (is_none v) | None => false end = match opel M i j with Some _ => true | None => false end.
Proof. unfold opel, is_none. destruct (entry M i j) as [[v|]|]; auto. Qed.
Lemma complete_rows_pairs M i j : complete_pairs M i j = map (fun r => (match opel M r i with Some x => x | None => 0%Qc end, match opel M r j with Some x => x | None => 0%Qc end)) (complete_rows is_none M [i; j]).
Proof.
  unfold complete_pairs, complete_rows. induction (upto (nrows M)) as [|k t IH]; auto. cbn [flat_map filter forallb]. rewrite !skip_entry, IH.
  destruct (opel M k i) eqn:A, (opel M k j) eqn:B; cbn [andb map app]; rewrite ?A, ?B; reflexivity.
Qed.
Lemma complete_rows_in M i j r : In r (complete_rows is_none M [i; j]) -> 0 <= r < nrows M /\ exists a b, opel M r i = Some a /\ opel M r j = Some b.
Proof.
  unfold complete_rows. intros H. apply filter_In in H. destruct H as [H1 H2]. apply upto_in in H1. split; auto. cbn [forallb] in H2. rewrite !skip_entry in H2.
  destruct (opel M r i), (opel M r j); try discriminate. eauto.
Qed.
Lemma complete_rows_len M cs : (length (complete_rows is_none M cs) <= rows M)%nat.
Proof. unfold complete_rows. assert (F : forall (f : Z -> bool) l, (length (filter f l) <= length l)%nat) by (intros f; induction l as [|a t IH]; cbn; [lia|destruct (f a); cbn; lia]). etransitivity; [apply F|]. rewrite upto_length. unfold nrows. lia. Qed.
Lemma opel_entry M i j v : opel M i j = Some v -> entry M i j = Some (Some v).
Proof. unfold opel. destruct (entry M i j) as [[w|]|]; congruence. Qed.
Lemma at_upto_map (l : list Z) : map (at_index l) (upto (Z.of_nat (length l))) = l.
Proof.
  apply list_ext_nth_error. intros k. rewrite nth_error_map. change (upto (Z.of_nat (length l))) with (zrange 0 (Z.of_nat (length l))). destruct (Nat.lt_ge_cases k (length l)) as [H|H].
  - rewrite zrange_nth by lia. pose proof (at_index_nth l (Z.of_nat k) ltac:(lia)) as A. rewrite Nat2Z.id in A. rewrite A. reflexivity.
  - rewrite (proj2 (nth_error_None l k) H). rewrite (proj2 (nth_error_None _ k)); auto. rewrite zrange_length. lia.
Qed.
Lemma pair_ranks_ok M i j : mat_ok M -> 0 <= i < ncols M -> 0 <= j < ncols M ->
  exists K, pair_ranks M i j = Ok K /\ mat_ok K /\ ncols K = 2 /\ nrows K = Z.of_nat (length (complete_pairs M i j)) /\ nrows K <= nrows M /\ col_pairs K 0 1 = rank_pairs (complete_pairs M i j).
Proof.
  intros W Hi Hj. unfold pair_ranks. set (rs := complete_rows is_none M [i; j]). pose proof (complete_rows_len M [i; j]) as LR. fold rs in LR.
  destruct (dataset_ok is_none true true M (Some [i; j]) (repeat None (2 * rows M)) W) as (D & E & P1 & P2 & P3).
  { intros _. eauto. } { repeat constructor; lia. } { cbn [length]. fold rs. rewrite repeat_length. lia. }
  cbn [length] in P2. fold rs in P1, P3. rewrite E. cbn [bind].
  assert (EN : forall k c, 0 <= k < nrows D -> 0 <= c < 2 -> exists v, entry D k c = Some (Some v) /\ opel M (at_index rs k) (at_index [i; j] c) = Some v).
  { intros k c Hk Hc. rewrite P3 by (split; lia). assert (IR : In (at_index rs k) rs) by (apply nth_In; lia). apply complete_rows_in in IR. destruct IR as (R & a & b & A & B).
    assert (C : c = 0 \/ c = 1) by lia. destruct C as [-> | ->]; [change (at_index [i; j] 0) with i|change (at_index [i; j] 1) with j]; eexists; split; eauto; apply opel_entry; eauto. }
  assert (WD : mat_ok D).
  { unfold mat_ok. destruct (Z.eq_dec (nrows D) 0) as [Z0|Z0]; [unfold nrows in Z0; destruct (rows D); cbn; lia|].
    destruct (EN (nrows D - 1) 1) as (v & EV & _); [unfold nrows in *; lia|lia|]. unfold entry in EV. destruct (insideb _ _ _); [|discriminate].
    assert (LT := nth_error_Some (data D) (Z.to_nat (1 * nrows D + (nrows D - 1)))). rewrite EV in LT. assert (X : Some (Some v) <> None) by discriminate. apply LT in X. unfold nrows, ncols in *. lia. }
  assert (WN : mat_ok (numbers D)) by (unfold mat_ok, numbers in *; cbn [rows cols data]; rewrite map_length; auto).
  destruct (rank_matrix (nrows M) 2 (numbers D) (repeat 0%Qc (2 * rows M)) (repeat 0%Qc (2 * rows M)) WN) as (K & E2 & RK & CK & WK & LK & CO & CP).
  1-3: change (mlength (numbers D)) with (mlength D); rewrite ?repeat_length; unfold mlength, nrows, ncols in *; nia.
  change (rows (numbers D)) with (rows D) in *. change (cols (numbers D)) with (cols D) in *. change (ncols (numbers D)) with (ncols D) in *.
  assert (LP : length (complete_pairs M i j) = length rs) by (rewrite complete_rows_pairs, map_length; reflexivity).
  exists K. split; auto. split; auto. split; [unfold ncols in *; lia|]. split; [unfold nrows in *; lia|]. split; [unfold nrows in *; lia|]. rewrite CP by lia. f_equal.
  rewrite complete_rows_pairs. fold rs. rewrite <- (at_upto_map rs) at 1. rewrite map_map. unfold col_pairs. change (nrows (numbers D)) with (nrows D). rewrite P1. apply map_ext_in. intros k Hk. apply upto_in in Hk.
  destruct (EN k 0) as (u & A1 & A2); [lia|lia|]. destruct (EN k 1) as (v & B1 & B2); [lia|lia|]. rewrite (el_numbers _ _ _ _ A1), (el_numbers _ _ _ _ B1).
  change (at_index [i; j] 0) with i in A2. change (at_index [i; j] 1) with j in B2. rewrite A2, B2. reflexivity.
Qed.
Lemma rank_pairs_swap P : rank_pairs (map (fun ab => (snd ab, fst ab)) P) = map (fun ab => (snd ab, fst ab)) (rank_pairs P).
Proof.
  unfold rank_pairs. assert (X : xs (map (fun ab => (snd ab, fst ab)) P) = ys P) by (unfold xs, ys; rewrite map_map; reflexivity). assert (Y : ys (map (fun ab => (snd ab, fst ab)) P) = xs P) by (unfold xs, ys; rewrite map_map; reflexivity).
  rewrite X, Y. generalize (ranks (ys P)) (ranks (xs P)). induction l as [|a t IH]; intros [|b r]; cbn; try rewrite IH; reflexivity.
Qed.
Lemma rank_pairs_len P : length (rank_pairs P) = length P.
Proof. unfold rank_pairs, ranks. rewrite combine_length, !map_length, xs_len, ys_len. lia. Qed.
Lemma rank_pairs_xs P : xs (rank_pairs P) = ranks (xs P) /\ ys (rank_pairs P) = ranks (ys P).
Proof.
  unfold rank_pairs. assert (L : length (ranks (xs P)) = length (ranks (ys P))) by (unfold ranks; rewrite !map_length, xs_len, ys_len; auto).
  revert L. generalize (ranks (xs P)) (ranks (ys P)). induction l as [|a t IH]; intros [|b r] L; try discriminate; [auto|]. cbn in L. destruct (IH r) as [A B]; [lia|]. unfold xs, ys in *. cbn. rewrite A, B. auto.
Qed.
Definition spearman_value M adjust i j : option Qc := covariance_spec adjust (rank_pairs (complete_pairs M i j)).
Lemma spearman_value_swap M adjust i j : spearman_value M adjust i j = spearman_value M adjust j i.
Proof. unfold spearman_value. rewrite (complete_swap M i j), rank_pairs_swap, cov_swap. reflexivity. Qed.
Lemma spearman_pair_ok M adjust i j : mat_ok M -> 0 <= i < ncols M -> 0 <= j < ncols M -> complete_pairs M i j <> [] -> spearman_cov_pair M adjust i j = Ok (spearman_value M adjust i j).
Proof.
  intros W Hi Hj N. unfold spearman_cov_pair. destruct (pair_ranks_ok M i j W Hi Hj) as (K & E & WK & CK & RK & LK & CP). rewrite E. cbn [bind].
  assert (P : (0 < length (complete_pairs M i j))%nat) by (destruct (complete_pairs M i j); [contradiction|cbn [length]; lia]).
  assert (NR : nrows (with_nan K) = nrows K) by reflexivity. assert (NC : ncols (with_nan K) = 2) by exact CK. assert (CK' : cols (with_nan K) = 2%nat) by (unfold ncols in NC; lia).
  destruct (pearson_cov_ok (with_nan K) (repeat None 4) (repeat None 2) (2 * nrows M) adjust false) as (S & Me & E2 & LS & SQ & RM & CM & F).
  { apply with_nan_ok. auto. } { lia. } { lia. } { rewrite CK', repeat_length. lia. } { rewrite CK', repeat_length. lia. } { unfold mlength in *. lia. }
  rewrite E2. cbn [bind fst]. destruct SQ as (Q1 & Q2 & Q3). specialize (Q3 0 1 ltac:(lia) ltac:(lia) ltac:(left; lia)). rewrite with_nan_cov, CP in Q3 by (auto; lia).
  unfold entry in Q3. rewrite (proj2 (inside_b S 0 1)) in Q3 by (split; lia). rewrite Q1, NC in Q3. change (Z.to_nat (1 * 2 + 0)) with 2%nat in Q3. unfold rd. change (2 <? 0) with false. cbv iota. change (Z.to_nat 2) with 2%nat. rewrite Q3. reflexivity.
Qed.
Lemma spearman_pair_none M adjust i j : mat_ok M -> 0 <= i < ncols M -> 0 <= j < ncols M -> complete_pairs M i j = [] -> spearman_cov_pair M adjust i j = Throw.
Proof.
  intros W Hi Hj N. unfold spearman_cov_pair. destruct (pair_ranks_ok M i j W Hi Hj) as (K & E & WK & CK & RK & LK & CP). rewrite E. cbn [bind]. rewrite N in RK. cbn in RK.
  assert (NR : nrows (with_nan K) = 0) by exact RK. assert (NC : ncols (with_nan K) = 2) by exact CK. assert (CK' : cols (with_nan K) = 2%nat) by (unfold ncols in NC; lia).
  unfold pearson_cov. destruct (Z.ltb_spec (2 * nrows M) (mlength (with_nan K))); [unfold mlength, nrows in *; lia|]. unfold columns_means.
  replace (mlength (Mat (cols (with_nan K)) 1 (repeat None 2))) with (ncols (with_nan K)) by (unfold mlength, nrows, ncols; cbn [rows cols]; lia). rewrite Z.eqb_refl. cbn [negb].
  destruct (col_writes (with_nan K) (with_nan_ok K WK) (Mat (cols (with_nan K)) 1 (repeat None 2)) (mean_of false)) as (Me & E2 & RM & CM & F); [unfold mat_ok; cbn [rows cols data]; rewrite CK'; cbn; lia|unfold mlength, nrows, ncols; cbn [rows cols]; lia|].
  rewrite E2. cbn [bind]. clear E2. cbn [rows cols data] in RM, CM, F. destruct F as [FL FV].
  destruct (columnwise_ok (T := option Qc) (with_nan K) (fun j x => do m <- rd (data Me) j; Ok (x -f m)) (fun j x => x -f mean_of false (col_values (with_nan K) j)) (with_nan_ok K WK)) as (C & EC & RC & CC & WC & GC).
  { intros c x Hc. destruct (rd_ok (data Me) c) as (v & E1 & E2); [rewrite FL, repeat_length; lia|]. rewrite E2. cbn [bind]. rewrite FV in E1. rewrite Z2Nat.id in E1 by lia.
    destruct ((0 <=? c) && (c <? 0 + ncols (with_nan K))) eqn:B; [|lia]. rewrite Z.sub_0_r in E1. injection E1 as <-. reflexivity. }
  rewrite EC. cbn [bind]. unfold gram. replace (nrows C) with 0 by (unfold nrows in *; rewrite RC; auto). reflexivity.
Qed.
(** The matrix of all pairs. *)
Lemma spearman_nan_ok {T} M (val : Z -> Z -> res T) (v : Z -> Z -> T) sR sC lower : mat_ok M -> (cols M * cols M <= length sR)%nat -> sym_length true (ncols M) <= Z.of_nat (length sC) ->
  (forall i j, 0 <= i < ncols M -> 0 <= j < ncols M -> val i j = Ok (v i j)) -> (forall i j, v i j = v j i) ->
  exists S C, spearman_nan M val sR sC lower = Ok (S, C) /\ length (data S) = length sR /\ length (sdata C) = length sC /\ srows C = cols M /\ square_of (ncols M) lower v S /\
    forall i j, 0 <= i < ncols M -> 0 <= j < ncols M -> sym_get0 true C i j = Ok (Z.of_nat (length (complete_pairs M i j))).
Proof.
  intros W LR LC HV SV. unfold spearman_nan. set (S := Mat (cols M) (cols M) sR).
  assert (NS : nrows S = ncols M /\ ncols S = ncols M) by (split; reflexivity). destruct NS as [NS1 NS2].
  edestruct (square_writes S (ncols M) lower v) as (S' & ES & LS & SQ); [exact LR|auto|auto| | |rewrite ES; cbn [bind]].
  - intros p e H. apply in_flat_map in H. destruct H as (i & Hi & H). apply in_zrange in Hi. apply in_flat_map in H. destruct H as (j & Hj & H). apply in_zrange in Hj. destruct (Z.leb_spec i j); [|destruct H].
    rewrite HV in H by lia. destruct H as [H|H].
    + injection H as <- <-. exists i, j. split; [split; lia|]. auto.
    + destruct lower; [|destruct H]. destruct H as [H|[]]. injection H as <- <-. exists j, i. split; [split; lia|]. rewrite SV. auto.
  - intros i j (Hi & Hj) L. apply in_map_iff. destruct (Z.le_gt_cases i j) as [T1|T1].
    + eexists. split; [|apply in_flat_map; exists i; split; [apply in_zrange; lia|apply in_flat_map; exists j; split; [apply in_zrange; lia|destruct (Z.leb_spec i j); [left; reflexivity|lia]]]]. reflexivity.
    + destruct L as [L | ->]; [lia|]. eexists. split; [|apply in_flat_map; exists j; split; [apply in_zrange; lia|apply in_flat_map; exists i; split; [apply in_zrange; lia|destruct (Z.leb_spec j i); [right; left; reflexivity|lia]]]]. reflexivity.
  - edestruct (sym_writes (dg := true) sC (cols M) (fun i j => Z.of_nat (length (complete_pairs M i j)))) as (d & ED & LD & V); [exact LC| | |unfold ncols in *; rewrite ED; cbn [bind]].
    + intros i j. rewrite (complete_swap M i j), map_length. auto.
    + intros p e H. apply in_flat_map in H. destruct H as (i & Hi & H). apply in_zrange in Hi.
      apply in_flat_map in H. destruct H as (j & Hj & H). apply in_zrange in Hj. destruct (Z.leb_spec i j); [|destruct H]. destruct H as [H|[]]. injection H as <- <-.
      exists i, j. split; [repeat split; unfold ncols in *; auto; lia|]. split; auto. destruct (pair_ranks_ok M i j W) as (K & E & _ & _ & RK & _); [unfold ncols in *; lia|unfold ncols in *; lia|]. rewrite E. cbn [bind]. rewrite RK. auto.
    + exists S', (Sym (cols M) d). split; auto. split; auto. split; auto. split; auto. split; auto. intros i j Hi Hj. apply V; [repeat split; auto; lia|].
      assert (Q : forall i j, 0 <= i < Z.of_nat (cols M) -> 0 <= j < Z.of_nat (cols M) -> i <= j -> In (sym_index true (Z.of_nat (cols M)) i j) (map fst (flat_map (fun i0 => flat_map (fun j0 => if i0 <=? j0 then
          [(sym_index true (Z.of_nat (cols M)) i0 j0, do K <- pair_ranks M i0 j0; Ok (nrows K))] else []) (zrange 0 (Z.of_nat (cols M)))) (zrange 0 (Z.of_nat (cols M)))))).
      { intros a b Ha Hb L. apply in_map_iff.
        eexists. split; [|apply in_flat_map; exists a; split; [apply in_zrange; lia|apply in_flat_map; exists b; split; [apply in_zrange; lia|destruct (Z.leb_spec a b); [left; reflexivity|lia]]]]. reflexivity. }
      destruct (Z.le_ge_cases i j); [apply Q; auto|]. rewrite sym_index_comm. apply Q; auto.
Qed.
(** Increasing transformations keep ranks. *)
Lemma rank_pairs_mono (P : list (Qc * Qc)) (f g : Qc -> Qc) : (forall x y, (x < y)%Qc -> (f x < f y)%Qc) -> (forall x y, (x < y)%Qc -> (g x < g y)%Qc) ->
  rank_pairs (map (fun p => (f (fst p), g (snd p))) P) = rank_pairs P.
Proof.
  assert (R : forall h : Qc -> Qc, (forall x y, (x < y)%Qc -> (h x < h y)%Qc) -> forall l, ranks (map h l) = ranks l).
  { intros h H l. unfold ranks. rewrite map_map. apply map_ext. intros x. unfold rank_of, larger. do 2 f_equal. clear - H.
    assert (Q : forall y, qltb (h x) (h y) = qltb x y).
    { intros y. destruct (qltb_spec x y) as [L|L], (qltb_spec (h x) (h y)) as [L2|L2]; auto; exfalso.
      destruct (Qc_dec x y) as [[L3|L3]| ->]; [qlra|specialize (H y x L3); qlra|qlra]. }
    induction l as [|y t IH]; auto. cbn [map filter]. rewrite Q. destruct (qltb x y); cbn [length]; congruence. }
  intros F G. unfold rank_pairs. rewrite <- (R f F (xs P)), <- (R g G (ys P)). unfold xs, ys. rewrite !map_map. reflexivity.
Qed.
