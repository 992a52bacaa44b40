(** Proofs about sorting of rows and columns and about the common range of the columns. *)
From Verif Require Export MqProofs.
From Verif Require Import MatProofs2 MatProofs3 MatProofs4 MatProofs5 MatProofs6 SortProofs ArrSpec ArrProofs DataProofs DataProofs2 Prop_Mat.
From Coq Require Import Lia ZifyBool.
Local Open Scope Z_scope.

Lemma becomes_ok {A} (M M' : mat A) f : mat_ok M -> becomes M f M' -> mat_ok M' /\ nrows M' = nrows M /\ ncols M' = ncols M.
Proof. intros W [b1 b2 b3 _ _]. unfold mat_ok, nrows, ncols in *. rewrite b1, b2, b3. auto. Qed.
Lemma becomes_refl {A} (M : mat A) f : (forall i j, inside M i j -> entry M i j = f i j) -> becomes M f M.
Proof. intros H. split; auto. Qed.
Lemma becomes_trans {A} (M M1 M2 : mat A) f g h : becomes M f M1 -> becomes M1 g M2 ->
  (forall i j, inside M i j -> g i j = h i j) -> becomes M h M2.
Proof.
  intros [b1 b2 b3 b4 b5] [c1 c2 c3 c4 c5] H. split; try congruence.
  - intros i j I. rewrite c4; auto. unfold inside, nrows, ncols in *. rewrite b1, b2. auto.
  - intros k K. rewrite c5, b5; auto. rewrite b1, b2. auto.
Qed.

Section Lines.
Context {A : Type} (M : mat A).
Hypothesis W : mat_ok M.
Lemma rows_from_ok : forall idx S j, mat_ok S -> nrows S = nrows M -> ncols S = ncols M -> 0 <= j -> j + Z.of_nat (length idx) <= nrows M ->
  Forall (fun i => 0 <= i < nrows M) idx ->
  exists S', lines_from (fun S j i => set_row_from_row S j M i) S j idx = Ok S' /\
    becomes S (fun a b => if (j <=? a) && (a <? j + Z.of_nat (length idx)) then entry M (at_index idx (a - j)) b else entry S a b) S'.
Proof.
  induction idx as [|i t IH]; intros S j WS HR HC Hj Hl F.
  - exists S. split; auto. apply becomes_refl. intros a b _. replace ((j <=? a) && (a <? j + Z.of_nat (length (@nil Z)))) with false; auto. cbn. lia.
  - apply Forall_cons_iff in F. destruct F as (Hi & F). cbn [length] in Hl.
    destruct (c28_set_row_from_row S M j i) as (S1 & E1 & B1); auto; try lia. cbn [lines_from]. rewrite E1. cbn [bind].
    destruct (becomes_ok _ _ _ WS B1) as (W1 & R1 & C1).
    destruct (IH S1 (j + 1)) as (S2 & E2 & B2); auto; try lia. exists S2. split; auto.
    eapply becomes_trans; [exact B1|exact B2|]. intros a b I. cbn beta. destruct (bc_entry _ _ _ B1 a b I).
    replace (a - (j + 1)) with (a - j - 1) by lia. cbn [length].
    destruct ((j + 1 <=? a) && (a <? j + 1 + Z.of_nat (length t))) eqn:K.
    + replace ((j <=? a) && (a <? j + Z.of_nat (Datatypes.S (length t)))) with true by lia. f_equal.
      unfold at_index. replace (Z.to_nat (a - j)) with (Datatypes.S (Z.to_nat (a - j - 1))) by lia. reflexivity.
    + rewrite (bc_entry _ _ _ B1 a b I). destruct (Z.eqb_spec a j) as [->|N].
      * replace ((j <=? j) && (j <? j + Z.of_nat (Datatypes.S (length t)))) with true by lia. replace (j - j) with 0 by lia. reflexivity.
      * replace ((j <=? a) && (a <? j + Z.of_nat (Datatypes.S (length t)))) with false by lia. auto.
Qed.
Lemma columns_from_ok : forall idx S j, mat_ok S -> nrows S = nrows M -> ncols S = ncols M -> 0 <= j -> j + Z.of_nat (length idx) <= ncols M ->
  Forall (fun i => 0 <= i < ncols M) idx ->
  exists S', lines_from (fun S j i => set_column_from_column S j M i) S j idx = Ok S' /\
    becomes S (fun a b => if (j <=? b) && (b <? j + Z.of_nat (length idx)) then entry M a (at_index idx (b - j)) else entry S a b) S'.
Proof.
  induction idx as [|i t IH]; intros S j WS HR HC Hj Hl F.
  - exists S. split; auto. apply becomes_refl. intros a b _. replace ((j <=? b) && (b <? j + Z.of_nat (length (@nil Z)))) with false; auto. cbn. lia.
  - apply Forall_cons_iff in F. destruct F as (Hi & F). cbn [length] in Hl.
    destruct (c28_set_column_from_column S M j i) as (S1 & E1 & B1); auto; try lia. cbn [lines_from]. rewrite E1. cbn [bind].
    destruct (becomes_ok _ _ _ WS B1) as (W1 & R1 & C1).
    destruct (IH S1 (j + 1)) as (S2 & E2 & B2); auto; try lia. exists S2. split; auto.
    eapply becomes_trans; [exact B1|exact B2|]. intros a b I. cbn beta.
    replace (b - (j + 1)) with (b - j - 1) by lia. cbn [length].
    destruct ((j + 1 <=? b) && (b <? j + 1 + Z.of_nat (length t))) eqn:K.
    + replace ((j <=? b) && (b <? j + Z.of_nat (Datatypes.S (length t)))) with true by lia. f_equal.
      unfold at_index. replace (Z.to_nat (b - j)) with (Datatypes.S (Z.to_nat (b - j - 1))) by lia. reflexivity.
    + rewrite (bc_entry _ _ _ B1 a b I). destruct (Z.eqb_spec b j) as [->|N].
      * replace ((j <=? j) && (j <? j + Z.of_nat (Datatypes.S (length t)))) with true by lia. replace (j - j) with 0 by lia. reflexivity.
      * replace ((j <=? b) && (b <? j + Z.of_nat (Datatypes.S (length t)))) with false by lia. auto.
Qed.
Theorem sort_rows_by_ok S idx : mat_ok S -> nrows S = nrows M -> ncols S = ncols M -> Z.of_nat (length idx) = nrows M -> 0 < nrows M ->
  Forall (fun i => 0 <= i < nrows M) idx -> exists S', sort_rows_by M S idx = Ok S' /\ becomes S (rows_by M idx) S'.
Proof.
  intros WS HR HC HL HP F. unfold sort_rows_by. rewrite HR, HC, HL, !Z.eqb_refl. cbn [negb orb].
  destruct (maxl idx) as [m|] eqn:E.
  2: { destruct idx; [cbn in HL; lia|discriminate]. }
  destruct (maxl_ge _ _ E) as (Im & _). rewrite Forall_forall in F. pose proof (F m Im). replace (nrows M - 1 <? m) with false by lia.
  destruct (rows_from_ok idx S 0) as (S' & ES & B); auto; try lia. { apply Forall_forall; auto. }
  exists S'. split; auto. destruct B as [b1 b2 b3 b4 b5]. split; auto. intros i j I. rewrite b4 by auto. destruct I as (I1 & I2).
  rewrite HL. replace ((0 <=? i) && (i <? 0 + nrows M)) with true by lia. unfold rows_by. rewrite Z.sub_0_r. auto.
Qed.
Theorem sort_columns_by_ok S idx : mat_ok S -> nrows S = nrows M -> ncols S = ncols M -> Z.of_nat (length idx) = ncols M -> 0 < ncols M ->
  Forall (fun i => 0 <= i < ncols M) idx -> exists S', sort_columns_by M S idx = Ok S' /\ becomes S (columns_by M idx) S'.
Proof.
  intros WS HR HC HL HP F. unfold sort_columns_by. rewrite HR, HC, HL, !Z.eqb_refl. cbn [negb orb].
  destruct (maxl idx) as [m|] eqn:E.
  2: { destruct idx; [cbn in HL; lia|discriminate]. }
  destruct (maxl_ge _ _ E) as (Im & _). rewrite Forall_forall in F. pose proof (F m Im). replace (ncols M - 1 <? m) with false by lia.
  destruct (columns_from_ok idx S 0) as (S' & ES & B); auto; try lia. { apply Forall_forall; auto. }
  exists S'. split; auto. destruct B as [b1 b2 b3 b4 b5]. split; auto. intros i j I. rewrite b4 by auto. destruct I as (I1 & I2).
  rewrite HL. replace ((0 <=? j) && (j <? 0 + ncols M)) with true by lia. unfold columns_by. rewrite Z.sub_0_r. auto.
Qed.
End Lines.
Lemma bad_set {A} (M S : mat A) j i : ~ 0 <= i < nrows M -> set_row_from_row S j M i = Throw.
Proof. intros H. unfold set_row_from_row. destruct (bad (nrows S) j); auto. unfold bad. replace ((nrows M <=? i) || (i <? 0)) with true by lia; auto. Qed.
Lemma bad_set_column {A} (M S : mat A) j i : ~ 0 <= i < ncols M -> set_column_from_column S j M i = Throw.
Proof. intros H. unfold set_column_from_column. destruct (bad (ncols S) j); auto. unfold bad. replace ((ncols M <=? i) || (i <? 0)) with true by lia; auto. Qed.
Theorem sort_rows_by_bad {A} (M S : mat A) idx : mat_ok M -> mat_ok S -> idx <> [] ->
  ~ (nrows S = nrows M /\ ncols S = ncols M /\ Z.of_nat (length idx) = nrows M /\ Forall (fun i => 0 <= i < nrows M) idx) -> sort_rows_by M S idx = Throw.
Proof.
  intros W WS NE H. unfold sort_rows_by.
  destruct (negb (nrows S =? nrows M) || negb (ncols S =? ncols M)) eqn:K; auto. destruct (negb (Z.of_nat (length idx) =? nrows M)) eqn:K2; auto.
  destruct (maxl idx) as [m|] eqn:E; [|destruct idx; [congruence|discriminate]]. destruct (nrows S - 1 <? m); auto.
  assert (HR : nrows S = nrows M) by lia. assert (HC : ncols S = ncols M) by lia. assert (HL : Z.of_nat (length idx) = nrows M) by lia.
  assert (NF : ~ Forall (fun i => 0 <= i < nrows M) idx) by tauto.
  assert (HL2 : 0 + Z.of_nat (length idx) <= nrows M) by lia. clear H K K2 E HL NE.
  revert S WS HR HC HL2. assert (Hj : 0 <= 0) by lia. revert Hj. generalize 0 at 2 3 4. clear m.
  induction idx as [|i t IH]; intros j Hj S WS HR HC HL; [exfalso; apply NF; auto|]. cbn [lines_from length] in *.
  destruct (Z_le_dec 0 i) as [G1|G1]; [|rewrite bad_set by lia; auto].
  destruct (Z_lt_dec i (nrows M)) as [G2|G2]; [|rewrite bad_set by lia; auto].
  destruct (c28_set_row_from_row S M j i) as (S1 & E1 & B1); auto; try lia. rewrite E1. cbn [bind].
  destruct (becomes_ok _ _ _ WS B1) as (W1 & R1 & C1). apply IH; auto; try lia.
Qed.
Theorem sort_columns_by_bad {A} (M S : mat A) idx : mat_ok M -> mat_ok S -> idx <> [] ->
  ~ (nrows S = nrows M /\ ncols S = ncols M /\ Z.of_nat (length idx) = ncols M /\ Forall (fun i => 0 <= i < ncols M) idx) -> sort_columns_by M S idx = Throw.
Proof.
  intros W WS NE H. unfold sort_columns_by.
  destruct (negb (nrows S =? nrows M) || negb (ncols S =? ncols M)) eqn:K; auto. destruct (negb (Z.of_nat (length idx) =? ncols M)) eqn:K2; auto.
  destruct (maxl idx) as [m|] eqn:E; [|destruct idx; [congruence|discriminate]]. destruct (ncols S - 1 <? m); auto.
  assert (HR : nrows S = nrows M) by lia. assert (HC : ncols S = ncols M) by lia. assert (HL : Z.of_nat (length idx) = ncols M) by lia.
  assert (NF : ~ Forall (fun i => 0 <= i < ncols M) idx) by tauto.
  assert (HL2 : 0 + Z.of_nat (length idx) <= ncols M) by lia. clear H K K2 E HL NE.
  revert S WS HR HC HL2. assert (Hj : 0 <= 0) by lia. revert Hj. generalize 0 at 2 3 4. clear m.
  induction idx as [|i t IH]; intros j Hj S WS HR HC HL; [exfalso; apply NF; auto|]. cbn [lines_from length] in *.
  destruct (Z_le_dec 0 i) as [G1|G1]; [|rewrite bad_set_column by lia; auto].
  destruct (Z_lt_dec i (ncols M)) as [G2|G2]; [|rewrite bad_set_column by lia; auto].
  destruct (c28_set_column_from_column S M j i) as (S1 & E1 & B1); auto; try lia. rewrite E1. cbn [bind].
  destruct (becomes_ok _ _ _ WS B1) as (W1 & R1 & C1). apply IH; auto; try lia.
Qed.

(** ** The common range of the columns *)
Section Range.
Variable M : mat (option Qc).
Hypothesis W : mat_ok M.
Hypothesis HT : 0 < nrows M.
Lemma range_loop_ok : forall js s e miss, Forall (fun j => 0 <= j < ncols M) js -> 0 <= s <= e ->
  exists r m, range_loop M js s e miss = Ok (r, m) /\
    (forall t, i_start r <= t <= i_end r <-> s <= t <= e /\ forall j, In j js -> covered false M j t) /\
    (m = true -> miss = true \/ exists j, In j js /\ has_gap false M j) /\
    (is_not_valid r = false -> miss = true \/ (exists j, In j js /\ has_gap false M j) -> m = true).
Proof using W HT.
  induction js as [|j js IH]; intros s e miss F Hse.
  - exists (irange_make s e), miss. split; auto. unfold irange_make. replace ((e <? s) || (s <? 0) || (e <? 0)) with false by lia. cbn [i_start i_end].
    split. { intros t. split; [intros; split; auto; intros j []|tauto]. }
    split; auto. intros _ [H|(j & [] & _)]. auto.
  - apply Forall_cons_iff in F. destruct F as (Hj & F). cbn [range_loop].
    destruct (range_ok false M W HT j Hj) as (v & r & m & Ev & Er & H). rewrite Ev. cbn [bind]. rewrite Er. cbn [bind].
    assert (CV : forall t, i_start r <= t <= i_end r <-> covered false M j t).
    { destruct H as [((V & Ka & Kb & G) & _)|(V & _ & N)]; intros t.
      - split; [intros Ht; exists (i_start r), (i_end r); auto|]. intros (a & b & Hab & Pa & Pb). pose proof (G a Pa). pose proof (G b Pb). lia.
      - unfold is_not_valid in V. split; [lia|]. intros (a & b & _ & Pa & _). exfalso. apply (N a Pa). }
    assert (GP : m = true <-> has_gap false M j).
    { destruct H as [(_ & G)|(V & -> & N)]; auto. split; [discriminate|]. intros (t & (a & _ & _ & Pa & _) & _). exfalso. apply (N a Pa). }
    destruct (Z.ltb_spec (Z.min e (i_end r)) (Z.max s (i_start r))) as [L|L].
    + exists (irange_make (-1) (-1)), (miss || m)%bool. split; auto. change (irange_make (-1) (-1)) with {| i_start := 1; i_end := 0 |}. cbn [i_start i_end].
      split. { intros t. split; [lia|]. intros (K & K2). pose proof (proj2 (CV t) (K2 j (or_introl eq_refl))). lia. }
      split. { intros K. apply orb_true_iff in K. destruct K as [K|K]; auto. right. exists j. split; [left; auto|]. apply GP; auto. }
      intros K. discriminate K.
    + destruct (IH (Z.max s (i_start r)) (Z.min e (i_end r)) (miss || m)%bool F) as (r2 & m2 & E2 & C2 & M1 & M2); [lia|].
      exists r2, m2. split; auto. split.
      { intros t. rewrite C2. split.
        - intros (K & K2). split; [lia|]. intros j' [<-|I]; auto. apply CV. lia.
        - intros (K & K2). pose proof (proj2 (CV t) (K2 j (or_introl eq_refl))). split; [lia|]. intros j' I. apply K2. right. auto. }
      split.
      { intros K. apply M1 in K. rewrite orb_true_iff in K. destruct K as [[K|K]|(j' & I & K)]; auto.
        - right. exists j. split; [left; auto|]. apply GP; auto.
        - right. exists j'. split; [right; auto|auto]. }
      intros V K. apply M2; auto. rewrite orb_true_iff. destruct K as [K|(j' & [<-|I] & K)]; auto.
      * left. right. apply GP. auto.
      * right. exists j'. auto.
Qed.
Theorem get_range_all_ok : nrows M <= 2147483648 -> exists r m, get_range_all M = Ok (r, m) /\
  (0 < ncols M -> forall t, i_start r <= t <= i_end r <-> forall j, 0 <= j < ncols M -> covered false M j t) /\
  (m = true -> exists j, 0 <= j < ncols M /\ has_gap false M j) /\
  (is_not_valid r = false -> (exists j, 0 <= j < ncols M /\ has_gap false M j) -> m = true).
Proof using W HT.
  intros HB. destruct (range_loop_ok (zrange 0 (ncols M)) 0 2147483647 false) as (r & m & E & C & M1 & M2).
  { apply Forall_forall. intros j K. apply in_zrange in K. lia. } { lia. }
  exists r, m. split; auto. split.
  - intros HC t. rewrite C. split.
    + intros (_ & K) j Hj. apply K. apply in_zrange. lia.
    + intros K. split.
      * destruct (K 0 ltac:(lia)) as (a & b & Hab & Pa & Pb). destruct (DataProofs2.known_in false M HT 0 a Pa) as (_ & Q1). destruct (DataProofs2.known_in false M HT 0 b Pb) as (_ & Q2).
        unfold n_times in *. lia.
      * intros j I. apply in_zrange in I. apply K. lia.
  - split.
    + intros K. destruct (M1 K) as [K2|(j & I & G)]; [discriminate|]. apply in_zrange in I. exists j. split; [lia|auto].
    + intros V (j & I & G). apply M2; auto. right. exists j. split; auto. apply in_zrange. lia.
Qed.
End Range.
