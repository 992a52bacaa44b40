(** Proofs about ArrModel: partitions. *)
From Verif Require Import ArrModel ArrSpec ArrProofs.
Local Open Scope nat_scope.

Lemma slice_nat {A} (d : list A) (s e : nat) : s <= e -> slice d (Z.of_nat s) (Z.of_nat e) = firstn (e - s) (skipn s d).
Proof. intros H. unfold slice. rewrite Nat2Z.id. replace (Z.to_nat _) with (e - s) by lia. reflexivity. Qed.

Lemma skipn_skipn' {A} (l : list A) : forall a b, skipn a (skipn b l) = skipn (b + a) l.
Proof. intros a b; revert l; induction b as [|b IH]; intros [|x l]; simpl; auto. destruct a; reflexivity. Qed.

Lemma fwd_blocks {A} (d : list A) (size : nat) : 0 < size -> forall fuel i, 1 <= fuel -> length d + 1 <= i + fuel ->
  exists p, part_fwd fuel d (Z.of_nat size) (Z.of_nat i) = Ok p /\ concat p = skipn i d /\ short_last size p /\
   length p = (length d - i + size - 1) / size /\
   (forall b, b < length p -> nth_error p b = Some (firstn size (skipn (i + b * size) d))).
Proof.
  intros Hs. induction fuel as [|fuel IH]; intros i Hf0 Hf; cbn [part_fwd].
  { exfalso. lia. }
  destruct (Z.ltb_spec (Z.of_nat i) (Z.of_nat (length d))) as [L|L].
  - replace (Z.of_nat i + Z.of_nat size)%Z with (Z.of_nat (i + size)) by lia.
    destruct (IH (i + size) ltac:(lia) ltac:(lia)) as (p & E1 & E2 & E3 & E4 & E5). rewrite E1. cbn [bind].
    rewrite <- Nat2Z.inj_min, slice_nat by lia.
    assert (F : firstn (Nat.min (i + size) (length d) - i) (skipn i d) = firstn size (skipn i d)).
    { destruct (Nat.min_spec (i + size) (length d)) as [[M1 ->]|[M1 ->]].
      - f_equal. lia.
      - rewrite !firstn_all2; auto; rewrite skipn_length; lia. }
    rewrite F. exists (firstn size (skipn i d) :: p). split; auto.
    split; [|split; [|split]].
    + simpl. rewrite E2. rewrite <- skipn_skipn'. apply firstn_skipn.
    + right. destruct E3 as [-> |(full & l & -> & H1 & H2)].
      * exists [], (firstn size (skipn i d)). split; auto. split; auto. rewrite firstn_length, skipn_length. lia.
      * exists (firstn size (skipn i d) :: full), l. split; auto. split; auto. constructor; auto.
        assert (C : length (concat (full ++ [l])) >= 1).
        { rewrite concat_app, app_length. simpl. rewrite app_nil_r. lia. }
        rewrite E2, skipn_length in C. rewrite firstn_length, skipn_length. lia.
    + simpl. rewrite E4. destruct (le_lt_dec (length d) (i + size)) as [Q|Q].
      * replace (length d - (i + size) + size - 1) with (size - 1) by lia. rewrite (Nat.div_small (size - 1)) by lia.
        apply (Nat.div_unique _ _ _ (length d - i - 1)); lia.
      * replace (length d - i + size - 1) with (length d - (i + size) + size - 1 + 1 * size) by lia.
        rewrite Nat.div_add by lia. lia.
    + intros [|b] Hb; simpl.
      * rewrite Nat.add_0_r. reflexivity.
      * simpl in Hb. rewrite E5 by lia. do 3 f_equal. lia.
  - exists []. split; auto. split; [simpl; symmetry; apply skipn_all2; lia|]. split; [left; auto|].
    split; [|simpl; intros; lia]. simpl. symmetry. apply Nat.div_small. lia.
Qed.

Lemma partition_forward {A} (d : list A) (size : Z) : (1 <= size)%Z ->
  exists p, partition_equal d size false = Ok p /\ concat p = d /\ short_last (Z.to_nat size) p.
Proof.
  intros H. unfold partition_equal.
  destruct (fwd_blocks d (Z.to_nat size) ltac:(lia) (S (S (length d))) 0 ltac:(lia) ltac:(lia)) as (p & E1 & E2 & E3 & _).
  rewrite Z2Nat.id in E1 by lia. exists p. auto.
Qed.

Lemma partition_forward_blocks {A} (d : list A) (size : Z) : (1 <= size)%Z ->
  exists p, partition_equal d size false = Ok p /\
   length p = (length d + Z.to_nat size - 1) / Z.to_nat size /\
   (forall b, b < length p -> nth_error p b = Some (firstn (Z.to_nat size) (skipn (b * Z.to_nat size) d))).
Proof.
  intros H. unfold partition_equal.
  destruct (fwd_blocks d (Z.to_nat size) ltac:(lia) (S (S (length d))) 0 ltac:(lia) ltac:(lia)) as (p & E1 & E2 & E3 & E4 & E5).
  rewrite Z2Nat.id in E1 by lia. rewrite Nat.sub_0_r in E4. exists p. auto.
Qed.

Lemma bwd_blocks {A} (d : list A) (size : nat) : 0 < size -> forall fuel i acc, i <= length d -> i + 2 <= fuel ->
  exists first full, part_bwd fuel d (Z.of_nat size) (Z.of_nat i) acc = Ok (first :: full ++ acc) /\
    first ++ concat full = firstn i d /\ length first = i mod size /\ Forall (fun b => length b = size) full.
Proof.
  intros Hs. induction fuel as [|fuel IH]; intros i acc Hi Hf; cbn [part_bwd]; [lia|].
  destruct (Z.leb_spec 0 (Z.of_nat i)) as [_|L]; [|lia].
  destruct (le_lt_dec size i) as [Q|Q].
  - replace (Z.of_nat i - Z.of_nat size)%Z with (Z.of_nat (i - size)) by lia.
    rewrite Z.max_l by lia. rewrite slice_nat by lia. replace (i - (i - size)) with size by lia.
    destruct (IH (i - size) (firstn size (skipn (i - size) d) :: acc) ltac:(lia) ltac:(lia)) as (f & full & E1 & E2 & E3 & E4).
    rewrite E1. exists f, (full ++ [firstn size (skipn (i - size) d)]). split; [|split; [|split]].
    + rewrite <- app_assoc. reflexivity.
    + rewrite concat_app, app_assoc, E2. simpl. rewrite app_nil_r.
      rewrite <- (firstn_skipn (i - size) (firstn i d)). f_equal.
      * rewrite firstn_firstn. f_equal. lia.
      * rewrite skipn_firstn_comm. f_equal. lia.
    + rewrite E3. replace i with (i - size + 1 * size) at 2 by lia. rewrite Nat.mod_add by lia. reflexivity.
    + apply Forall_app. split; auto. constructor; auto. rewrite firstn_length, skipn_length. lia.
  - rewrite Z.max_r by lia. destruct fuel as [|fuel]; [lia|]. cbn [part_bwd].
    destruct (Z.leb_spec 0 (Z.of_nat i - Z.of_nat size)) as [L|_]; [lia|].
    rewrite (slice_nat d 0) by lia. rewrite Nat.sub_0_r. simpl skipn.
    exists (firstn i d), []. simpl. rewrite app_nil_r. split; auto. split; auto. split; auto.
    rewrite firstn_length. rewrite Nat.mod_small by lia. lia.
Qed.

Lemma partition_backward_all {A} (d : list A) (size : Z) : (1 <= size)%Z ->
  exists first full, partition_equal d size true = Ok (first :: full) /\ first ++ concat full = d /\
    length first = length d mod Z.to_nat size /\ Forall (fun b => length b = Z.to_nat size) full.
Proof.
  intros H. unfold partition_equal.
  destruct (bwd_blocks d (Z.to_nat size) ltac:(lia) (S (S (length d))) (length d) [] ltac:(lia) ltac:(lia)) as (f & full & E1 & E2 & E3 & E4).
  rewrite Z2Nat.id, app_nil_r in E1 by lia. exists f, full. rewrite firstn_all in E2. auto.
Qed.

Lemma partition_backward {A} (d : list A) (size : Z) : (1 <= size)%Z -> (Z.of_nat (length d) mod size <> 0)%Z ->
  exists p, partition_equal d size true = Ok p /\ concat p = d /\ short_first (Z.to_nat size) p.
Proof.
  intros H H2. destruct (partition_backward_all d size H) as (f & full & E1 & E2 & E3 & E4).
  exists (f :: full). split; auto. split; auto. right. exists full, f. split; auto. split; auto.
  assert (M : Z.of_nat (length d mod Z.to_nat size) = (Z.of_nat (length d) mod size)%Z).
  { rewrite Nat2Z.inj_mod. rewrite Z2Nat.id by lia. reflexivity. }
  pose proof (Nat.mod_upper_bound (length d) (Z.to_nat size) ltac:(lia)). rewrite E3. lia.
Qed.

(** When the size divides the length the first block is empty. *)
Lemma partition_backward_extra {A} (d : list A) (size : Z) : (1 <= size)%Z -> (Z.of_nat (length d) mod size = 0)%Z ->
  exists p, partition_equal d size true = Ok ([] :: p) /\ concat p = d /\ (p = [] \/ short_first (Z.to_nat size) p).
Proof.
  intros H H2. destruct (partition_backward_all d size H) as (f & full & E1 & E2 & E3 & E4).
  assert (M : Z.of_nat (length d mod Z.to_nat size) = (Z.of_nat (length d) mod size)%Z).
  { rewrite Nat2Z.inj_mod. rewrite Z2Nat.id by lia. reflexivity. }
  assert (length f = 0) by lia. destruct f; [|discriminate]. exists full. split; auto. split; auto.
  destruct full as [|b full]; auto. right. right. exists full, b. split; auto. inversion E4; subst. split; auto. lia.
Qed.
