From Verif Require Import MatSpec MatModel.
From Coq Require Import ZifyBool.
Local Open Scope Z_scope.

Lemma in_zrange a n k : In k (zrange a n) <-> a <= k < a + n.
Proof.
  unfold zrange. rewrite in_map_iff. split.
  - intros (x & <- & H). apply in_seq in H. lia.
  - intros H. exists (Z.to_nat (k - a)). rewrite in_seq. lia.
Qed.
Lemma zrange_length a n : length (zrange a n) = Z.to_nat n.
Proof. unfold zrange. rewrite map_length, seq_length. reflexivity. Qed.
Lemma zrange_nth a n k : (k < Z.to_nat n)%nat -> nth_error (zrange a n) k = Some (a + Z.of_nat k).
Proof.
  intros H. unfold zrange. erewrite map_nth_error; [reflexivity|].
  rewrite (nth_error_nth' _ 0%nat) by (rewrite seq_length; auto). rewrite seq_nth by auto. reflexivity.
Qed.

Lemma inside_b {A} (M : mat A) i j : insideb M i j = true <-> inside M i j.
Proof. unfold insideb, inside. lia. Qed.
Lemma pos_inj r i j i' j' : 0 <= i < r -> 0 <= i' < r -> i + r * j = i' + r * j' -> i = i' /\ j = j'.
Proof.
  intros H1 H2 E. assert (j = j') by (assert (r * (j - j') = i' - i) by lia; nia). subst. lia.
Qed.
Lemma pos_range {A} (M : mat A) i j : mat_ok M -> inside M i j -> 0 <= pos M i j < Z.of_nat (length (data M)) /\ pos M i j < Z.of_nat (rows M * cols M).
Proof. unfold mat_ok, inside, pos, nrows, ncols. intros H (H1 & H2). nia. Qed.

Lemma rd_ok {A} (d : list A) k : 0 <= k < Z.of_nat (length d) -> exists v, nth_error d (Z.to_nat k) = Some v /\ rd d k = Ok v.
Proof.
  intros H. destruct (nth_error d (Z.to_nat k)) as [v|] eqn:E; [|apply nth_error_None in E; lia].
  exists v. split; auto. unfold rd. destruct (Z.ltb_spec k 0); [lia|]. rewrite E. reflexivity.
Qed.
Lemma wr_ok {A} (d : list A) k v : 0 <= k < Z.of_nat (length d) -> wr d k v = Ok (upd (Z.to_nat k) v d).
Proof. intros H. unfold wr. destruct (Z.ltb_spec k 0); [lia|]. destruct (Z.leb_spec (Z.of_nat (length d)) k); [lia|]. reflexivity. Qed.
Lemma rd_out {A} (d : list A) k : ~ 0 <= k < Z.of_nat (length d) -> rd d k = UB.
Proof.
  intros H. unfold rd. destruct (Z.ltb_spec k 0); auto. destruct (nth_error d (Z.to_nat k)) eqn:E; auto.
  assert (Z.to_nat k < length d)%nat by (apply nth_error_Some; congruence). lia.
Qed.
Lemma wr_out {A} (d : list A) k v : ~ 0 <= k < Z.of_nat (length d) -> wr d k v = UB.
Proof. intros H. unfold wr. destruct (Z.ltb_spec k 0); auto. destruct (Z.leb_spec (Z.of_nat (length d)) k); auto. lia. Qed.

Lemma get0_ok {A} (M : mat A) i j : mat_ok M -> inside M i j -> exists v, entry M i j = Some v /\ get0 M i j = Ok v.
Proof.
  intros W H. destruct (pos_range M i j W H) as (P & _). destruct (rd_ok _ _ P) as (v & E & R). exists v. split; auto.
  unfold entry. rewrite (proj2 (inside_b M i j) H). replace (j * nrows M + i) with (pos M i j) by (unfold pos; lia). auto.
Qed.
Lemma get0_entry {A} (M : mat A) i j v : mat_ok M -> entry M i j = Some v -> get0 M i j = Ok v /\ inside M i j.
Proof.
  intros W E. assert (H : inside M i j). { apply inside_b. unfold entry in E. destruct (insideb M i j); auto. discriminate. }
  destruct (get0_ok M i j W H) as (v' & E' & G). rewrite E in E'. injection E' as <-. auto.
Qed.
Lemma entry_some {A} (M : mat A) i j : mat_ok M -> inside M i j -> exists v, entry M i j = Some v.
Proof. intros W H. destruct (get0_ok M i j W H) as (v & ? & _). eauto. Qed.

(** Assignments that are consistent with the wanted elements and cover all that change. *)
Lemma mwrites_ok {A} (f : Z -> Z -> option A) : forall l (M : mat A), mat_ok M ->
  (forall p e, In (p, e) l -> exists i j v, inside M i j /\ p = pos M i j /\ e = Ok v /\ f i j = Some v) ->
  (forall i j, inside M i j -> In (pos M i j) (map fst l) \/ entry M i j = f i j) ->
  exists M', mwrites M l = Ok M' /\ becomes M f M'.
Proof.
  induction l as [|[p e] l IH]; intros M W H1 H2.
  - exists M. split; [destruct M; reflexivity|]. constructor; auto. intros i j H. destruct (H2 i j H) as [[]|]; auto.
  - destruct (H1 p e (or_introl eq_refl)) as (i & j & v & Hin & -> & -> & Hf).
    destruct (pos_range M i j W Hin) as (P & P2). unfold mwrites. cbn [writes bind]. rewrite (wr_ok _ _ _ P). cbn [bind].
    set (M1 := with_data M (upd (Z.to_nat (pos M i j)) v (data M))).
    assert (W1 : mat_ok M1) by (unfold mat_ok, M1; simpl; rewrite upd_length; exact W).
    assert (E1 : forall a b, inside M a b -> entry M1 a b = if (a =? i) && (b =? j) then Some v else entry M a b).
    { intros a b Hab. unfold entry. change (insideb M1 a b) with (insideb M a b). rewrite (proj2 (inside_b M a b) Hab).
      change (nrows M1) with (nrows M). unfold M1. cbn [data with_data]. destruct ((a =? i) && (b =? j)) eqn:E.
      - assert (a = i /\ b = j) as (-> & ->) by lia. replace (j * nrows M + i) with (pos M i j) by (unfold pos; lia).
        apply nth_error_upd_same. lia.
      - apply nth_error_upd_other. intros C. assert (D : pos M i j = b * nrows M + a). { destruct Hab. destruct Hin. apply Z2Nat.inj; try lia. nia. }
        unfold pos in D. assert (i = a /\ j = b). { apply (pos_inj (nrows M)); destruct Hab, Hin; auto. rewrite D. lia. } lia. }
    destruct (IH M1 W1) as (M' & EM & B).
    + intros q e Hq. apply (H1 q e). right. auto.
    + intros a b Hab. rewrite (E1 a b Hab). destruct ((a =? i) && (b =? j)) eqn:E.
      * right. assert (a = i /\ b = j) as (-> & ->) by lia. auto.
      * destruct (H2 a b Hab) as [[H|H]|H]; auto. exfalso. cbn [fst] in H.
        assert (i = a /\ j = b). { apply (pos_inj (nrows M)); destruct Hab, Hin; auto. } lia.
    + exists M'. split; [exact EM|]. destruct B as [B1 B2 B3 B4 B5]. constructor; auto.
      * rewrite B3. apply upd_length.
      * intros k Hk. rewrite (B5 k Hk). unfold M1. cbn [data with_data]. apply nth_error_upd_other. lia.
Qed.

(** A rectangular loop. *)
Lemma grid_ok {A} (M : mat A) r c nr nc (val : Z -> Z -> res A) (f : Z -> Z -> option A) : mat_ok M ->
  0 <= r -> 0 <= c -> r + nr <= nrows M -> c + nc <= ncols M ->
  (forall i j, r <= i < r + nr -> c <= j < c + nc -> exists v, val (i - r) (j - c) = Ok v /\ f i j = Some v) ->
  exists M', mwrites M (grid M r c nr nc val) = Ok M' /\
    becomes M (fun i j => if in_block r c nr nc i j then f i j else entry M i j) M'.
Proof.
  intros W Hr Hc H1 H2 HV. apply mwrites_ok; auto.
  - intros p e H. unfold grid in H. apply in_flat_map in H. destruct H as (t & Ht & H). apply in_map_iff in H. destruct H as (u & E & Hu).
    injection E as <- <-. apply in_zrange in Ht. apply in_zrange in Hu.
    destruct (HV (r + t) (c + u) ltac:(lia) ltac:(lia)) as (v & E1 & E2). exists (r + t), (c + u), v.
    split; [unfold inside; lia|]. split; auto. split; [replace (r + t - r) with t in E1 by lia; replace (c + u - c) with u in E1 by lia; auto|].
    replace (in_block r c nr nc (r + t) (c + u)) with true; auto. unfold in_block. lia.
  - intros i j Hin. destruct (in_block r c nr nc i j) eqn:E; auto. left. unfold in_block in E. apply in_map_iff.
    exists (pos M i j, val (i - r) (j - c)). split; auto. unfold grid. apply in_flat_map. exists (i - r). split; [apply in_zrange; lia|].
    apply in_map_iff. exists (j - c). split; [|apply in_zrange; lia]. f_equal. f_equal; lia.
Qed.
