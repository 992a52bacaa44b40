(** Proofs about comparisons, fills and queries of matrices. *)
From Verif Require Export MqSpec MqModel MatProofs.
From Coq Require Import Lia.
Local Open Scope Z_scope.

Lemma place {A} (M : mat A) k : 0 <= k < mlength M -> exists i j, inside M i j /\ k = pos M i j.
Proof.
  unfold mlength, inside, pos. intros H. assert (0 <= nrows M) by (unfold nrows; lia). assert (nrows M <> 0) by (intros E; rewrite E in H; lia).
  exists (k mod nrows M), (k / nrows M). pose proof (Z.div_mod k (nrows M)). pose proof (Z.mod_pos_bound k (nrows M)).
  split; [|lia]. split; [lia|]. split; [apply Z.div_pos; lia|]. apply Z.div_lt_upper_bound; lia.
Qed.
Lemma inside_len {A} (M : mat A) i j : inside M i j -> 0 <= pos M i j < mlength M.
Proof. unfold mlength, inside, pos. intros (H1 & H2). nia. Qed.
Lemma len_ok {A} (M : mat A) : mat_ok M -> mlength M <= Z.of_nat (length (data M)).
Proof. unfold mat_ok, mlength, nrows, ncols. lia. Qed.
Lemma entry_pos {A} (M : mat A) i j : inside M i j -> entry M i j = nth_error (data M) (Z.to_nat (pos M i j)).
Proof. intros H. unfold entry. rewrite (proj2 (inside_b M i j) H). f_equal. unfold pos. lia. Qed.

(** ** Comparisons *)
Lemma abs_diff_spec x y eps : qltb eps (abs_diff x y) = false <-> (y - x <= eps /\ x - y <= eps)%Qc.
Proof.
  unfold abs_diff. destruct (qltb_spec (y - x) 0) as [H|H];
    match goal with |- qltb ?a ?b = _ <-> _ => destruct (qltb_spec a b) as [K|K] end; split; intros E; try discriminate; auto.
  - exfalso. destruct E. qlra.
  - split; qlra.
  - exfalso. destruct E. qlra.
  - split; qlra.
Qed.
Lemma value_loop_ok d b eps ignore nans : (b = None -> ignore = false) -> forall ks, (forall k, In k ks -> 0 <= k < Z.of_nat (length d)) ->
  exists r, value_loop d ks b eps ignore nans = Ok r /\
    (r = true <-> forall k v, In k ks -> nth_error d (Z.to_nat k) = Some v -> close b eps nans ignore v).
Proof.
  intros Hb. induction ks as [|k t IH]; intros R.
  - exists true. split; auto. split; auto. intros _ k v [].
  - destruct IH as (r & E & H). { intros; apply R; right; auto. }
    destruct (rd_ok d k) as (a & Na & Ra). { apply R. left; auto. }
    cbn [value_loop]. rewrite Ra. cbn [bind].
    assert (C : close b eps nans ignore a -> (r = true <-> forall k' v, In k' (k :: t) -> nth_error d (Z.to_nat k') = Some v -> close b eps nans ignore v)).
    { intros C. rewrite H. split; intros K k' v I V; [|apply (K k'); auto; right; auto]. destruct I as [<-|I]; [|eapply K; eauto]. congruence. }
    assert (F : ~ close b eps nans ignore a -> (false = true <-> forall k' v, In k' (k :: t) -> nth_error d (Z.to_nat k') = Some v -> close b eps nans ignore v)).
    { intros C'. split; [discriminate|]. intros K. exfalso. apply C'. apply (K k a); [left; auto|auto]. }
    destruct a as [x|]; destruct b as [y|]; cbn [close] in C, F.
    + destruct (qltb eps (abs_diff x y)) eqn:Q.
      * exists false. split; auto. apply F. intros K. apply abs_diff_spec in K. congruence.
      * exists r. split; auto. apply C. apply abs_diff_spec. auto.
    + exists false. split; auto. apply F. rewrite Hb; auto. 
    + destruct ignore; [exists r; split; auto|exists false; split; auto].
    + rewrite Hb in * by auto. destruct nans; [exists r; split; auto; apply C; auto|exists false; split; auto; apply F; intuition discriminate].
Qed.
Lemma equals_array_ok d b eps ignore nans ks : (forall k, In k ks -> 0 <= k < Z.of_nat (length d)) ->
  exists r, equals_array d ks b eps ignore nans = Ok r /\
    (r = true <-> (b = None /\ ignore = true) \/ forall k v, In k ks -> nth_error d (Z.to_nat k) = Some v -> close b eps nans ignore v).
Proof.
  intros R. unfold equals_array. destruct b as [y|].
  - destruct (value_loop_ok d (Some y) eps ignore nans ltac:(discriminate) ks R) as (r & E & H). exists r. split; auto. rewrite H.
    split; [auto|]. intros [(K & _)|K]; [discriminate|auto].
  - destruct ignore eqn:Ig.
    + exists true. split; auto. split; auto.
    + destruct (value_loop_ok d None eps false nans ltac:(auto) ks R) as (r & E & H). exists r. split; auto. rewrite H.
      split; [auto|]. intros [(_ & K)|K]; [discriminate|auto].
Qed.
Lemma close_ignored eps nans (a : option Qc) : close None eps nans true a.
Proof. destruct a; cbn; auto. Qed.
Theorem equals_value_ok M b eps nans ignore : mat_ok M -> exists r, equals_value M b eps nans ignore = Ok r /\
  (r = true <-> forall i j v, entry M i j = Some v -> close b eps nans ignore v).
Proof.
  intros W. pose proof (len_ok M W) as L. destruct (equals_array_ok (data M) b eps ignore nans (zrange 0 (mlength M))) as (r & E & H).
  { intros k K. apply in_zrange in K. lia. }
  exists r. split; auto. rewrite H. split.
  - intros K i j v V. destruct K as [(-> & ->)|K]; [apply close_ignored|].
    destruct (get0_entry M i j v W V) as (_ & I). pose proof (inside_len M i j I).
    apply (K (pos M i j)); [apply in_zrange; lia|]. rewrite <- entry_pos; auto.
  - intros K. right. intros k v Ik V. apply in_zrange in Ik. destruct (place M k) as (i & j & I & ->); [lia|]. apply (K i j). rewrite entry_pos; auto.
Qed.
Theorem equals_value_column_ok M j b eps nans ignore : mat_ok M -> 0 <= j < ncols M -> exists r, equals_value_column M j b eps nans ignore = Ok r /\
  (r = true <-> forall i v, entry M i j = Some v -> close b eps nans ignore v).
Proof.
  intros W Hj. pose proof (len_ok M W) as L.
  destruct (equals_array_ok (data M) b eps ignore nans (map (fun i => j * nrows M + i) (zrange 0 (nrows M)))) as (r & E & H).
  { intros k K. apply in_map_iff in K. destruct K as (i & <- & K). apply in_zrange in K. unfold mlength in L. nia. }
  exists r. split; auto. rewrite H. split.
  - intros K i v V. destruct K as [(-> & ->)|K]; [apply close_ignored|].
    destruct (get0_entry M i j v W V) as (_ & I). pose proof (inside_len M i j I).
    apply (K (pos M i j)). { apply in_map_iff. exists i. split; [unfold pos; lia|]. apply in_zrange. destruct I. lia. }
    rewrite <- entry_pos; auto.
  - intros K. right. intros k v Ik V. apply in_map_iff in Ik. destruct Ik as (i & <- & Ik). apply in_zrange in Ik. apply (K i).
    rewrite entry_pos by (split; lia). rewrite <- V. do 2 f_equal. unfold pos. lia.
Qed.
(** Comparison of two storages. *)
Definition pair_close (eps : Qc) (nans : bool) (a b : option Qc) : Prop := close b eps nans false a.
Lemma equals_loop_ok d e eps nans : forall ks diff, (forall k, In k ks -> 0 <= k < Z.of_nat (length d) /\ 0 <= k < Z.of_nat (length e)) ->
  exists r diff', equals_loop d e ks eps nans diff = Ok (r, diff') /\
    (r = true <-> forall k a b, In k ks -> nth_error d (Z.to_nat k) = Some a -> nth_error e (Z.to_nat k) = Some b -> close b eps nans false a).
Proof.
  induction ks as [|k t IH]; intros diff R.
  - exists true, diff. split; auto. split; auto. intros _ k a b [].
  - assert (R' : forall k0, In k0 t -> 0 <= k0 < Z.of_nat (length d) /\ 0 <= k0 < Z.of_nat (length e)) by (intros; apply R; right; auto).
    destruct (R k) as (K1 & K2); [left; auto|]. destruct (rd_ok d k K1) as (a & Na & Ra). destruct (rd_ok e k K2) as (b & Nb & Rb).
    cbn [equals_loop]. rewrite Ra. cbn [bind]. rewrite Rb. cbn [bind].
    assert (C : close b eps nans false a -> forall diff2, exists r diff', equals_loop d e t eps nans diff2 = Ok (r, diff') /\
      (r = true <-> forall k' a b, In k' (k :: t) -> nth_error d (Z.to_nat k') = Some a -> nth_error e (Z.to_nat k') = Some b -> close b eps nans false a)).
    { intros C diff2. destruct (IH diff2 R') as (r & diff' & E & H). exists r, diff'. split; auto. rewrite H.
      split; intros K k' v w I V W; [|apply (K k'); auto; right; auto]. destruct I as [<-|I]; [|eapply K; eauto].
      rewrite Na in V. rewrite Nb in W. injection V as <-. injection W as <-. exact C. }
    assert (F : ~ close b eps nans false a -> (false = true <-> forall k' a b, In k' (k :: t) -> nth_error d (Z.to_nat k') = Some a -> nth_error e (Z.to_nat k') = Some b -> close b eps nans false a)).
    { intros C'. split; [discriminate|]. intros K. exfalso. apply C'. apply (K k a b); [left; auto|auto|auto]. }
    destruct a as [x|]; destruct b as [y|]; cbn [close] in C, F.
    + destruct (qltb eps (abs_diff x y)) eqn:Q.
      * exists false. eexists. split; auto. apply F. intros K. apply abs_diff_spec in K. congruence.
      * apply C. apply abs_diff_spec. auto.
    + exists false. eexists. split; auto.
    + exists false. eexists. split; auto.
    + destruct nans; [apply C; auto|]. exists false. eexists. split; auto. apply F. intuition discriminate.
Qed.
Theorem equals_ok M N diff eps throw nans : mat_ok M -> mat_ok N -> nrows N = nrows M -> ncols N = ncols M ->
  exists r diff', equals false M N diff eps throw nans = Ok (r, diff') /\
    (r = true <-> forall i j a b, entry M i j = Some a -> entry N i j = Some b -> close b eps nans false a).
Proof.
  intros W1 W2 H1 H2. pose proof (len_ok M W1) as L1. pose proof (len_ok N W2) as L2. unfold equals.
  assert (LE : mlength N = mlength M) by (unfold mlength; congruence).
  rewrite H1, H2, !Z.eqb_refl. cbn [negb orb].
  destruct (equals_loop_ok (data M) (data N) eps nans (zrange 0 (mlength M)) diff) as (r & d & E & H).
  { intros k K. apply in_zrange in K. lia. }
  exists r, d. split; auto. rewrite H. split.
  - intros K i j a b Va Vb. destruct (get0_entry M i j a W1 Va) as (_ & I). destruct (get0_entry N i j b W2 Vb) as (_ & I2). pose proof (inside_len M i j I).
    apply (K (pos M i j)); [apply in_zrange; lia|rewrite <- entry_pos; auto|].
    replace (pos M i j) with (pos N i j) by (unfold pos; congruence). rewrite <- entry_pos; auto.
  - intros K k a b Ik Va Vb. apply in_zrange in Ik. destruct (place M k) as (i & j & I & ->); [lia|].
    apply (K i j); [rewrite entry_pos; auto|]. rewrite entry_pos; [|unfold inside in *; lia].
    replace (pos N i j) with (pos M i j) by (unfold pos; congruence). auto.
Qed.
Theorem equals_size M N diff eps throw nans : nrows N <> nrows M \/ ncols N <> ncols M ->
  equals false M N diff eps throw nans = if throw then Throw else Ok (false, diff).
Proof.
  intros H. unfold equals. replace (negb (nrows N =? nrows M) || negb (ncols N =? ncols M))%bool with true; auto.
  symmetry. apply orb_true_iff. rewrite !negb_true_iff, !Z.eqb_neq. auto.
Qed.

(** ** Queries *)
Section Query.
Context {A : Type} (same : A -> bool).
Lemma indices_loop_ok (d : list A) : forall ks, (forall k, In k ks -> 0 <= k < Z.of_nat (length d)) ->
  indices_loop same d ks = Ok (filter (fun k => match nth_error d (Z.to_nat k) with Some v => same v | None => false end) ks).
Proof.
  induction ks as [|k t IH]; intros R; auto. cbn [indices_loop filter].
  destruct (rd_ok d k) as (v & N & E); [apply R; left; auto|]. rewrite E. cbn [bind]. rewrite IH by (intros; apply R; right; auto). cbn [bind].
  rewrite N. destruct (same v); auto.
Qed.
Lemma any_loop_ok (d : list A) : forall ks, (forall k, In k ks -> 0 <= k < Z.of_nat (length d)) ->
  exists r, any_loop same d ks = Ok r /\ (r = true <-> exists k v, In k ks /\ nth_error d (Z.to_nat k) = Some v /\ same v = true).
Proof.
  induction ks as [|k t IH]; intros R.
  - exists false. split; auto. split; [discriminate|]. intros (k & v & [] & _).
  - cbn [any_loop]. destruct (rd_ok d k) as (v & N & E); [apply R; left; auto|]. rewrite E. cbn [bind].
    destruct (same v) eqn:V.
    + exists true. split; auto. split; auto. intros _. exists k, v. split; [left; auto|auto].
    + destruct IH as (r & Er & H); [intros; apply R; right; auto|]. exists r. split; auto. rewrite H. split; intros (k' & v' & I & Nv & Sv).
      * exists k', v'. split; [right; auto|auto].
      * destruct I as [<-|I]; [congruence|]. exists k', v'. auto.
Qed.
Lemma all_loop_ok (d : list A) : forall ks, (forall k, In k ks -> 0 <= k < Z.of_nat (length d)) ->
  exists r, all_loop same d ks = Ok r /\ (r = true <-> forall k v, In k ks -> nth_error d (Z.to_nat k) = Some v -> same v = true).
Proof.
  induction ks as [|k t IH]; intros R.
  - exists true. split; auto. split; [intros _ k v []|auto].
  - cbn [all_loop]. destruct (rd_ok d k) as (v & N & E); [apply R; left; auto|]. rewrite E. cbn [bind].
    destruct (same v) eqn:V.
    + destruct IH as (r & Er & H); [intros; apply R; right; auto|]. exists r. split; auto. rewrite H.
      split; intros K k' v' I Nv; [|apply (K k'); auto; right; auto]. destruct I as [<-|I]; [congruence|eauto].
    + exists false. split; auto. split; [discriminate|]. intros K. rewrite <- V. apply (K k); [left; auto|auto].
Qed.
Theorem indices_ok (M : mat A) : mat_ok M -> exists l, indices_of same M = Ok l /\ Sorted.StronglySorted Z.lt l /\
  forall k, In k l <-> exists i j v, entry M i j = Some v /\ same v = true /\ k = j * nrows M + i.
Proof.
  intros W. pose proof (len_ok M W) as L. unfold indices_of. rewrite indices_loop_ok.
  2: { intros k K. apply in_zrange in K. lia. }
  eexists. split; [reflexivity|]. split.
  - unfold zrange. generalize (Z.to_nat (mlength M)) 0%nat. intros n. induction n as [|n IH]; intros s; cbn [seq map filter]; [constructor|].
    destruct (match nth_error (data M) (Z.to_nat (0 + Z.of_nat s)) with Some v => same v | None => false end); auto.
    constructor; auto. apply Forall_forall. intros x Hx. apply filter_In in Hx. destruct Hx as (Hx & _). apply in_map_iff in Hx.
    destruct Hx as (y & <- & Hy). apply in_seq in Hy. lia.
  - intros k. rewrite filter_In, in_zrange. split.
    + intros (K & V). destruct (place M k) as (i & j & I & ->); [lia|]. destruct (nth_error (data M) (Z.to_nat (pos M i j))) as [v|] eqn:N; [|discriminate].
      exists i, j, v. rewrite entry_pos by auto. split; auto. split; auto. unfold pos. lia.
    + intros (i & j & v & V & Sv & ->). destruct (get0_entry M i j v W V) as (_ & I). pose proof (inside_len M i j I).
      replace (j * nrows M + i) with (pos M i j) by (unfold pos; lia). split; [lia|]. rewrite <- entry_pos, V by auto. auto.
Qed.
Theorem any_ok (M : mat A) : mat_ok M -> exists r, any_of same M = Ok r /\ (r = true <-> exists i j v, entry M i j = Some v /\ same v = true).
Proof.
  intros W. pose proof (len_ok M W) as L. destruct (any_loop_ok (data M) (zrange 0 (mlength M))) as (r & E & H).
  { intros k K. apply in_zrange in K. lia. }
  exists r. split; auto. rewrite H. split.
  - intros (k & v & K & N & Sv). apply in_zrange in K. destruct (place M k) as (i & j & I & ->); [lia|]. exists i, j, v. rewrite entry_pos; auto.
  - intros (i & j & v & V & Sv). destruct (get0_entry M i j v W V) as (_ & I). pose proof (inside_len M i j I).
    exists (pos M i j), v. rewrite <- entry_pos by auto. split; auto. apply in_zrange. lia.
Qed.
Theorem all_ok (M : mat A) : mat_ok M -> exists r, all_of same M = Ok r /\ (r = true <-> forall i j v, entry M i j = Some v -> same v = true).
Proof.
  intros W. pose proof (len_ok M W) as L. destruct (all_loop_ok (data M) (zrange 0 (mlength M))) as (r & E & H).
  { intros k K. apply in_zrange in K. lia. }
  exists r. split; auto. rewrite H. split.
  - intros K i j v V. destruct (get0_entry M i j v W V) as (_ & I). pose proof (inside_len M i j I).
    apply (K (pos M i j)); [apply in_zrange; lia|]. rewrite <- entry_pos; auto.
  - intros K k v Ik N. apply in_zrange in Ik. destruct (place M k) as (i & j & I & ->); [lia|]. apply (K i j). rewrite entry_pos; auto.
Qed.
End Query.

(** ** Fills *)
Theorem set_value_ok {A} (M : mat A) v : mat_ok M -> exists M', set_value M v = Ok M' /\ becomes M (fun _ _ => Some v) M'.
Proof.
  intros W. apply mwrites_ok; auto.
  - intros p e H. apply in_map_iff in H. destruct H as (k & E & K). injection E as <- <-. apply in_zrange in K.
    destruct (place M k) as (i & j & I & ->); [lia|]. exists i, j, v. auto.
  - intros i j I. left. rewrite map_map. cbn. apply in_map_iff. exists (pos M i j). split; auto. apply in_zrange. pose proof (inside_len M i j I). lia.
Qed.
Lemma sequence_in step : forall n s v p e, In (p, e) (sequence_writes (map (fun k => 0 + Z.of_nat k) (seq s n)) v step) ->
  exists k, (s <= k < s + n)%nat /\ p = Z.of_nat k /\ e = Ok (v + qz (Z.of_nat k - Z.of_nat s) * step)%Qc.
Proof.
  induction n as [|n IH]; intros s v p e H; [destruct H|]. cbn [seq map sequence_writes] in H. destruct H as [H|H].
  - injection H as <- <-. exists s. split; [lia|]. split; [lia|]. f_equal. replace (Z.of_nat s - Z.of_nat s) with 0 by lia.
    change (qz 0) with 0%Qc. ring.
  - apply IH in H. destruct H as (k & K & -> & ->). exists k. split; [lia|]. split; [lia|]. f_equal.
    replace (Z.of_nat k - Z.of_nat s) with ((Z.of_nat k - Z.of_nat (Datatypes.S s)) + 1) by lia. rewrite qz_add. change (qz 1) with 1%Qc. ring.
Qed.
Lemma sequence_fst step : forall ks v, map fst (sequence_writes ks v step) = ks.
Proof. induction ks; intros; cbn; f_equal; auto. Qed.
Theorem set_sequence_ok M start step : mat_ok M -> exists M', set_sequence M start step = Ok M' /\
  becomes M (fun i j => Some (start + qz (j * nrows M + i) * step)%Qc) M'.
Proof.
  intros W. apply mwrites_ok; auto.
  - intros p e H. unfold zrange in H. apply sequence_in in H. destruct H as (k & K & -> & ->).
    destruct (place M (Z.of_nat k)) as (i & j & I & E); [lia|]. exists i, j. eexists. split; auto. split; auto. split; [reflexivity|].
    replace (Z.of_nat k - Z.of_nat 0) with (j * nrows M + i) by (unfold pos in E; lia). reflexivity.
  - intros i j I. left. rewrite sequence_fst. apply in_zrange. pose proof (inside_len M i j I). lia.
Qed.
Theorem set_value_diag_ok {A} (M : mat A) v : mat_ok M -> nrows M = ncols M -> exists M', set_value_diag M v = Ok M' /\
  becomes M (fun i j => if i =? j then Some v else entry M i j) M'.
Proof.
  intros W SQ. unfold set_value_diag. replace (nrows M =? ncols M) with true by lia. cbn [negb]. apply mwrites_ok; auto.
  - intros p e H. apply in_map_iff in H. destruct H as (i & E & K). injection E as <- <-. apply in_zrange in K.
    exists i, i, v. split; [split; lia|]. rewrite Z.eqb_refl. auto.
  - intros i j (I1 & I2). destruct (Z.eqb_spec i j) as [->|N]; [left|right; auto]. rewrite map_map. cbn. apply in_map_iff. exists j. split; auto. apply in_zrange. lia.
Qed.
Theorem set_value_diag2_ok {A} (M : mat A) v w : mat_ok M -> nrows M = ncols M -> exists M', set_value_diag2 M v w = Ok M' /\
  becomes M (fun i j => Some (if i =? j then v else w)) M'.
Proof.
  intros W SQ. unfold set_value_diag2. replace (nrows M =? ncols M) with true by lia. cbn [negb].
  destruct (set_value_ok M w W) as (M1 & E1 & B1). rewrite E1. cbn [bind]. destruct B1 as [b1 b2 b3 b4 b5].
  destruct (set_value_diag_ok M1 v) as (M2 & E2 & B2). { unfold mat_ok in *. rewrite b1, b2, b3. auto. } { unfold nrows, ncols in *. congruence. }
  exists M2. split; auto. destruct B2 as [c1 c2 c3 c4 c5]. split; try congruence.
  - intros i j I. assert (I1 : inside M1 i j) by (unfold inside, nrows, ncols in *; rewrite b1, b2; auto). rewrite c4 by auto. rewrite b4 by auto. destruct (i =? j); auto.
  - intros k K. rewrite c5, b5 by (rewrite ?b1, ?b2; auto). auto.
Qed.
Theorem set_value_off_diag_ok {A} (M : mat A) v : mat_ok M -> nrows M = ncols M -> exists M', set_value_off_diag M v = Ok M' /\
  becomes M (fun i j => if i =? j then entry M i j else Some v) M'.
Proof.
  intros W SQ. unfold set_value_off_diag. replace (nrows M =? ncols M) with true by lia. cbn [negb]. apply mwrites_ok; auto.
  - intros p e H. apply in_flat_map in H. destruct H as (i & Hi & H). apply in_flat_map in H. destruct H as (j & Hj & H).
    apply in_zrange in Hi. apply in_zrange in Hj. destruct (Z.eqb_spec i j) as [E|E]; [destruct H|]. destruct H as [H|[]]. injection H as <- <-.
    exists i, j, v. split; [split; lia|]. replace (i =? j) with false by lia. auto.
  - intros i j (I1 & I2). destruct (Z.eqb_spec i j) as [E|N]; [right; auto|left]. apply in_map_iff. exists (pos M i j, Ok v). split; auto.
    apply in_flat_map. exists i. split; [apply in_zrange; lia|]. apply in_flat_map. exists j. split; [apply in_zrange; lia|].
    replace (i =? j) with false by lia. left. auto.
Qed.
Theorem diag_not_square {A} (M : mat A) v w : nrows M <> ncols M -> set_value_diag M v = Throw /\ set_value_diag2 M v w = Throw /\ set_value_off_diag M v = Throw.
Proof. intros H. unfold set_value_diag, set_value_diag2, set_value_off_diag. replace (nrows M =? ncols M) with false by lia. auto. Qed.
