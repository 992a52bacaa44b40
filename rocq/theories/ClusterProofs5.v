(** HCluster::MergeR. *)
From Verif Require Import Base Num SortModel SortSpec SortProofs ClusterModel ClusterSpec ClusterProofs ClusterProofs2 ClusterProofs4.
Local Open Scope nat_scope.

Lemma find_pos_spec x l : In x l -> nth_error l (find_pos x l) = Some x.
Proof.
  induction l as [|a l IH]; intros H; [destruct H|]. simpl. destruct (Nat.eqb_spec a x) as [->|Hne]; auto.
  destruct H as [->|H]; [congruence|]. apply IH; auto.
Qed.

Definition encv (n c : nat) : Z := if c <? n then (- (Z.of_nat c + 1))%Z else (Z.of_nat c - Z.of_nat n + 1)%Z.
Lemma enc_ok n ns c : wf n ns -> c < length ns -> enc n ns c = Ok (encv n c).
Proof.
  intros W Hc. unfold enc, node_at, encv. destruct (nth_error ns c) as [a|] eqn:E; [|apply nth_error_None in E; lia]. cbn [bind].
  destruct (Nat.ltb_spec c n) as [H|H].
  - rewrite (wf_leaf _ _ W c a H E). reflexivity.
  - destruct (wf_node _ _ W c a H E) as (H1 & H2 & H3 & ->).
    pose proof (wth_pos n ns (nd_left a) W ltac:(lia)). pose proof (wth_pos n ns (nd_right a) W ltac:(lia)).
    destruct (Nat.ltb_spec 1 (wth ns (nd_left a) + wth ns (nd_right a))); [reflexivity|lia].
Qed.
Lemma rows0_ok n ns : wf n ns -> forall t, (exists s, ns = s ++ t /\ n <= length s) ->
  rows0 n ns t = Ok (map (fun a => (encv n (nd_left a), encv n (nd_right a))) t).
Proof.
  intros W. induction t as [|a t IH]; intros (s & E & Hs); auto. cbn [rows0].
  assert (Ea : nth_error ns (length s) = Some a) by (rewrite E, nth_error_app2, Nat.sub_diag; auto).
  assert (Bs : length s < length ns) by (apply nth_error_Some; congruence).
  destruct (wf_node _ _ W (length s) a Hs Ea) as (H1 & H2 & _).
  rewrite !enc_ok by (auto; lia). cbn [bind]. rewrite IH; [reflexivity|].
  exists (s ++ [a]). rewrite <- app_assoc, app_length. split; auto. lia.
Qed.

Lemma nth_error_skipn2 {A} (l : list A) n i : nth_error (skipn n l) i = nth_error l (n + i).
Proof. revert l. induction n as [|n IH]; intros l; auto. destruct l; simpl; auto. destruct i; auto. Qed.

Lemma Forall2_map_l {A B C} (R : B -> C -> Prop) (f : A -> B) l1 l2 : Forall2 R (map f l1) l2 <-> Forall2 (fun a c => R (f a) c) l1 l2.
Proof.
  split.
  - revert l2. induction l1; intros l2 H; inversion H; subst; constructor; auto.
  - induction 1; simpl; constructor; auto.
Qed.

Theorem merge_r_spec n ns D : 2 <= n -> wf n ns -> binary_tree n ns -> monotone n ns D ->
  exists merge heights order, merge_r n ns = Ok (merge, heights, order) /\ r_tree n ns merge heights order.
Proof.
  intros Hn W BT M. pose proof (bt_length _ _ BT) as EL. unfold merge_r.
  assert (LS : length (skipn n ns) = n - 1) by (rewrite skipn_length; lia).
  rewrite (rows0_ok n ns W (skipn n ns)).
  2:{ exists (firstn n ns). rewrite firstn_skipn, firstn_length. split; auto. lia. }
  cbn [bind]. set (rs := map (fun a => (encv n (nd_left a), encv n (nd_right a))) (skipn n ns)).
  set (hs := map nd_height (skipn n ns)). set (order := sort_indexes true hs).
  assert (Lh : length hs = n - 1) by (unfold hs; rewrite map_length; auto).
  assert (Lr : length rs = n - 1) by (unfold rs; rewrite map_length; auto).
  destruct (sort_indexes_spec true hs) as (OP & OS). fold order in OP, OS. rewrite Lh in OP.
  assert (Lo : length order = n - 1) by (rewrite OP, seq_length; auto).
  assert (OB : forall k, In k order <-> k < n - 1).
  { intros k. split; intros H; [apply (Permutation_in _ OP), in_seq in H; lia|apply (Permutation_in _ (Permutation_sym OP)), in_seq; lia]. }
  assert (FB : Forall (fun i => 0 <= i < Z.of_nat (n - 1))%Z (map Z.of_nat order)).
  { apply Forall_map, Forall_forall. intros k Hk. apply OB in Hk. lia. }
  destruct (sort_by_vector_ok hs hs (map Z.of_nat order)) as (heights & EH & FH); auto.
  { rewrite map_length. lia. } { intros C. rewrite C in Lh. simpl in Lh. lia. } { rewrite Lh. auto. }
  rewrite EH. cbn [bind].
  destruct (gather_ok rs (map Z.of_nat order)) as (rows & ER & FR); [rewrite Lr; auto|]. rewrite ER. cbn [bind].
  set (merge := map (fun r => (renumber order (fst r), renumber order (snd r))) rows).
  exists merge, heights, order. split; [reflexivity|].
  apply Forall2_map_l in FH, FR.
  (* the entry of a node *)
  set (entry := fun x => if x <? n then (- (Z.of_nat x + 1))%Z else (Z.of_nat (find_pos (x - n) order) + 1)%Z).
  assert (EN : forall x, renumber order (encv n x) = entry x).
  { intros x. unfold renumber, encv, entry. destruct (Nat.ltb_spec x n).
    - destruct (Z.leb_spec 0 (- (Z.of_nat x + 1) - 1)); [lia|reflexivity].
    - destruct (Z.leb_spec 0 (Z.of_nat x - Z.of_nat n + 1 - 1)); [|lia]. repeat f_equal. lia. }
  assert (MR : Forall2 (fun k r => exists a, nth_error ns (n + k) = Some a /\ r = (entry (nd_left a), entry (nd_right a))) order merge).
  { assert (G : forall o rws, Forall2 (fun i x => nth_error rs (Z.to_nat (Z.of_nat i)) = Some x) o rws ->
      Forall2 (fun k r => exists a, nth_error ns (n + k) = Some a /\ r = (entry (nd_left a), entry (nd_right a))) o
        (map (fun r => (renumber order (fst r), renumber order (snd r))) rws)).
    { clear -EN. intros o rws FR. induction FR as [|k r o rws H F IH]; simpl; constructor; auto.
      rewrite Nat2Z.id in H. unfold rs in H. rewrite nth_error_map, nth_error_skipn2 in H.
      destruct (nth_error ns (n + k)) as [a|]; [|discriminate]. injection H as <-. exists a. split; auto. simpl. rewrite !EN. reflexivity. }
    apply G. exact FR. }
  assert (Lm : length merge = n - 1) by (rewrite <- (Forall2_len _ _ _ MR); auto).
  assert (HH : Forall2 (fun k h => exists a, nth_error ns (n + k) = Some a /\ h = nd_height a) order heights).
  { clear -FH. revert FH. generalize order as o. intros o FH. induction FH as [|k h o hs' H F IH]; simpl; constructor; auto.
    rewrite Nat2Z.id in H. unfold hs in H. rewrite nth_error_map, nth_error_skipn2 in H.
    destruct (nth_error ns (n + k)) as [a|]; [|discriminate]. injection H as <-. exists a. split; auto. }
  assert (NH : forall k a, nth_error ns (n + k) = Some a -> nth k hs 0%Qc = nd_height a).
  { intros k a E. apply nth_error_nth. unfold hs. rewrite nth_error_map, nth_error_skipn2, E. reflexivity. }
  assert (FP : forall k, k < n - 1 -> nth_error order (find_pos k order) = Some k).
  { intros k Hk. apply find_pos_spec, OB. auto. }
  assert (SSlt : forall i j a b, StronglySorted (comes_before true hs) order -> nth_error order i = Some a -> nth_error order j = Some b -> i < j -> comes_before true hs a b).
  { intros i j a b S. clear -S. revert i j. induction S as [|z l S IH HF]; intros [|i] [|j] Ei Ej Hij; simpl in *; try discriminate; try lia.
    - injection Ei as <-. rewrite Forall_forall in HF. apply HF. eapply nth_error_In; eauto.
    - apply (IH i j); auto. lia. }
  (* children come in earlier rows *)
  assert (EARLY : forall j k a c, nth_error order j = Some k -> nth_error ns (n + k) = Some a -> c = nd_left a \/ c = nd_right a ->
     n <= c -> find_pos (c - n) order < j).
  { intros j k a c Ej Ea Hc Hcn. assert (Hk : k < n - 1) by (apply OB; eapply nth_error_In; eauto).
    destruct (wf_node _ _ W (n + k) a ltac:(lia) Ea) as (G1 & G2 & _).
    assert (Hck : c - n < k) by (destruct Hc as [-> | ->]; lia).
    pose proof (FP (c - n) ltac:(lia)) as Ep.
    destruct (nth_error ns c) as [b|] eqn:Eb; [|apply nth_error_None in Eb; destruct Hc as [-> | ->]; lia].
    assert (CB : comes_before true hs (c - n) k).
    { unfold comes_before. rewrite (NH k a Ea), (NH (c - n) b) by (replace (n + (c - n)) with c by lia; auto).
      pose proof (mn_tree _ _ _ M (n + k) a c b ltac:(lia) Ea Hc Hcn Eb) as HL.
      destruct (Qcle_lt_or_eq _ _ HL); [left; auto|right; auto]. }
    destruct (Nat.lt_trichotomy (find_pos (c - n) order) j) as [H|[H|H]]; auto; exfalso.
    - rewrite H, Ej in Ep. injection Ep as Ep. lia.
    - pose proof (SSlt _ _ _ _ OS Ej Ep H) as CB2. apply (R_irrefl true hs k). eapply R_trans; eauto. }
  assert (NROW : forall j r, nth_error merge j = Some r -> exists k a, nth_error order j = Some k /\ nth_error ns (n + k) = Some a /\
     r = (entry (nd_left a), entry (nd_right a))).
  { intros j r Ej. assert (Ek : exists k, nth_error order j = Some k).
    { destruct (nth_error order j) eqn:Ek; [eauto|]. apply nth_error_None in Ek. assert (j < length merge) by (apply nth_error_Some; congruence). lia. }
    destruct Ek as (k & Ek). destruct (Forall2_nth_r _ _ _ _ _ MR Ek) as (r' & Er & a & Ea & E). exists k, a. repeat split; auto. congruence. }
  assert (ENT : forall j r c, nth_error merge j = Some r -> (exists k a, nth_error order j = Some k /\ nth_error ns (n + k) = Some a /\ (c = nd_left a \/ c = nd_right a)) ->
     r_entry n j (entry c)).
  { intros j r c Ej (k & a & Ek & Ea & Hc). unfold entry, r_entry. destruct (Nat.ltb_spec c n); [left; lia|right].
    pose proof (EARLY j k a c Ek Ea Hc H). lia. }
  assert (INJ : forall x y, x < length ns -> y < length ns -> entry x = entry y -> x = y).
  { intros x y Hx Hy. unfold entry. destruct (Nat.ltb_spec x n), (Nat.ltb_spec y n); try lia. intros E.
    pose proof (FP (x - n) ltac:(lia)) as Ex. pose proof (FP (y - n) ltac:(lia)) as Ey.
    assert (EE : find_pos (x - n) order = find_pos (y - n) order) by lia. rewrite EE in Ex. rewrite Ex in Ey. injection Ey as Ey. lia. }
  split; auto.
  - (* sorted *)
    assert (G : forall o h, Forall2 (fun k h => exists a, nth_error ns (n + k) = Some a /\ h = nd_height a) o h -> StronglySorted (comes_before true hs) o -> StronglySorted Qcle h).
    { clear -NH. induction 1 as [|k h o hl (a & Ea & ->) F IH]; intros S; constructor; inversion S; subst; auto.
      clear -H2 F Ea NH. induction F as [|k' h' o hl (b & Eb & ->) F IH]; constructor; inversion H2; subst; auto.
      destruct H1 as [H1|[H1 _]]; rewrite (NH k a Ea), (NH k' b Eb) in H1; [apply Qclt_le_weak; auto|rewrite H1; apply Qcle_refl]. }
    apply (G order); auto.
  - intros j a b Ej. destruct (NROW j _ Ej) as (k & x & Ek & Ex & E). injection E as -> ->. split; eapply ENT; eauto 8.
  - (* every entry once *)
    assert (FM : Permutation (flat_map (fun r => [fst r; snd r]) merge) (map entry (children n ns))).
    { assert (E1 : flat_map (fun r => [fst r; snd r]) merge = concat (map (fun k => match nth_error (skipn n ns) k with Some a => [entry (nd_left a); entry (nd_right a)] | None => [] end) order)).
      { revert MR. generalize merge as m. clear. intros m.
        assert (G : forall o, Forall2 (fun k r => exists a, nth_error ns (n + k) = Some a /\ r = (entry (nd_left a), entry (nd_right a))) o m ->
          flat_map (fun r => [fst r; snd r]) m = concat (map (fun k => match nth_error (skipn n ns) k with Some a => [entry (nd_left a); entry (nd_right a)] | None => [] end) o)).
        { intros o F. induction F as [|k r o m (a & Ea & ->) F IH]; simpl; auto. rewrite nth_error_skipn2, Ea, IH. reflexivity. }
        apply G. }
      rewrite E1. assert (E2 : map entry (children n ns) = concat (map (fun k => match nth_error (skipn n ns) k with Some a => [entry (nd_left a); entry (nd_right a)] | None => [] end) (seq 0 (n - 1)))).
      { unfold children. rewrite <- LS. clear. generalize (skipn n ns) as l. intros l.
        assert (G : forall t p, map entry (flat_map (fun a => [nd_left a; nd_right a]) t) =
          concat (map (fun k => match nth_error (p ++ t) k with Some a => [entry (nd_left a); entry (nd_right a)] | None => [] end) (seq (length p) (length t)))).
        { induction t as [|a t IH]; intros p; auto. simpl. rewrite nth_error_app2, Nat.sub_diag by lia. simpl. do 2 f_equal.
          specialize (IH (p ++ [a])). rewrite <- app_assoc, app_length, Nat.add_1_r in IH. exact IH. }
        apply (G l []). }
      rewrite E2. clear E1 E2. revert OP. generalize order as o. generalize (seq 0 (n - 1)) as o'. clear. intros o' o OP. induction OP; simpl; auto.
      - apply Permutation_app_head; auto.
      - rewrite !app_assoc. apply Permutation_app_tail, Permutation_app_comm.
      - etransitivity; eauto. }
    apply NoDup_Permutation_bis.
    + apply (Permutation_NoDup (Permutation_sym FM)).
      assert (G : forall l, NoDup l -> (forall x, In x l -> x < length ns) -> NoDup (map entry l)).
      { clear -INJ. induction 1 as [|x l Hx HN IH]; intros HB; simpl; constructor.
        - intros C. apply in_map_iff in C. destruct C as (y & Ey & Hy). apply INJ in Ey; [congruence|apply HB; right; auto|apply HB; left; auto].
        - apply IH. intros y Hy. apply HB. right; auto. }
      apply G; [apply W|]. intros x Hx. eapply children_bound; eauto.
    + rewrite app_length, !map_length, !seq_length. assert (E : length (flat_map (fun r => [fst r; snd r]) merge) = 2 * length merge).
      { clear. induction merge; simpl; auto. lia. } rewrite E, Lm. lia.
    + intros e He. apply in_flat_map in He. destruct He as (r & Hr & He). apply In_nth_error in Hr. destruct Hr as (j & Ej).
      assert (Hj : j < length merge) by (apply nth_error_Some; congruence). rewrite Lm in Hj.
      destruct (NROW j r Ej) as (k & x & Ek & Ex & ->).
      assert (RE : r_entry n j e) by (destruct He as [<-|[<-|[]]]; cbn [fst snd]; eapply ENT; eauto 8).
      apply in_app_iff. destruct RE as [RE|RE].
      * left. apply in_map_iff. exists (Z.to_nat (- e - 1)). split; [lia|]. apply in_seq. lia.
      * right. apply in_map_iff. exists (Z.to_nat (e - 1)). split; [lia|]. apply in_seq. lia.
  - (* items *)
    assert (G : forall x L, items_of n ns x L -> x < length ns -> r_items merge (entry x) L).
    { induction 1 as [x Hx|x a L R Hx Ea H1 IH1 H2 IH2]; intros Bx.
      - unfold entry. destruct (Nat.ltb_spec x n); [|lia]. replace x with (Z.to_nat (- (- (Z.of_nat x + 1)) - 1)) at 2 by lia. constructor. lia.
      - destruct (wf_node _ _ W x a Hx Ea) as (G1 & G2 & _).
        assert (Hk : x - n < n - 1) by lia. pose proof (FP (x - n) Hk) as Ep. set (p := find_pos (x - n) order) in *.
        assert (Ee : entry x = (Z.of_nat p + 1)%Z) by (unfold entry; destruct (Nat.ltb_spec x n); [lia|reflexivity]). rewrite Ee.
        destruct (Forall2_nth_r _ _ _ _ _ MR Ep) as (r & Er & b & Eb & Erb). replace (n + (x - n)) with x in Eb by lia.
        assert (b = a) by congruence. subst b.
        apply (ri_row merge _ (entry (nd_left a)) (entry (nd_right a))); [lia| |apply IH1; lia|apply IH2; lia].
        replace (Z.to_nat (Z.of_nat p + 1 - 1)) with p by lia. congruence. }
    intros j k L Ej HL. assert (Hk : k < n - 1) by (apply OB; eapply nth_error_In; eauto).
    specialize (G (n + k) L HL ltac:(lia)). unfold entry in G. destruct (Nat.ltb_spec (n + k) n); [lia|].
    replace (n + k - n) with k in G by lia. pose proof (FP k Hk) as Ep.
    assert (E : find_pos k order = j).
    { assert (ND : NoDup order) by (apply (Permutation_NoDup (Permutation_sym OP)), seq_NoDup).
      apply (proj1 (NoDup_nth_error order) ND); [apply nth_error_Some; congruence|congruence]. }
    rewrite E in G. exact G.
Qed.

(** With a single item there is nothing to sort and *max_element is undefined behaviour. *)
Lemma merge_r_single ns : length ns = 1 -> merge_r 1 ns = UB.
Proof. intros H. destruct ns as [|a [|b t]]; try discriminate. reflexivity. Qed.
