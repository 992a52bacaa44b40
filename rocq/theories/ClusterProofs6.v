(** Group as undoing merges (C53) and removal of redundant variables (C54). *)
From Verif Require Import ClusterSpec ClusterModel ClusterProofs ClusterProofs2 ClusterProofs3 ClusterProofs4 ClusterProofs5.
From Coq Require Import ZifyBool.
Local Open Scope nat_scope.

Lemma bind_Ok {A B} (x : res A) (f : A -> res B) y : bind x f = Ok y -> exists a, x = Ok a /\ f a = Ok y.
Proof. destruct x; simpl; intros H; try discriminate. eauto. Qed.

(** ** Undoing the last merges *)
Lemma in_children n ns b x : In x (children n (firstn b ns)) <->
  exists y a, n <= y < b /\ nth_error ns y = Some a /\ (nd_left a = x \/ nd_right a = x).
Proof.
  unfold children. rewrite in_flat_map. split.
  - intros (a & Ha & Hx). apply In_nth_error in Ha. destruct Ha as (i & Hi). rewrite nth_error_skipn2 in Hi.
    assert (n + i < length (firstn b ns)) by (apply nth_error_Some; congruence). rewrite firstn_length in H.
    exists (n + i), a. split; [lia|]. split.
    + rewrite <- (firstn_skipn b ns), nth_error_app1; auto. rewrite firstn_length. lia.
    + simpl in Hx. tauto.
  - intros (y & a & Hy & E & Hx). exists a. split; [|simpl; tauto].
    assert (y < length ns) by (apply nth_error_Some; congruence).
    apply (nth_error_In _ (y - n)). rewrite nth_error_skipn2. replace (n + (y - n)) with y by lia.
    rewrite <- (firstn_skipn b ns), nth_error_app1 in E; auto. rewrite firstn_length. lia.
Qed.

Lemma undo_last n k ns gs rs : length ns = 2 * n - 1 -> 1 <= k <= n -> groups_of n (2 * n - k) ns gs rs ->
  undo n ns (seq (2 * n - k) (k - 1)) gs.
Proof.
  intros EL Hk G. exists rs. split; [apply (go_nodup _ _ _ _ _ G)|]. split.
  - intros x. rewrite (go_roots _ _ _ _ _ G). unfold root_below. rewrite in_children. rewrite in_seq. split.
    + intros (H1 & H2). split; [lia|]. split; [lia|]. intros y b Hy HU E. rewrite in_seq in HU.
      assert (y < length ns) by (apply nth_error_Some; congruence).
      split; intros C; apply H2; exists y, b; (split; [lia|auto]).
    + intros (H1 & H2 & H3). split; [lia|]. intros (y & a & Hy & E & C).
      assert (HU : ~ In y (seq (2 * n - k) (k - 1))) by (rewrite in_seq; lia).
      destruct (H3 y a ltac:(lia) HU E). tauto.
  - eapply Forall2_impl_in; [|apply (go_items _ _ _ _ _ G)]. intros x g _ _ (L & H1 & H2 & _). eauto.
Qed.

Lemma highest_last n k ns : length ns = 2 * n - 1 -> 1 <= k <= n ->
  (forall x y a b, n <= x <= y -> nth_error ns x = Some a -> nth_error ns y = Some b -> (nd_height a <= nd_height b)%Qc) ->
  highest_merges n (k - 1) ns (seq (2 * n - k) (k - 1)).
Proof.
  intros EL Hk HM. split; [apply seq_NoDup|]. split; [apply seq_length|]. split.
  - intros u Hu. apply in_seq in Hu. lia.
  - intros u x a b Hu Hx Hn Ea Eb. apply in_seq in Hu. rewrite in_seq in Hx.
    assert (x < length ns) by (apply nth_error_Some; congruence). apply (HM x u); auto. lia.
Qed.

(** ** How Calculate changes the distances *)
Section Order.
Variables (m : linkage) (le : Qc -> Qc -> Prop).
Hypothesis le_refl : forall x, le x x.
Hypothesis le_trans : forall x y z, le x y -> le y z -> le x z.
Hypothesis le_link : forall nl nr nn dl dr h, le (link_dist m nl nr nn dl dr h) dl /\ le (link_dist m nl nr nn dl dr h) dr.

Lemma update_dist_le l r c h : (c = nd_dix l \/ c = nd_dix r) ->
  forall ns D D', update_dist m l r c h ns D = Ok D' -> forall i j, le (D' i j) (D i j).
Proof.
  intros Hc. induction ns as [|a ns IH]; intros D D' H i j; cbn [update_dist] in H; [injection H as <-; auto|].
  destruct (nd_merged a); [eauto|].
  apply bind_Ok in H. destruct H as (dl & E1 & H). apply bind_Ok in H. destruct H as (dr & E2 & H).
  apply bind_Ok in H. destruct H as (D1 & E3 & H). eapply le_trans; [apply (IH _ _ H)|].
  unfold dget in E1, E2. unfold dset in E3.
  destruct (nd_dix l =? nd_dix a) eqn:El; [discriminate|]. destruct (nd_dix r =? nd_dix a) eqn:Er; [discriminate|].
  destruct (nd_dix a =? c) eqn:Ec; [discriminate|]. injection E1 as <-. injection E2 as <-. injection E3 as <-.
  destruct ((i =? Nat.min (nd_dix a) c) && (j =? Nat.max (nd_dix a) c)) eqn:E; [|auto].
  apply andb_true_iff in E. destruct E as (Ei & Ej). apply Nat.eqb_eq in Ei. apply Nat.eqb_eq in Ej. subst i j.
  destruct Hc as [-> | ->]; rewrite (Nat.min_comm (nd_dix a)), (Nat.max_comm (nd_dix a)); apply le_link.
Qed.

Lemma merge2_le ns D l r h ns' D' : merge2 m ns D l r h = Ok (ns', D') -> forall i j, le (D' i j) (D i j).
Proof.
  unfold merge2. intros H. apply bind_Ok in H. destruct H as (ln & _ & H). apply bind_Ok in H. destruct H as (rn & _ & H).
  cbv zeta in H. apply bind_Ok in H. destruct H as (D1 & E & H). injection H as _ <-.
  refine (update_dist_le _ _ _ _ _ _ _ _ E). clear; lia.
Qed.

Lemma chain_loop_le n : forall fuel ns D st top near ns' D', chain_loop m n fuel ns D st top near = Ok (ns', D') ->
  forall i j, le (D' i j) (D i j).
Proof.
  induction fuel as [|f IH]; intros ns D st top near ns' D' H i j; cbn [chain_loop] in H.
  - destruct (length ns =? 2 * n - 1); [injection H as <- <-; auto|discriminate].
  - destruct (length ns =? 2 * n - 1); [injection H as <- <-; auto|].
    destruct near as [[n1 d1]|]; [|discriminate]. apply bind_Ok in H. destruct H as ([[n2 d2]|] & _ & H); [|discriminate].
    destruct (n2 =? top).
    + apply bind_Ok in H. destruct H as ([ns1 D1] & E & H). apply (fun H => le_trans _ _ _ H (merge2_le _ _ _ _ _ _ _ E i j)).
      destruct (tl st) as [|p [|q rest]].
      * apply bind_Ok in H. destruct H as (n1' & _ & H). eauto.
      * apply bind_Ok in H. destruct H as (n1' & _ & H). eauto.
      * apply bind_Ok in H. destruct H as (tn & _ & H). apply bind_Ok in H. destruct H as (qn_ & _ & H).
        apply bind_Ok in H. destruct H as (d & _ & H). eauto.
    + eauto.
Qed.
Lemma calculate_le n D ns D' : calculate m n D = Ok (ns, D') -> forall i j, le (D' i j) (D i j).
Proof.
  unfold calculate. intros H. apply bind_Ok in H. destruct H as (x & _ & H). apply bind_Ok in H. destruct H as (n1 & _ & H).
  apply (chain_loop_le _ _ _ _ _ _ _ _ _ H).
Qed.
End Order.

Lemma single_le n D ns D' : calculate kSingle n D = Ok (ns, D') -> forall i j, (D' i j <= D i j)%Qc.
Proof.
  apply (calculate_le kSingle Qcle); [apply Qcle_refl|apply Qcle_trans|].
  intros nl nr nn dl dr h. simpl. destruct (qltb_spec dr dl); split; qlra.
Qed.
Lemma complete_ge n D ns D' : calculate kComplete n D = Ok (ns, D') -> forall i j, (D i j <= D' i j)%Qc.
Proof.
  apply (calculate_le kComplete (fun a b => b <= a)%Qc); [intros; qlra|intros; qlra|].
  intros nl nr nn dl dr h. simpl. destruct (qltb_spec dr dl); split; qlra.
Qed.

(** ** The filter *)
Lemma existsb_res_ok {A} (f : A -> res bool) (g : A -> bool) l : (forall a, In a l -> f a = Ok (g a)) -> existsb_res f l = Ok (existsb g l).
Proof.
  induction l as [|a l IH]; intros H; simpl; auto. rewrite (H a) by (simpl; auto). simpl. rewrite IH by (intros; apply H; simpl; auto). reflexivity.
Qed.
Lemma filter_res_ok {A} (f : A -> res bool) (g : A -> bool) l : (forall a, In a l -> f a = Ok (g a)) -> filter_res f l = Ok (filter g l).
Proof.
  induction l as [|a l IH]; intros H; simpl; auto. rewrite (H a) by (simpl; auto). simpl. rewrite IH by (intros; apply H; simpl; auto). reflexivity.
Qed.
Lemma sorted_nth g i j : StronglySorted lt g -> i < j -> j < length g -> nth i g 0 < nth j g 0.
Proof.
  intros S. revert i j. induction S as [|a g S IH HF]; intros i j Hi Hj; simpl in *; [lia|].
  destruct j as [|j]; [lia|]. destruct i as [|i]; [|apply IH; lia].
  rewrite Forall_forall in HF. apply HF. apply nth_In. lia.
Qed.
Lemma sorted_nth_inv g i j : StronglySorted lt g -> i < length g -> j < length g -> nth i g 0 < nth j g 0 -> i < j.
Proof.
  intros S Hi Hj H. destruct (Nat.lt_trichotomy i j) as [C|[C|C]]; auto; [subst; lia|].
  pose proof (sorted_nth g j i S C Hi). lia.
Qed.

Definition survivors (D : dist) (th : Qc) (g g' : list nat) : Prop :=
  StronglySorted lt g' /\
  forall v, In v g' <-> In v g /\ forall u, In u g -> u < v -> (th <= D u v)%Qc.

Lemma removed_ok D th g : StronglySorted lt g ->
  exists rm, removed_positions D th g = Ok rm /\ (forall j, In j rm <-> j < length g /\ exists i, i < j /\ (D (nth i g 0%nat) (nth j g 0%nat) < th)%Qc) /\
   survivors D th g (keep_positions g rm).
Proof.
  intros S. unfold removed_positions.
  rewrite (filter_res_ok _ (fun j => existsb (fun i => qltb (D (nth i g 0) (nth j g 0)) th) (seq 0 j))).
  2:{ intros j Hj. apply in_seq in Hj. apply existsb_res_ok. intros i Hi. apply in_seq in Hi. unfold dget.
      pose proof (sorted_nth g i j S ltac:(lia) ltac:(lia)). destruct (Nat.eqb_spec (nth i g 0) (nth j g 0)); [lia|].
      simpl. rewrite Nat.min_l, Nat.max_r by lia. reflexivity. }
  eexists. split; [reflexivity|]. set (rm := filter _ _).
  assert (RM : forall j, In j rm <-> j < length g /\ exists i, i < j /\ (D (nth i g 0%nat) (nth j g 0%nat) < th)%Qc).
  { intros j. unfold rm. rewrite filter_In, in_seq, existsb_exists. split.
    - intros (H1 & i & Hi & H2). apply in_seq in Hi. apply qltb_lt in H2. split; [lia|]. exists i. split; [lia|auto].
    - intros (H1 & i & Hi & H2). split; [lia|]. exists i. rewrite in_seq. split; [lia|]. apply qltb_lt. auto. }
  split; auto. unfold keep_positions. clearbody rm. split.
  - assert (SP : StronglySorted lt (filter (fun j => negb (existsb (Nat.eqb j) rm)) (seq 0 (length g)))) by (apply filter_sorted, seq_sorted).
    assert (B : Forall (fun j => j < length g) (filter (fun j => negb (existsb (Nat.eqb j) rm)) (seq 0 (length g)))).
    { apply Forall_forall. intros j Hj. apply filter_In in Hj. destruct Hj as (Hj & _). apply in_seq in Hj. lia. }
    induction SP as [|x l SP IH HF]; simpl; [constructor|]. inversion B; subst. constructor; [apply IH; auto|].
    apply Forall_forall. intros y Hy. apply in_map_iff in Hy. destruct Hy as (j & <- & Hj). rewrite Forall_forall in HF, H2.
    apply sorted_nth; auto.
  - intros v. rewrite in_map_iff. split.
    + intros (j & <- & Hj). apply filter_In in Hj. destruct Hj as (Hj & HN). apply in_seq in Hj.
      split; [apply nth_In; lia|]. intros u Hu Huv. destruct (In_nth _ _ 0 Hu) as (i & Hi & <-).
      apply (sorted_nth_inv g i j S) in Huv; try lia. apply Qcnot_lt_le. intros C.
      apply negb_true_iff in HN. rewrite <- not_true_iff_false in HN. apply HN. apply existsb_exists. exists j. split; [|apply Nat.eqb_refl].
      apply RM. split; [lia|]. eauto.
    + intros (Hv & H). destruct (In_nth _ _ 0 Hv) as (j & Hj & <-). exists j. split; auto. apply filter_In. split; [apply in_seq; lia|].
      apply negb_true_iff. apply not_true_iff_false. intros C. apply existsb_exists in C. destruct C as (j' & Hin & E). apply Nat.eqb_eq in E. subst j'.
      apply RM in Hin. destruct Hin as (_ & i & Hi & HL). pose proof (sorted_nth g i j S Hi Hj).
      assert (Hi' : i < length g) by lia. specialize (H (nth i g 0) (nth_In _ _ Hi') H0). qlra.
Qed.

Lemma filter_groups_ok D th gs : Forall (StronglySorted lt) gs ->
  exists gs' rm, filter_groups D th gs = Ok (gs', rm) /\ Forall2 (survivors D th) gs gs'.
Proof.
  induction 1 as [|g gs S H IH]; simpl; [exists [], []; split; [auto|constructor]|].
  destruct (removed_ok D th g S) as (rm & -> & _ & SV). simpl. destruct IH as (gs' & rm' & -> & F). simpl.
  eexists _, _. split; [reflexivity|]. constructor; auto.
Qed.


Lemma group_data_ok m n D0 k th : 1 <= k <= n -> (0 < th)%Qc ->
  exists ns D' gs gs' rm nan, calculate m n (known D0) = Ok (ns, D') /\
    group_data m n D0 k 0%Qc = Ok (gs, [], nan) /\ group_data m n D0 k th = Ok (gs', rm, nan) /\
    length gs = k /\ Permutation (concat gs) (seq 0 n) /\ Forall (fun g => g <> [] /\ StronglySorted lt g) gs /\
    Forall2 (survivors D' th) gs gs'.
Proof.
  intros Hk Hth. assert (H1 : 1 <= n) by lia. destruct (calculate_reach m n (known D0) H1) as (ns & D' & E & R & L).
  pose proof (reach_wf _ _ _ _ _ R) as W. pose proof (binary_tree_ok _ _ _ _ _ H1 R L) as BT.
  destruct (group_spec n k ns W BT Hk) as (gs & rs & EG & LG & G).
  assert (SS : Forall (fun g => g <> [] /\ StronglySorted lt g) gs).
  { apply Forall_forall. intros g Hg. assert (F := go_items _ _ _ _ _ G). assert (B := go_roots _ _ _ _ _ G).
    assert (B' : forall x, In x rs -> x < length ns) by (intros x Hx; apply B in Hx; destruct Hx; lia). clear -F Hg B' W.
    induction F as [|x g0 rs gs H F IH]; [destruct Hg|]. destruct Hg as [<-|Hg]; [|apply IH; auto; intros; apply B'; simpl; auto].
    destruct H as (L & HL & HP & HS). split; auto. intros ->. apply Permutation_nil in HP. subst.
    eapply items_nonempty; eauto. apply B'. simpl; auto. }
  destruct (filter_groups_ok D' th gs) as (gs' & rm & EF & F). { eapply Forall_impl; [|exact SS]. simpl; tauto. }
  exists ns, D', gs, gs', rm. eexists. split; [exact E|]. unfold group_data. fold (known D0). rewrite E. cbn [bind].
  rewrite EG. cbn [bind]. split.
  { destruct (qltb_spec 0 0); [qlra|]. reflexivity. }
  split. { destruct (qltb_spec 0 th); [|qlra]. rewrite EF. reflexivity. }
  split; auto. split; [apply (go_part _ _ _ _ _ G)|]. auto.
Qed.
