(** Properties C50-C54 and C66-C69: hierarchical clustering. *)
From Verif Require Import ClusterSpec ClusterModel ClusterProofs ClusterProofs2 ClusterProofs3 ClusterProofs4 ClusterProofs5 ClusterProofs6.
From Coq Require Import ZifyBool.
Local Open Scope nat_scope.

(** Two distance matrices over four items used below, given by the entries above the diagonal. *)
Definition tri (rows : list (list Z)) : dist := fun i j => qz (nth (j - i - 1) (nth i rows []) 0%Z).
Definition ex4 : dist := tri [[5; 20; 21]; [22; 23]; [1]]%Z.
Definition ties : dist := tri [[1; 1; 1]; [1; 1]; [1]]%Z.

(** C50: for every linkage and every matrix of distances (ties included) Calculate ends with a binary
    tree over the n items; it never uses a missing neighbour (which would be UB). *)
Theorem c50_calculate_binary_tree (m : linkage) (n : nat) (D : dist) : 1 <= n ->
  exists ns D', calculate m n D = Ok (ns, D') /\ binary_tree n ns.
Proof.
  intros Hn. destruct (calculate_reach m n D Hn) as (ns & D' & E & R & L). exists ns, D'. split; auto.
  eapply binary_tree_ok; eauto.
Qed.
Print Assumptions c50_calculate_binary_tree.

Theorem c50_nothing_to_cluster (m : linkage) (D : dist) : calculate m 0 D = Throw.
Proof. reflexivity. Qed.
Print Assumptions c50_nothing_to_cluster.

Example c50_nonvacuous : exists ns D', calculate kSingle 4 ties = Ok (ns, D') /\
  map (fun a => (nd_left a, nd_right a, nd_within a)) (skipn 4 ns) = [(0, 1, 2); (2, 3, 2); (4, 5, 4)].
Proof. do 2 eexists. split; [vm_compute; reflexivity|]. vm_compute. reflexivity. Qed.

(** C51: the height of a merge is the smallest, the largest and the mean distance between an item of the
    one and an item of the other cluster; for WPGMA it is the mean with weights halved by every merge,
    and for Ward (squared Euclidean distances) twice the increase of the inertia. *)
Lemma linked m n D P ns D' x a L R : calculate m n D = Ok (ns, D') -> linkage_of m D P -> n <= x -> nth_error ns x = Some a -> 1 <= n ->
  weighted_items n ns (nd_left a) L -> weighted_items n ns (nd_right a) R -> P L R (nd_height a).
Proof.
  intros E LK Hx Ea Hn HL HR. destruct (calculate_reach m n D Hn) as (ns1 & D1 & E1 & RC & _).
  rewrite E in E1. injection E1 as <- <-. exact (tr_node _ _ _ _ (tracks_reach _ _ _ _ _ _ LK RC) _ _ _ _ Hx Ea HL HR).
Qed.
Lemma child_items m n D ns D' x a L : calculate m n D = Ok (ns, D') -> 1 <= n -> nth_error ns x = Some a -> n <= x ->
  forall c, c = nd_left a \/ c = nd_right a -> items_of n ns c L -> exists W, weighted_items n ns c W /\ map fst W = L.
Proof.
  intros E Hn Ea Hx c Hc HL. destruct (calculate_reach m n D Hn) as (ns1 & D1 & E1 & RC & _).
  rewrite E in E1. injection E1 as <- <-. pose proof (reach_wf _ _ _ _ _ RC) as W.
  assert (B : x < length ns) by (apply nth_error_Some; congruence). pose proof (wf_node _ _ W x a Hx Ea) as (H1 & H2 & _).
  destruct (witems_ex n ns c W) as (Wc & HW). { destruct Hc; subst; lia. }
  exists Wc. split; auto. apply (items_fun n ns c); auto. apply witems_items. auto.
Qed.

Theorem c51_single (n : nat) (D : dist) ns D' x a L R : 1 <= n -> calculate kSingle n D = Ok (ns, D') ->
  n <= x -> nth_error ns x = Some a -> items_of n ns (nd_left a) L -> items_of n ns (nd_right a) R ->
  least (nd_height a) (cross D L R).
Proof.
  intros Hn E Hx Ea HL HR.
  destruct (child_items _ _ _ _ _ _ _ _ E Hn Ea Hx _ (or_introl eq_refl) HL) as (WL & H1 & <-).
  destruct (child_items _ _ _ _ _ _ _ _ E Hn Ea Hx _ (or_intror eq_refl) HR) as (WR & H2 & <-).
  exact (linked _ _ _ _ _ _ _ _ _ _ E (single_link D) Hx Ea Hn H1 H2).
Qed.
Print Assumptions c51_single.
Theorem c51_complete (n : nat) (D : dist) ns D' x a L R : 1 <= n -> calculate kComplete n D = Ok (ns, D') ->
  n <= x -> nth_error ns x = Some a -> items_of n ns (nd_left a) L -> items_of n ns (nd_right a) R ->
  greatest (nd_height a) (cross D L R).
Proof.
  intros Hn E Hx Ea HL HR.
  destruct (child_items _ _ _ _ _ _ _ _ E Hn Ea Hx _ (or_introl eq_refl) HL) as (WL & H1 & <-).
  destruct (child_items _ _ _ _ _ _ _ _ E Hn Ea Hx _ (or_intror eq_refl) HR) as (WR & H2 & <-).
  exact (linked _ _ _ _ _ _ _ _ _ _ E (complete_link D) Hx Ea Hn H1 H2).
Qed.
Print Assumptions c51_complete.
Theorem c51_average (n : nat) (D : dist) ns D' x a L R : 1 <= n -> calculate kAverageU n D = Ok (ns, D') ->
  n <= x -> nth_error ns x = Some a -> items_of n ns (nd_left a) L -> items_of n ns (nd_right a) R ->
  average (nd_height a) (cross D L R).
Proof.
  intros Hn E Hx Ea HL HR.
  destruct (child_items _ _ _ _ _ _ _ _ E Hn Ea Hx _ (or_introl eq_refl) HL) as (WL & H1 & <-).
  destruct (child_items _ _ _ _ _ _ _ _ E Hn Ea Hx _ (or_intror eq_refl) HR) as (WR & H2 & <-).
  exact (linked _ _ _ _ _ _ _ _ _ _ E (average_link D) Hx Ea Hn H1 H2).
Qed.
Print Assumptions c51_average.
Theorem c51_weighted (n : nat) (D : dist) ns D' x a L R : 1 <= n -> calculate kAverageW n D = Ok (ns, D') ->
  n <= x -> nth_error ns x = Some a -> weighted_items n ns (nd_left a) L -> weighted_items n ns (nd_right a) R ->
  nd_height a = weighted_mean D L R.
Proof. intros Hn E Hx Ea HL HR. exact (linked _ _ _ _ _ _ _ _ _ _ E (weighted_link D) Hx Ea Hn HL HR). Qed.
Print Assumptions c51_weighted.
Theorem c51_ward (n : nat) (D : dist) ns D' x a L R : 1 <= n -> calculate kWard n D = Ok (ns, D') ->
  n <= x -> nth_error ns x = Some a -> items_of n ns (nd_left a) L -> items_of n ns (nd_right a) R ->
  nd_height a = (qz 2 * (inertia D (L ++ R) - inertia D L - inertia D R))%Qc.
Proof.
  intros Hn E Hx Ea HL HR.
  destruct (child_items _ _ _ _ _ _ _ _ E Hn Ea Hx _ (or_introl eq_refl) HL) as (WL & H1 & <-).
  destruct (child_items _ _ _ _ _ _ _ _ E Hn Ea Hx _ (or_intror eq_refl) HR) as (WR & H2 & <-).
  exact (proj1 (linked _ _ _ _ _ _ _ _ _ _ E (ward_link D) Hx Ea Hn H1 H2)).
Qed.
Print Assumptions c51_ward.

(** The hypotheses hold for the root of every tree of two or more items. *)
Theorem c51_not_vacuous m (n : nat) (D : dist) : 2 <= n -> exists ns D' a L R, calculate m n D = Ok (ns, D') /\
  nth_error ns (2 * n - 2) = Some a /\ n <= 2 * n - 2 /\ items_of n ns (nd_left a) L /\ items_of n ns (nd_right a) R.
Proof.
  intros Hn. assert (H0 : 1 <= n) by lia. destruct (calculate_reach m n D H0) as (ns & D' & E & R & L). pose proof (reach_wf _ _ _ _ _ R) as W.
  destruct (nth_error ns (2 * n - 2)) as [a|] eqn:Ea; [|apply nth_error_None in Ea; lia].
  assert (Hx : n <= 2 * n - 2) by lia. pose proof (wf_node _ _ W _ a Hx Ea) as (H1 & H2 & _).
  assert (HA : nd_left a < length ns) by lia. assert (HB : nd_right a < length ns) by lia.
  destruct (items_ex n ns (nd_left a) W HA) as (L1 & HL1). destruct (items_ex n ns (nd_right a) W HB) as (L2 & HL2).
  exists ns, D', a, L1, L2. repeat split; auto.
Qed.
Print Assumptions c51_not_vacuous.
Example c51_nonvacuous :
  (exists ns D', calculate kSingle 4 ex4 = Ok (ns, D') /\ map nd_height (skipn 4 ns) = [qz 5; qz 1; qz 20]) /\
  (exists ns D', calculate kComplete 4 ex4 = Ok (ns, D') /\ map nd_height (skipn 4 ns) = [qz 5; qz 1; qz 23]) /\
  (exists ns D', calculate kAverageU 4 ex4 = Ok (ns, D') /\ map nd_height (skipn 4 ns) = [qz 5; qz 1; (qz 43 / qz 2)%Qc]).
Proof. split; [|split]; do 2 eexists; (split; [vm_compute; reflexivity|]); vm_compute; repeat first [apply Qc_is_canon; reflexivity | f_equal]. Qed.

(** C52: k groups, none empty, every item in exactly one of them, each one the items of a node. *)
Theorem c52_group_partition (m : linkage) (n k : nat) (D : dist) : 1 <= k <= n ->
  exists ns D' gs, calculate m n D = Ok (ns, D') /\ group n k ns = Ok gs /\ length gs = k /\
    Permutation (concat gs) (seq 0 n) /\
    Forall (fun g => g <> [] /\ exists x L, items_of n ns x L /\ Permutation g L) gs.
Proof.
  intros Hk. assert (Hn : 1 <= n) by lia. destruct (calculate_reach m n D Hn) as (ns & D' & E & R & L).
  pose proof (reach_wf _ _ _ _ _ R) as W. pose proof (binary_tree_ok _ _ _ _ _ Hn R L) as BT.
  destruct (group_spec n k ns W BT Hk) as (gs & rs & EG & LG & G).
  exists ns, D', gs. split; auto. split; auto. split; auto. split; [apply (go_part _ _ _ _ _ G)|].
  assert (F := go_items _ _ _ _ _ G). assert (B : forall x, In x rs -> x < length ns).
  { intros x Hx. apply (go_roots _ _ _ _ _ G) in Hx. destruct Hx. lia. }
  clear -F B W. induction F as [|x g rs gs H F IH]; constructor.
  - destruct H as (L & HL & HP & _). split; [|eauto]. intros ->. apply Permutation_nil in HP. subst.
    eapply items_nonempty; eauto. apply B. simpl; auto.
  - apply IH. intros; apply B; simpl; auto.
Qed.
Print Assumptions c52_group_partition.
Example c52_nonvacuous : exists ns D', calculate kComplete 4 ex4 = Ok (ns, D') /\ group 4 2 ns = Ok [[0; 1]; [2; 3]] /\
  group 4 1 ns = Ok [[0; 1; 2; 3]] /\ group 4 4 ns = Ok [[0]; [1]; [2]; [3]].
Proof. do 2 eexists. split; [vm_compute; reflexivity|]. vm_compute. auto. Qed.

(** C53: Group undoes the k-1 merges that were made last; these are k-1 highest merges if the heights
    never fall in the order of creation. What is missing: the chain algorithm does not create merges in
    the order of heights, see the refutation. *)
Theorem c53_group_undoes_last_merges_partial (m : linkage) (n k : nat) (D : dist) : 1 <= k <= n ->
  exists ns D' gs, calculate m n D = Ok (ns, D') /\ group n k ns = Ok gs /\ undo n ns (seq (2 * n - k) (k - 1)) gs /\
    ((forall x y a b, n <= x <= y -> nth_error ns x = Some a -> nth_error ns y = Some b -> (nd_height a <= nd_height b)%Qc) ->
     highest_merges n (k - 1) ns (seq (2 * n - k) (k - 1))).
Proof.
  intros Hk. assert (Hn : 1 <= n) by lia. destruct (calculate_reach m n D Hn) as (ns & D' & E & R & L).
  pose proof (reach_wf _ _ _ _ _ R) as W. pose proof (binary_tree_ok _ _ _ _ _ Hn R L) as BT.
  destruct (group_spec n k ns W BT Hk) as (gs & rs & EG & LG & G).
  exists ns, D', gs. split; auto. split; auto. split; [eapply undo_last; eauto|]. apply highest_last; auto.
Qed.
Print Assumptions c53_group_undoes_last_merges_partial.

(** With four items the three groups are not what is left after undoing the two highest merges: items
    2 and 3 (distance 1) are separated and items 0 and 1 (distance 5) stay together. *)
Theorem c53_highest_merges_refuted : exists ns D' gs, calculate kSingle 4 ex4 = Ok (ns, D') /\ group 4 3 ns = Ok gs /\
  gs = [[0; 1]; [2]; [3]] /\ ~ exists U, highest_merges 4 2 ns U /\ undo 4 ns U gs.
Proof.
  do 3 eexists. split; [vm_compute; reflexivity|]. split; [vm_compute; reflexivity|]. split; [reflexivity|].
  intros (U & (ND & LU & BU & HU) & (rs & _ & HR & F)).
  match type of HU with context [nth_error ?l _] => set (ns := l) in * end.
  assert (I4 : In 4 U).
  { destruct (in_dec Nat.eq_dec 4 U) as [|N4]; auto. exfalso.
    destruct (in_dec Nat.eq_dec 5 U) as [I5|N5].
    - specialize (HU 5 4 _ _ I5 N4 ltac:(lia) eq_refl eq_refl). vm_compute in HU. apply HU. reflexivity.
    - assert (IN : incl U [6]).
      { intros u Hu. specialize (BU u Hu). simpl in BU. assert (u <> 4) by (intros ->; auto). assert (u <> 5) by (intros ->; auto).
        left. lia. }
      apply NoDup_incl_length in IN; auto. simpl in IN. lia. }
  inversion F as [|x g rs' gs' Hx _]; subst. destruct Hx as (L & HL & HP).
  assert (Hx : In x (x :: rs')) by (simpl; auto). apply HR in Hx. destruct Hx as (_ & Hx & _).
  assert (LL : length L = 2) by (rewrite <- (Permutation_length HP); reflexivity).
  inversion HL as [|y a L1 R1 Hn Ea H1 H2]; subst; [discriminate|].
  assert (Hy : x < 7) by (apply (proj1 (nth_error_Some ns x)); congruence).
  assert (x = 5 \/ x = 6) as C. { assert (x <> 4) by (intros ->; auto). lia. }
  destruct C as [-> | ->].
  - vm_compute in Ea. injection Ea as <-. simpl in H1, H2.
    inversion H1 as [? Hc|? ? ? ? Hc]; subst; [|exfalso; lia]. assert (I2 : In 2 [0; 1]) by (apply (Permutation_in 2 (Permutation_sym HP)); simpl; auto).
    destruct I2 as [I2|[I2|[]]]; discriminate.
  - vm_compute in Ea. injection Ea as <-. simpl in H1, H2.
    inversion H1 as [? Hc|? ? ? ? Hc Ea Ha Hb]; subst; [exfalso; lia|]. inversion H2 as [? Hc'|? ? ? ? Hc' Ea' Ha' Hb']; subst; [exfalso; lia|].
    assert (NE : forall x M, items_of 4 ns x M -> M <> []).
    { intros z M HM. clear -HM. induction HM as [|z b A B _ _ _ IH1 _ _]; [discriminate|]. destruct A; [congruence|discriminate]. }
    apply NE in Ha. apply NE in Hb. apply NE in Ha'. apply NE in Hb'. rewrite !app_length in LL.
    assert (PL : forall l : list nat, l <> [] -> 1 <= length l) by (intros [|? ?]; [congruence|simpl; lia]).
    apply PL in Ha. apply PL in Hb. apply PL in Ha'. apply PL in Hb'. lia.
Qed.
Print Assumptions c53_highest_merges_refuted.
Example c53_nonvacuous : exists ns D', calculate kSingle 4 ties = Ok (ns, D') /\ group 4 3 ns = Ok [[0; 1]; [2]; [3]] /\
  map nd_height (skipn 4 ns) = [qz 1; qz 1; qz 1].
Proof. do 2 eexists. split; [vm_compute; reflexivity|]. split; vm_compute; [reflexivity|]. repeat first [apply Qc_is_canon; reflexivity | f_equal]. Qed.

(** C54: the groups without and with a threshold: a group keeps its first variable, and nothing is
    added. With single linkage no two variables that stay in a group are closer than the threshold (but
    more may be removed than necessary); with complete linkage every removed variable is closer than
    the threshold to an earlier one of its group (but not all of them are removed). *)
Theorem c54_removal_partial (m : linkage) (n k : nat) D0 (th : Qc) : 1 <= k <= n -> (0 < th)%Qc ->
  exists gs gs' rm nan, group_data m n D0 k 0%Qc = Ok (gs, [], nan) /\ group_data m n D0 k th = Ok (gs', rm, nan) /\
    Forall2 (fun g g' => incl g' g /\ hd_error g' = hd_error g /\
      (m = kSingle -> forall u v, In u g' -> In v g' -> u < v -> (th <= known D0 u v)%Qc) /\
      (m = kComplete -> forall v, In v g -> ~ In v g' -> exists u, In u g /\ u < v /\ (known D0 u v < th)%Qc)) gs gs'.
Proof.
  intros Hk Hth. destruct (group_data_ok m n D0 k th Hk Hth) as (ns & D' & gs & gs' & rm & nan & E & E1 & E2 & _ & _ & SS & F).
  exists gs, gs', rm, nan. split; auto. split; auto. assert (SS' : forall g, In g gs -> g <> [] /\ StronglySorted lt g) by (apply Forall_forall; auto).
  eapply Forall2_impl_in; [|exact F]. intros g g' Hg _ (S' & SV). destruct (SS' g Hg) as (NE & S). split; [|split; [|split]].
  - intros v Hv. apply SV in Hv. tauto.
  - destruct g as [|a g]; [congruence|]. assert (Ha : In a g').
    { apply SV. split; [simpl; auto|]. intros u [->|Hu] Hua; [lia|]. inversion S; subst. rewrite Forall_forall in H2. apply H2 in Hu. lia. }
    destruct g' as [|b g']; [destruct Ha|]. simpl. f_equal. destruct Ha as [|Ha]; auto.
    inversion S' as [|? ? _ HB]; subst. rewrite Forall_forall in HB. apply HB in Ha.
    assert (Hb : In b (a :: g)) by (apply SV; simpl; auto). destruct Hb as [|Hb]; auto. inversion S; subst. rewrite Forall_forall in H2. apply H2 in Hb. lia.
  - intros -> u v Hu Hv Huv. apply SV in Hv. destruct Hv as (_ & Hv). apply SV in Hu. destruct Hu as (Hu & _).
    specialize (Hv u Hu Huv). pose proof (single_le _ _ _ _ E u v). qlra.
  - intros -> v Hv HN. destruct (existsb (fun u => (u <? v) && qltb (known D0 u v) th) g) eqn:EX.
    + apply existsb_exists in EX. destruct EX as (u & Hu & HE). apply andb_true_iff in HE. destruct HE as (HE1 & HE2).
      exists u. split; auto. split; [lia|]. apply qltb_lt. auto.
    + exfalso. apply HN. apply SV. split; auto. intros u Hu Huv. apply Qcnot_lt_le. intros C.
      rewrite <- not_true_iff_false in EX. apply EX. apply existsb_exists. exists u. split; auto. apply andb_true_iff. split; [lia|].
      apply qltb_lt. pose proof (complete_ge _ _ _ _ E u v). qlra.
Qed.
Print Assumptions c54_removal_partial.

Definition known_all (D : dist) : nat -> nat -> option Qc := fun i j => Some (D i j).
(** With complete linkage variable 2 stays next to variable 0 although their distance 3 is below 5:
    the clustering has overwritten the distance. *)
Theorem c54_close_variable_kept_refuted :
  group_data kComplete 3 (known_all (tri [[1; 3]; [10]]%Z)) 1 (qz 5) = Ok ([[0; 2]], [1], false) /\
  (known (known_all (tri [[1; 3]; [10]]%Z)) 0%nat 2%nat < qz 5)%Qc.
Proof. split; vm_compute; reflexivity. Qed.
Print Assumptions c54_close_variable_kept_refuted.
(** With single linkage variable 1 is removed although its distance to the only variable before it is 10. *)
Theorem c54_distant_variable_removed_refuted :
  group_data kSingle 3 (known_all (tri [[10; 1]; [2]]%Z)) 1 (qz 5) = Ok ([[0]], [1; 2], false) /\
  (qz 5 <= known (known_all (tri [[10; 1]; [2]]%Z)) 0%nat 1%nat)%Qc.
Proof. split; vm_compute; [reflexivity|discriminate]. Qed.
Print Assumptions c54_distant_variable_removed_refuted.
(** Removed has the positions in the groups and not the variables: variable 2 is removed, 1 is listed. *)
Theorem c54_removed_variables_refuted :
  group_data kSingle 3 (known_all (tri [[10; 10]; [1]]%Z)) 2 (qz 5) = Ok ([[1]; [0]], [1], false).
Proof. vm_compute; reflexivity. Qed.
Print Assumptions c54_removed_variables_refuted.
Example c54_nonvacuous : group_data kSingle 4 (known_all ex4) 2 0%Qc = Ok ([[0; 1]; [2; 3]], [], false) /\
  group_data kSingle 4 (known_all ex4) 2 (qz 6) = Ok ([[0]; [2]], [1; 1], false).
Proof. split; vm_compute; reflexivity. Qed.

(** C66: for two or more items MergeR returns a merge matrix, heights and order as R's hclust has them:
    rows in the order of the heights, every item and every row but the last used exactly once, a row
    only after the rows it uses, and row j joins exactly the items of the j-th lowest merge. *)
Theorem c66_merge_matrix (m : linkage) (n : nat) (D : dist) : 2 <= n ->
  exists ns D' merge heights order, calculate m n D = Ok (ns, D') /\ merge_r n ns = Ok (merge, heights, order) /\
    r_tree n ns merge heights order.
Proof.
  intros Hn. assert (H1 : 1 <= n) by lia. destruct (calculate_reach m n D H1) as (ns & D' & E & R & L).
  destruct (merge_r_spec n ns D' Hn (reach_wf _ _ _ _ _ R) (binary_tree_ok _ _ _ _ _ H1 R L) (monotone_reach _ _ _ _ _ R)) as (a & b & c & H & T).
  exists ns, D', a, b, c. auto.
Qed.
Print Assumptions c66_merge_matrix.
(** One item: the largest element of an empty order is read. *)
Theorem c66_single_item_refuted (m : linkage) (D : dist) : exists ns D', calculate m 1 D = Ok (ns, D') /\ merge_r 1 ns = UB.
Proof. do 2 eexists. split; reflexivity. Qed.
Print Assumptions c66_single_item_refuted.
Example c66_nonvacuous : exists ns D', calculate kSingle 4 ex4 = Ok (ns, D') /\
  merge_r 4 ns = Ok ([(-3, -4); (-1, -2); (2, 1)]%Z, [qz 1; qz 5; qz 20], [1; 0; 2]).
Proof. do 2 eexists. split; [vm_compute; reflexivity|]. vm_compute. repeat first [apply Qc_is_canon; reflexivity | f_equal]. Qed.

(** C67: with every linkage a merge is never lower than the merges below it. *)
Theorem c67_heights_rise (m : linkage) (n : nat) (D : dist) : 1 <= n ->
  exists ns D', calculate m n D = Ok (ns, D') /\
  forall x a c b, n <= x -> nth_error ns x = Some a -> c = nd_left a \/ c = nd_right a -> n <= c -> nth_error ns c = Some b ->
    (nd_height b <= nd_height a)%Qc.
Proof.
  intros Hn. destruct (calculate_reach m n D Hn) as (ns & D' & E & R & L). exists ns, D'. split; auto.
  apply (mn_tree _ _ _ (monotone_reach _ _ _ _ _ R)).
Qed.
Print Assumptions c67_heights_rise.
Example c67_nonvacuous : exists ns D' a b, calculate kWard 4 ex4 = Ok (ns, D') /\ nth_error ns 6 = Some a /\ nd_left a = 4 /\
  nth_error ns 4 = Some b /\ nd_height b = qz 5 /\ nd_height a = qz 40.
Proof.
  do 4 eexists. split; [vm_compute; reflexivity|]. split; [reflexivity|]. split; [reflexivity|]. split; [reflexivity|].
  vm_compute. split; repeat first [apply Qc_is_canon; reflexivity | f_equal].
Qed.

(** C68: the distances the caller passed in are changed (and R's numeric vector is passed by pointer). *)
Theorem c68_distances_unchanged_refuted : exists ns D', calculate kComplete 3 (tri [[1; 3]; [10]]%Z) = Ok (ns, D') /\
  pair_dist (tri [[1; 3]; [10]]%Z) 0 2 = qz 3 /\ pair_dist D' 0 2 = qz 10.
Proof. do 2 eexists. split; [vm_compute; reflexivity|]. split; vm_compute; repeat first [apply Qc_is_canon; reflexivity | f_equal]. Qed.
Print Assumptions c68_distances_unchanged_refuted.
(** What holds: with single linkage no stored distance grows, with complete linkage none shrinks. *)
Theorem c68_direction_of_change_partial n D ns D' :
  (calculate kSingle n D = Ok (ns, D') -> forall i j, (pair_dist D' i j <= pair_dist D i j)%Qc) /\
  (calculate kComplete n D = Ok (ns, D') -> forall i j, (pair_dist D i j <= pair_dist D' i j)%Qc).
Proof. split; intros E i j; [apply (single_le _ _ _ _ E)|apply (complete_ge _ _ _ _ E)]. Qed.
Print Assumptions c68_direction_of_change_partial.
Example c68_nonvacuous : (exists ns D', calculate kSingle 3 (tri [[1; 3]; [10]]%Z) = Ok (ns, D')) /\ (exists ns D', calculate kComplete 3 (tri [[1; 3]; [10]]%Z) = Ok (ns, D')).
Proof. split; do 2 eexists; vm_compute; reflexivity. Qed.

(** C69: the groups of a second call do not depend on the first one. *)
Theorem c69_groups_fresh (o : gd_object) m n D0 k th o1 o2 : gd_calculate o m n D0 k th = Ok o1 -> gd_calculate gd_new m n D0 k th = Ok o2 ->
  gd_groups o1 = gd_groups o2 /\ (o = gd_new -> o1 = o2).
Proof.
  intros H1 H2. split; [|intros ->; congruence]. unfold gd_calculate in *. destruct (group_data m n D0 k th) as [[[gs rm] nan]| |]; try discriminate.
  simpl in *. injection H1 as <-. injection H2 as <-. reflexivity.
Qed.
Print Assumptions c69_groups_fresh.
(** But Removed and NaNDistanceFound still have what an earlier call put there. *)
Theorem c69_removed_stale_refuted : exists o1 o2,
  gd_calculate gd_new kSingle 2 (fun _ _ => None) 1 (qz 1) = Ok o1 /\
  gd_calculate o1 kSingle 2 (fun _ _ => Some (qz 9)) 1 (qz 1) = Ok o2 /\
  gd_groups o2 = [[0; 1]] /\ gd_removed o2 = [1] /\ gd_nan o2 = true /\
  gd_calculate gd_new kSingle 2 (fun _ _ => Some (qz 9)) 1 (qz 1) = Ok {| gd_groups := [[0; 1]]; gd_removed := []; gd_nan := false |}.
Proof. do 2 eexists. split; [vm_compute; reflexivity|]. split; [vm_compute; reflexivity|]. vm_compute. auto. Qed.
Print Assumptions c69_removed_stale_refuted.
Example c69_nonvacuous : exists o1 o2, gd_calculate gd_new kSingle 2 (fun _ _ => Some (qz 9)) 2 0%Qc = Ok o1 /\
  gd_calculate o1 kComplete 4 (known_all ex4) 2 0%Qc = Ok o2 /\ gd_groups o2 = [[0; 1]; [2; 3]].
Proof. do 2 eexists. split; [vm_compute; reflexivity|]. split; [vm_compute; reflexivity|]. reflexivity. Qed.
