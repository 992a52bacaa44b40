(** HCluster::Group. *)
From Verif Require Import Base Num ClusterModel ClusterSpec ClusterProofs ClusterProofs2.
Local Open Scope nat_scope.

Lemma set_group_spec n ns last : wf n ns ->
  forall fuel x g, x < fuel -> x < length ns -> length g = n ->
  exists g', set_group fuel ns x g last = Ok g' /\ length g' = n /\
    forall L, items_of n ns x L -> forall i, (In i L -> nth i g' 0 = last) /\ (~ In i L -> nth i g' 0 = nth i g 0).
Proof.
  intros W. induction fuel as [|f IH]; intros x g Hf Hx Hg; [lia|]. cbn [set_group]. unfold node_at.
  destruct (nth_error ns x) as [a|] eqn:E; [|apply nth_error_None in E; lia]. cbn [bind].
  destruct (Nat.lt_ge_cases x n) as [Hn|Hn].
  - rewrite (wf_leaf _ _ W x a Hn E). cbn [Nat.eqb]. eexists. split; [reflexivity|]. rewrite upd_length. split; auto.
    intros L HL i. inversion HL; subst; [|lia]. split.
    + intros [<-|[]]. apply nth_upd_same. auto.
    + intros HI. apply nth_upd_other. intros ->. apply HI. left; auto.
  - destruct (wf_node _ _ W x a Hn E) as (H1 & H2 & H3 & H4).
    pose proof (wth_pos n ns (nd_left a) W ltac:(lia)). pose proof (wth_pos n ns (nd_right a) W ltac:(lia)).
    destruct (Nat.eqb_spec (nd_within a) 1); [lia|].
    destruct (IH (nd_left a) g) as (g1 & E1 & L1 & S1); [lia|lia|auto|]. rewrite E1. cbn [bind].
    destruct (IH (nd_right a) g1) as (g2 & E2 & L2 & S2); [lia|lia|auto|]. rewrite E2.
    exists g2. split; auto. split; auto. intros L HL i. inversion HL as [|y b A B Hy Eb HA HB]; subst; [lia|].
    assert (b = a) by congruence. subst b. destruct (S1 A HA i) as (P1 & P2). destruct (S2 B HB i) as (P3 & P4).
    rewrite in_app_iff. split.
    + intros Hi. destruct (in_dec Nat.eq_dec i B); [auto|]. rewrite P4 by auto. apply P1. tauto.
    + intros Hi. rewrite P4, P2; tauto.
Qed.

Lemma flat_map_snoc {A B} (f : A -> list B) l x : flat_map f (l ++ [x]) = flat_map f l ++ f x.
Proof. rewrite flat_map_app. simpl. rewrite app_nil_r. reflexivity. Qed.

Lemma firstn_S_nth {A} (l : list A) i a : nth_error l i = Some a -> firstn (S i) l = firstn i l ++ [a].
Proof. revert l. induction i as [|i IH]; intros [|b l] H; simpl in *; try discriminate; [congruence|]. f_equal. apply IH. auto. Qed.

Lemma children_firstn n ns v a : n <= v -> nth_error ns v = Some a ->
  children n (firstn (S v) ns) = children n (firstn v ns) ++ [nd_left a; nd_right a].
Proof.
  intros Hv E. unfold children. rewrite (firstn_S_nth _ _ _ E), skipn_app.
  assert (Hl : length (firstn v ns) = v).
  { rewrite firstn_length. assert (v < length ns) by (apply nth_error_Some; congruence). lia. }
  rewrite Hl. replace (n - v) with 0 by lia. simpl skipn at 2. rewrite flat_map_snoc. reflexivity.
Qed.
Lemma children_prefix n ns v : incl (children n (firstn v ns)) (children n ns) /\ (n <= v -> exists t, children n ns = children n (firstn v ns) ++ t).
Proof.
  assert (G : n <= v -> exists t, children n ns = children n (firstn v ns) ++ t).
  { intros H. exists (flat_map (fun a => [nd_left a; nd_right a]) (skipn (n - length (firstn v ns)) (skipn v ns))).
    unfold children. rewrite <- flat_map_app, <- skipn_app, firstn_skipn. reflexivity. }
  split; auto. destruct (Nat.le_gt_cases n v) as [H|H].
  - destruct (G H) as (t & ->). intros x Hx. apply in_app_iff; auto.
  - unfold children at 1. rewrite skipn_all2 by (rewrite firstn_length; lia). intros x [].
Qed.

Lemma root_split n ns v a x : wf n ns -> n <= v -> nth_error ns v = Some a ->
  root_below n v ns x <-> (root_below n (S v) ns x /\ x <> v) \/ x = nd_left a \/ x = nd_right a.
Proof.
  intros W Hv E. destruct (wf_node _ _ W v a Hv E) as (H1 & H2 & H3 & _). unfold root_below.
  rewrite (children_firstn n ns v a Hv E), in_app_iff. simpl.
  assert (ND : NoDup (children n (firstn v ns) ++ [nd_left a; nd_right a])).
  { rewrite <- (children_firstn n ns v a Hv E). destruct (children_prefix n ns (S v)) as (_ & G).
    destruct G as (t & Et); [lia|]. pose proof (wf_once _ _ W) as N. rewrite Et in N. clear -N.
    induction (children n (firstn (S v) ns)) as [|y l IH]; [constructor|]. simpl in N. inversion N; subst. constructor; auto.
    intros C. apply H1. apply in_app_iff; auto. }
  assert (NIl : ~ In (nd_left a) (children n (firstn v ns))).
  { apply NoDup_remove_2 in ND. intros C. apply ND. apply in_app_iff; auto. }
  assert (NIr : ~ In (nd_right a) (children n (firstn v ns))).
  { change [nd_left a; nd_right a] with ([nd_left a] ++ [nd_right a]) in ND. rewrite app_assoc in ND.
    apply NoDup_remove_2 in ND. intros C. apply ND. rewrite app_nil_r, in_app_iff. auto. }
  split.
  - intros (G1 & G2). destruct (Nat.eq_dec x (nd_left a)); [auto|]. destruct (Nat.eq_dec x (nd_right a)); [auto|].
    left. split; [split; [lia|]|lia]. intros [C|[C|[C|[]]]]; auto.
  - intros [((G1 & G2) & G3)|[-> | ->]].
    + split; [lia|]. tauto.
    + split; auto.
    + split; auto.
Qed.

Lemma root_last n ns v a : wf n ns -> n <= v -> nth_error ns v = Some a -> root_below n (S v) ns v.
Proof.
  intros W Hv E. split; [lia|]. intros C. unfold children in C. apply in_flat_map in C. destruct C as (b & Hb & Hc).
  apply In_nth_error in Hb. destruct Hb as (i & Ei).
  assert (Eb : nth_error (firstn (S v) ns) (n + i) = Some b).
  { clear -Ei. revert Ei. generalize (firstn (S v) ns). induction n as [|n IH]; intros l Ei; simpl; auto. destruct l; simpl in *; [destruct i; discriminate|apply IH; auto]. }
  assert (Hi : n + i < S v).
  { assert (n + i < length (firstn (S v) ns)) by (apply nth_error_Some; congruence). rewrite firstn_length in H. lia. }
  assert (Eb' : nth_error ns (n + i) = Some b).
  { rewrite <- Eb. clear -Hi. revert ns Hi. generalize (n + i), (S v). intros p q. revert p. induction q as [|q IH]; intros p ns Hi; [lia|].
    destruct ns; simpl; auto. destruct p; simpl; auto. apply IH. lia. }
  destruct (wf_node _ _ W (n + i) b ltac:(lia) Eb') as (H1 & H2 & _). destruct Hc as [C|[C|[]]]; lia.
Qed.

(** The state of the loop after [t] splits. *)
Record cut (n : nat) (ns : list node) (t : nat) (g : list nat) (rs : list nat) (Ls : list (list nat)) : Prop := {
  ct_len : length rs = S t;
  ct_g : length g = n;
  ct_items : Forall2 (items_of n ns) rs Ls;
  ct_part : Permutation (concat Ls) (seq 0 n);
  ct_nodup : NoDup rs;
  ct_roots : forall x, In x rs <-> root_below n (2 * n - 1 - t) ns x;
  ct_label : forall j L y, nth_error Ls j = Some L -> In y L -> nth y g 0 = j }.

Lemma items_nonempty n ns x L : wf n ns -> x < length ns -> items_of n ns x L -> L <> [].
Proof. intros W Hx H ->. apply items_length in H; auto. pose proof (wth_pos n ns x W Hx). simpl in H. lia. Qed.

Lemma Forall2_upd {A B} (R : A -> B -> Prop) l1 l2 j a b : Forall2 R l1 l2 -> R a b -> Forall2 R (upd j a l1) (upd j b l2).
Proof. intros H. revert j. induction H; intros [|j] HR; simpl; constructor; auto. Qed.
Lemma nth_error_split' {A} (l : list A) j a : nth_error l j = Some a -> exists p q, l = p ++ a :: q /\ length p = j.
Proof. apply nth_error_split. Qed.
Lemma upd_mid {A} (p q : list A) a b : upd (length p) b (p ++ a :: q) = p ++ b :: q.
Proof. induction p as [|c p IH]; simpl; auto. f_equal; auto. Qed.
Lemma Forall2_nth_r {A B} (R : A -> B -> Prop) l1 l2 j a : Forall2 R l1 l2 -> nth_error l1 j = Some a -> exists b, nth_error l2 j = Some b /\ R a b.
Proof. intros H. revert j. induction H; intros [|j] E; simpl in *; try discriminate; [injection E as <-; eauto|eauto]. Qed.

Lemma split_step n ns t g rs Ls a (swap : bool) : wf n ns -> length ns = 2 * n - 1 -> cut n ns t g rs Ls -> S t < n ->
  nth_error ns (2 * n - 2 - t) = Some a ->
  let c1 := if swap then nd_left a else nd_right a in
  exists g' rs' Ls', set_group (length ns) ns c1 g (S t) = Ok g' /\ cut n ns (S t) g' rs' Ls'.
Proof.
  intros W EL C Ht E c1. set (v := 2 * n - 2 - t) in *. assert (Hv : n <= v) by (unfold v; lia).
  destruct (wf_node _ _ W v a Hv E) as (H1 & H2 & H3 & _).
  set (c2 := if swap then nd_right a else nd_left a).
  assert (B1 : c1 < v) by (unfold c1; destruct swap; auto). assert (B2 : c2 < v) by (unfold c2; destruct swap; auto).
  assert (Bv : v < length ns) by (unfold v; lia).
  destruct (set_group_spec n ns (S t) W (length ns) c1 g) as (g' & Eg & Lg & Sg); [lia|lia|apply C|].
  destruct (items_ex n ns c1 W) as (L1 & HL1); [lia|]. destruct (items_ex n ns c2 W) as (L2 & HL2); [lia|].
  assert (Hin : In v rs). { apply (ct_roots _ _ _ _ _ _ C). replace (2 * n - 1 - t) with (S v) by (unfold v; lia). eapply root_last; eauto. }
  apply In_nth_error in Hin. destruct Hin as (j & Ej).
  destruct (Forall2_nth_r _ _ _ _ _ (ct_items _ _ _ _ _ _ C) Ej) as (Lv & EjL & HLv).
  assert (PLv : Permutation Lv (L1 ++ L2)).
  { inversion HLv as [|y b A B Hy Eb HA HB]; subst; [lia|]. assert (b = a) by congruence. subst b.
    unfold c1, c2 in *. destruct swap.
    - rewrite (items_fun _ _ _ _ HA _ HL1), (items_fun _ _ _ _ HB _ HL2). reflexivity.
    - rewrite (items_fun _ _ _ _ HA _ HL2), (items_fun _ _ _ _ HB _ HL1). apply Permutation_app_comm. }
  assert (Hj : j < length rs) by (apply nth_error_Some; congruence).
  pose proof (Forall2_len _ _ _ (ct_items _ _ _ _ _ _ C)) as Len.
  exists g', (upd j c2 rs ++ [c1]), (upd j L2 Ls ++ [L1]). split; [exact Eg|].
  destruct (nth_error_split' _ _ _ Ej) as (p & q & Ers & Hp). destruct (nth_error_split' _ _ _ EjL) as (P & Q & ELs & HP).
  assert (U1 : upd j c2 rs = p ++ c2 :: q) by (rewrite Ers, <- Hp; apply upd_mid).
  assert (U2 : upd j L2 Ls = P ++ L2 :: Q) by (rewrite ELs, <- HP; apply upd_mid).
  assert (PART : Permutation (concat (upd j L2 Ls ++ [L1])) (seq 0 n)).
  { rewrite <- (ct_part _ _ _ _ _ _ C), U2, ELs, !concat_app. simpl. rewrite app_nil_r, <- !app_assoc.
    apply Permutation_app_head. rewrite PLv, <- !app_assoc. rewrite (Permutation_app_comm L1). rewrite <- !app_assoc. reflexivity. }
  assert (NDc : NoDup (concat (upd j L2 Ls ++ [L1]))).
  { eapply Permutation_NoDup; [symmetry; exact PART|apply seq_NoDup]. }
  assert (RB : forall x, root_below n (2 * n - 1 - S t) ns x <-> (In x rs /\ x <> v) \/ x = c1 \/ x = c2).
  { intros x. replace (2 * n - 1 - S t) with v by (unfold v; lia). rewrite (root_split n ns v a x W Hv E).
    rewrite (ct_roots _ _ _ _ _ _ C). replace (2 * n - 1 - t) with (S v) by (unfold v; lia).
    unfold c1, c2. destruct swap; tauto. }
  assert (Nv : ~ In v (p ++ q)).
  { pose proof (ct_nodup _ _ _ _ _ _ C) as N. rewrite Ers in N. apply NoDup_remove_2 in N. auto. }
  assert (Npq : NoDup (p ++ q)).
  { pose proof (ct_nodup _ _ _ _ _ _ C) as N. rewrite Ers in N. apply NoDup_remove_1 in N. auto. }
  assert (CH : forall c, c = c1 \/ c = c2 -> ~ In c rs).
  { intros c Hc C'. apply (ct_roots _ _ _ _ _ _ C) in C'. replace (2 * n - 1 - t) with (S v) in C' by (unfold v; lia).
    destruct C' as (_ & C'). apply C'. rewrite (children_firstn n ns v a Hv E). apply in_app_iff. right. simpl.
    unfold c1, c2 in Hc. destruct swap, Hc as [-> | ->]; auto. }
  assert (N12 : c1 <> c2) by (unfold c1, c2; destruct swap; auto).
  split.
  - rewrite app_length, upd_length, (ct_len _ _ _ _ _ _ C). simpl. lia.
  - exact Lg.
  - apply Forall2_app; [|constructor; auto]. apply Forall2_upd; auto. apply C.
  - exact PART.
  - rewrite U1. apply NoDup_app2.
    + apply (Permutation_NoDup (l := c2 :: p ++ q)); [apply Permutation_middle|]. constructor; auto.
      intros C'. apply (CH c2); auto. rewrite Ers. rewrite in_app_iff in *. simpl. tauto.
    + constructor; [intros []|constructor].
    + intros x Hx [<-|[]]. apply (Permutation_in _ (Permutation_sym (Permutation_middle p q c2))) in Hx. destruct Hx as [C'|C']; [congruence|].
      apply (CH c1); auto. rewrite Ers. rewrite in_app_iff in *. simpl. tauto.
  - intros x. rewrite RB, U1, Ers, !in_app_iff. simpl. rewrite in_app_iff in Nv. split.
    + intros [[Hx|[Hx|Hx]]|[Hx|[]]]; auto.
      * left. split; auto. intros ->. apply Nv. auto.
      * left. split; auto. intros ->. apply Nv. auto.
    + intros [([Hx|[Hx|Hx]] & Hne)|[Hx|Hx]]; auto; congruence.
  - intros j' L y EL' Hy. destruct (Nat.lt_ge_cases j' (length Ls)) as [Hlt|Hge].
    + rewrite nth_error_app1 in EL' by (rewrite upd_length; auto).
      assert (NIy : ~ In y L1).
      { intros C'. rewrite concat_app in NDc. simpl in NDc. rewrite app_nil_r in NDc.
        assert (G : In y (concat (upd j L2 Ls))) by (apply in_concat; exists L; split; auto; eapply nth_error_In; eauto).
        clear -NDc C' G. induction (concat (upd j L2 Ls)) as [|z l IH]; [destruct G|]. simpl in NDc. inversion NDc; subst.
        destruct G as [->|G]; auto. apply H1, in_app_iff; auto. }
      destruct (Sg L1 HL1 y) as (_ & S2). rewrite S2 by auto.
      destruct (Nat.eq_dec j' j) as [->|Hne].
      * rewrite nth_error_upd_same in EL' by lia. injection EL' as <-.
        apply (ct_label _ _ _ _ _ _ C j Lv); auto. rewrite PLv. apply in_app_iff; auto.
      * rewrite nth_error_upd_other in EL' by auto. apply (ct_label _ _ _ _ _ _ C j' L); auto.
    + rewrite nth_error_app2 in EL' by (rewrite upd_length; auto). rewrite upd_length in EL'.
      destruct (j' - length Ls) as [|z] eqn:Ez; [|destruct z; discriminate]. injection EL' as <-.
      destruct (Sg L1 HL1 y) as (S1 & _). rewrite S1 by auto. pose proof (ct_len _ _ _ _ _ _ C). lia.
Qed.

Lemma labels_cut n ns t g rs Ls : wf n ns -> length ns = 2 * n - 1 -> cut n ns t g rs Ls -> labels t g = seq 0 (S t).
Proof.
  intros W EL C. unfold labels.
  assert (G : forall l, incl l (seq 0 (S t)) -> filter (fun j => existsb (Nat.eqb j) g) l = l).
  { induction l as [|j l IH]; intros H; simpl; auto.
    assert (Hj : In j (seq 0 (S t))) by (apply H; left; auto). apply in_seq in Hj.
    assert (EX : existsb (Nat.eqb j) g = true).
    { destruct (nth_error rs j) as [x|] eqn:Ex.
      2:{ apply nth_error_None in Ex. rewrite (ct_len _ _ _ _ _ _ C) in Ex. lia. }
      destruct (Forall2_nth_r _ _ _ _ _ (ct_items _ _ _ _ _ _ C) Ex) as (L & EL' & HL).
      assert (Hx : x < length ns). { apply nth_error_In in Ex. apply (ct_roots _ _ _ _ _ _ C) in Ex. destruct Ex. lia. }
      pose proof (items_nonempty n ns x L W Hx HL). destruct L as [|y L]; [congruence|].
      apply existsb_exists. exists j. rewrite Nat.eqb_refl. split; auto.
      rewrite <- (ct_label _ _ _ _ _ _ C j (y :: L) y EL' (or_introl eq_refl)). apply nth_In.
      rewrite (ct_g _ _ _ _ _ _ C). apply (items_bound _ _ _ _ HL). left; auto. }
    rewrite EX. f_equal. apply IH. intros z Hz. apply H. right; auto. }
  apply G. apply incl_refl.
Qed.

Lemma split_loop_spec n k ns : wf n ns -> length ns = 2 * n - 1 ->
  forall cnt t g gr rs Ls, cut n ns t g rs Ls -> cnt = n - 1 - t -> t + 1 < k -> t < n -> k <= n ->
  exists g' rs' Ls', split_loop n k ns (2 * n - 1 - t) cnt t g gr = Ok (g', seq 0 k) /\ cut n ns (k - 1) g' rs' Ls'.
Proof.
  intros W EL. induction cnt as [|c IH]; intros t g gr rs Ls C Hc Hk Ht Hn.
  - lia.
  - cbn [split_loop]. replace (2 * n - 1 - t - 1) with (2 * n - 2 - t) by lia. unfold node_at.
    destruct (nth_error ns (2 * n - 2 - t)) as [a|] eqn:E; [|apply nth_error_None in E; lia]. cbn [bind].
    destruct (wf_node _ _ W (2 * n - 2 - t) a ltac:(lia) E) as (H1 & H2 & _).
    destruct (nth_error ns (nd_left a)) as [nl|] eqn:El; [|apply nth_error_None in El; lia]. cbn [bind].
    destruct (nth_error ns (nd_right a)) as [nr|] eqn:Er; [|apply nth_error_None in Er; lia]. cbn [bind].
    destruct (split_step n ns t g rs Ls a (nd_within nl <? nd_within nr) W EL C ltac:(lia) E) as (g' & rs' & Ls' & Eg & C').
    rewrite Eg. cbn [bind]. rewrite (labels_cut n ns (S t) g' rs' Ls' W EL C').
    rewrite seq_length. destruct (Nat.eqb_spec (S (S t)) k) as [<-|Hne].
    + exists g', rs', Ls'. split; [reflexivity|]. replace (S (S t) - 1) with (S t) by lia. auto.
    + destruct (IH (S t) g' (seq 0 (S (S t))) rs' Ls' C') as (g2 & rs2 & Ls2 & E2 & C2); try lia.
      exists g2, rs2, Ls2. split; auto. replace (2 * n - 2 - t) with (2 * n - 1 - S t) by lia. exact E2.
Qed.

Lemma seq_sorted a n : StronglySorted lt (seq a n).
Proof.
  revert a. induction n as [|n IH]; intros a; simpl; constructor; auto. apply Forall_forall. intros x Hx. apply in_seq in Hx. lia.
Qed.
Lemma filter_sorted {A} (R : A -> A -> Prop) f l : StronglySorted R l -> StronglySorted R (filter f l).
Proof.
  induction 1 as [|a l H IH HF]; simpl; [constructor|]. destruct (f a); auto. constructor; auto.
  apply Forall_forall. intros x Hx. apply filter_In in Hx. rewrite Forall_forall in HF. apply HF. tauto.
Qed.

Lemma Forall2_impl_in {A B} (R R' : A -> B -> Prop) l1 l2 : (forall a b, In a l1 -> In b l2 -> R a b -> R' a b) -> Forall2 R l1 l2 -> Forall2 R' l1 l2.
Proof. intros H F. induction F; constructor; [apply H; simpl; auto|]. apply IHF. intros. apply H; simpl; auto. Qed.

Lemma perm_concat {A} (l1 l2 : list (list A)) : Forall2 (@Permutation A) l1 l2 -> Permutation (concat l1) (concat l2).
Proof. induction 1; simpl; auto. apply Permutation_app; auto. Qed.

Lemma cut_groups n ns k g rs Ls : wf n ns -> length ns = 2 * n - 1 -> 1 <= k -> cut n ns (k - 1) g rs Ls ->
  groups_of n (2 * n - k) ns (map (members_of g) (seq 0 k)) rs.
Proof.
  intros W EL Hk C.
  assert (NDc : NoDup (concat Ls)) by (eapply Permutation_NoDup; [symmetry; apply (ct_part _ _ _ _ _ _ C)|apply seq_NoDup]).
  assert (MEM : forall j L, nth_error Ls j = Some L -> Permutation (members_of g j) L).
  { intros j L E. unfold members_of. rewrite (ct_g _ _ _ _ _ _ C). apply NoDup_Permutation.
    - apply NoDup_filter, seq_NoDup.
    - assert (incl [L] Ls) by (intros z [<-|[]]; eapply nth_error_In; eauto).
      clear -NDc E. revert j E. induction Ls as [|M Ls IH]; intros [|j] E; simpl in *; try discriminate.
      + injection E as ->. clear -NDc. induction L as [|a L IH]; [constructor|]. simpl in NDc. inversion NDc; subst. constructor; auto.
        intros C. apply H1, in_app_iff; auto.
      + apply (IH) with (j := j); auto. clear -NDc. induction M as [|a M IH]; auto. simpl in NDc. inversion NDc; auto.
    - intros y. rewrite filter_In, in_seq, Nat.eqb_eq. split.
      + intros ((_ & Hy) & Hl).
        assert (Hin : In y (concat Ls)). { apply (Permutation_in _ (Permutation_sym (ct_part _ _ _ _ _ _ C))), in_seq. lia. }
        apply in_concat in Hin. destruct Hin as (M & HM & HyM). apply In_nth_error in HM. destruct HM as (j' & EM).
        rewrite (ct_label _ _ _ _ _ _ C j' M y EM HyM) in Hl. subst j'. congruence.
      + intros Hy. assert (Hin : In y (concat Ls)) by (apply in_concat; exists L; split; auto; eapply nth_error_In; eauto).
        apply (Permutation_in _ (ct_part _ _ _ _ _ _ C)), in_seq in Hin. split; auto.
        apply (ct_label _ _ _ _ _ _ C j L); auto. }
  assert (F2 : forall Ls' s, (forall j L, nth_error Ls' j = Some L -> Permutation (members_of g (s + j)) L) ->
     Forall2 (@Permutation nat) (map (members_of g) (seq s (length Ls'))) Ls').
  { clear. induction Ls' as [|L Ls' IH]; intros s H; simpl; [constructor|]. constructor.
    - specialize (H 0 L eq_refl). rewrite Nat.add_0_r in H. auto.
    - apply IH. intros j M E. specialize (H (S j) M E). rewrite Nat.add_succ_r in H. auto. }
  pose proof (Forall2_len _ _ _ (ct_items _ _ _ _ _ _ C)) as Len. pose proof (ct_len _ _ _ _ _ _ C) as Lr.
  assert (LLs : length Ls = k) by lia.
  assert (FP : Forall2 (@Permutation nat) (map (members_of g) (seq 0 k)) Ls).
  { rewrite <- LLs. apply F2. intros j L E. apply MEM; auto. }
  split.
  - intros x. rewrite (ct_roots _ _ _ _ _ _ C). replace (2 * n - 1 - (k - 1)) with (2 * n - k) by lia. reflexivity.
  - apply C.
  - assert (SS : Forall (StronglySorted lt) (map (members_of g) (seq 0 k))).
    { apply Forall_forall. intros x Hx. apply in_map_iff in Hx. destruct Hx as (j & <- & _). apply filter_sorted, seq_sorted. }
    pose proof (ct_items _ _ _ _ _ _ C) as FI. clear -FI FP SS. revert FP SS. generalize (map (members_of g) (seq 0 k)) as G. 
    induction FI as [|x L rs Ls HI FI IH]; intros G FP SS; inversion FP; subst; constructor.
    + exists L. inversion SS; auto.
    + apply IH; auto. inversion SS; auto.
  - rewrite (perm_concat _ _ FP). apply C.
Qed.

Lemma root_only n ns x : 2 <= n -> binary_tree n ns -> (root_below n (2 * n - 1) ns x <-> x = 2 * n - 2).
Proof.
  intros Hn B. unfold root_below. rewrite firstn_all2 by (rewrite (bt_length _ _ B); lia). split.
  - intros (H1 & H2). destruct (Nat.eq_dec x (2 * n - 2)); auto. exfalso. apply H2.
    apply (Permutation_in _ (Permutation_sym (bt_once _ _ B))), in_seq. lia.
  - intros ->. split; [lia|]. intros C. apply (Permutation_in _ (bt_once _ _ B)), in_seq in C. lia.
Qed.

Theorem group_spec n k ns : wf n ns -> binary_tree n ns -> 1 <= k <= n ->
  exists gs rs, group n k ns = Ok gs /\ length gs = k /\ groups_of n (2 * n - k) ns gs rs.
Proof.
  intros W B Hk. pose proof (bt_length _ _ B) as EL. unfold group.
  destruct (Nat.eqb_spec k n) as [->|Hn].
  { exists (map (fun i => [i]) (seq 0 n)), (seq 0 n). split; auto. rewrite map_length, seq_length. split; auto. split.
    - intros x. rewrite in_seq. unfold root_below. replace (2 * n - n) with n by lia.
      unfold children. rewrite skipn_all2 by (rewrite firstn_length; lia). simpl. split; [intros; split; [lia|tauto]|lia].
    - apply seq_NoDup.
    - assert (G : forall l, (forall x, In x l -> x < n) -> Forall2 (fun x g => exists L, items_of n ns x L /\ Permutation g L /\ StronglySorted lt g) l (map (fun i => [i]) l)).
      { induction l as [|x l IH]; intros H; simpl; constructor; [|apply IH; intros; apply H; right; auto].
        exists [x]. split; [constructor; apply H; left; auto|]. split; auto. repeat constructor. }
      apply G. intros x Hx. apply in_seq in Hx. lia.
    - assert (G : forall l : list nat, concat (map (fun i => [i]) l) = l) by (induction l; simpl; congruence). rewrite G. auto. }
  assert (B1 : 2 * n - 2 < length ns) by lia.
  destruct (items_ex n ns (2 * n - 2) W B1) as (L & HL). pose proof (bt_root _ _ B L HL) as PL.
  destruct (Nat.eqb_spec k 1) as [->|H1].
  { exists [seq 0 n], [2 * n - 2]. split; auto. split; auto. split.
    - intros x. rewrite root_only by (auto; lia). simpl. intuition.
    - constructor; [intros []|constructor].
    - constructor; [|constructor]. exists L. split; auto. split; [symmetry; auto|apply seq_sorted].
    - simpl. rewrite app_nil_r. auto. }
  assert (C0 : cut n ns 0 (repeat 0 n) [2 * n - 2] [L]).
  { split.
    - reflexivity.
    - apply repeat_length.
    - constructor; auto.
    - simpl. rewrite app_nil_r. auto.
    - constructor; [intros []|constructor].
    - intros x. rewrite Nat.sub_0_r, root_only by (auto; lia). simpl. intuition.
    - intros j M y E Hy. destruct j as [|[|j]]; simpl in E; try discriminate. 
      clear. revert y. induction n as [|n IH]; intros [|y]; simpl; auto. }
  destruct (split_loop_spec n k ns W EL (n - 1) 0 (repeat 0 n) [] [2 * n - 2] [L] C0) as (g & rs & Ls & E & C); try lia.
  rewrite Nat.sub_0_r in E. rewrite E. cbn [bind]. rewrite seq_length.
  destruct (Nat.ltb_spec k k); [lia|]. rewrite Nat.sub_diag. simpl repeat. rewrite app_nil_r.
  exists (map (members_of g) (seq 0 k)), rs. split; auto. split; [rewrite map_length, seq_length; auto|].
  eapply cut_groups; eauto. lia.
Qed.
