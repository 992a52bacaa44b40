(** The result of HCluster::Calculate: a binary tree, monotone heights, linkage distances. *)
From Verif Require Import Base Num ClusterModel ClusterSpec ClusterProofs.
Local Open Scope nat_scope.

(** ** Items *)
Lemma items_fun n ns : forall x L, items_of n ns x L -> forall M, items_of n ns x M -> L = M.
Proof.
  induction 1 as [x Hx|x a L R Hx E H1 IH1 H2 IH2]; intros M HM; inversion HM; subst; auto; try lia.
  assert (a0 = a) by congruence. subst. f_equal; auto.
Qed.
Lemma items_ex n ns x : wf n ns -> x < length ns -> exists L, items_of n ns x L.
Proof.
  intros W. induction x as [x IH] using lt_wf_ind. intros Hx.
  destruct (Nat.lt_ge_cases x n) as [H|H]; [exists [x]; constructor; auto|].
  destruct (nth_error ns x) as [a|] eqn:E; [|apply nth_error_None in E; lia].
  destruct (wf_node _ _ W x a H E) as (H1 & H2 & _).
  destruct (IH _ H1) as (L & HL); [lia|]. destruct (IH _ H2) as (R & HR); [lia|].
  exists (L ++ R). eapply it_node; eauto.
Qed.
Lemma items_length n ns x L : wf n ns -> x < length ns -> items_of n ns x L -> length L = wth ns x.
Proof.
  intros W Hx H. revert Hx. induction H as [x Hx|x a L R Hx E H1 IH1 H2 IH2]; intros Hl; unfold wth.
  - destruct (nth_error ns x) as [a|] eqn:E; [|apply nth_error_None in E; lia]. rewrite (wf_leaf _ _ W x a Hx E). reflexivity.
  - rewrite E. destruct (wf_node _ _ W x a Hx E) as (G1 & G2 & _ & ->). rewrite app_length, IH1, IH2 by lia. reflexivity.
Qed.
Lemma items_bound n ns x L : items_of n ns x L -> forall i, In i L -> i < n.
Proof.
  induction 1 as [x Hx|x a L R Hx E H1 IH1 H2 IH2]; intros i Hi; [destruct Hi as [<-|[]]; auto|].
  apply in_app_iff in Hi. destruct Hi; auto.
Qed.
Lemma items_mono m n ns D l r h ns' D' x L : merged m ns D l r h ns' D' -> items_of n ns x L -> items_of n ns' x L.
Proof.
  intros M. induction 1 as [x Hx|x a L R Hx E H1 IH1 H2 IH2]; [constructor; auto|].
  destruct (mg_old _ _ _ _ _ _ _ _ M x a E) as (a' & E' & S1 & S2 & _).
  apply (it_node n ns' x a'); auto; rewrite ?S1, ?S2; auto.
Qed.
Lemma items_mono_inv m n ns D l r h ns' D' x L : wf n ns -> x < length ns -> merged m ns D l r h ns' D' -> items_of n ns' x L -> items_of n ns x L.
Proof.
  intros W Hx M H. destruct (items_ex n ns x W Hx) as (L' & HL'). pose proof (items_mono _ _ _ _ _ _ _ _ _ _ _ M HL') as H'.
  rewrite (items_fun _ _ _ _ H _ H'). auto.
Qed.
Lemma items_new m n ns D l r h ns' D' L : wf n ns -> merged m ns D l r h ns' D' -> live ns l -> live ns r ->
  items_of n ns' (length ns) L -> exists Ll Lr, L = Ll ++ Lr /\ items_of n ns l Ll /\ items_of n ns r Lr.
Proof.
  intros W M Ll Lr H. pose proof (wf_len _ _ W). destruct (mg_new _ _ _ _ _ _ _ _ M) as (c & Ec & E1 & E2 & _).
  inversion H as [|x a L1 R1 Hx Ea H1 H2]; subst; [lia|]. assert (a = c) by congruence. subst a.
  exists L1, R1. split; auto. split; eapply items_mono_inv; eauto; apply live_lt; auto.
Qed.

Record parts (n : nat) (ns : list node) : Prop := {
  pt_nodup : forall x L, x < length ns -> items_of n ns x L -> NoDup L;
  pt_disj : forall x y L M, live ns x -> live ns y -> x <> y -> items_of n ns x L -> items_of n ns y M -> forall i, In i L -> ~ In i M;
  pt_cover : forall i, i < n -> exists x L, live ns x /\ items_of n ns x L /\ In i L }.

Lemma parts_reach m n D0 ns D : reach m n D0 ns D -> parts n ns.
Proof.
  induction 1 as [|ns D l r ns' D' HR IH Ll Lr Hlr N1 N2 M].
  - split.
    + intros x L Hx H. rewrite init_length in Hx. inversion H; subst; [|lia]. constructor; [intros []|constructor].
    + intros x y L M Lx Ly Hxy HL HM i Hi Hj. apply init_live in Lx, Ly. inversion HL; subst; [|lia]. inversion HM; subst; [|lia].
      destruct Hi as [<-|[]]. destruct Hj as [<-|[]]. congruence.
    + intros i Hi. exists i, [i]. split; [apply init_live; auto|]. split; [constructor; auto|left; auto].
  - pose proof (reach_wf _ _ _ _ _ HR) as W. pose proof (live_lt _ _ Ll) as Bl. pose proof (live_lt _ _ Lr) as Br.
    assert (Inew : forall L, items_of n ns' (length ns) L -> exists A B, L = A ++ B /\ items_of n ns l A /\ items_of n ns r B).
    { intros L HL. eapply items_new; eauto. }
    assert (Iold : forall x L, x < length ns -> items_of n ns' x L -> items_of n ns x L).
    { intros x L Hx HL. eapply items_mono_inv; eauto. }
    split.
    + intros x L Hx HL. rewrite (mg_len _ _ _ _ _ _ _ _ M) in Hx. destruct (Nat.eq_dec x (length ns)) as [->|Hne].
      * destruct (Inew L HL) as (A & B & -> & HA & HB). apply NoDup_app2.
        -- exact (pt_nodup _ _ IH l A Bl HA).
        -- exact (pt_nodup _ _ IH r B Br HB).
        -- exact (pt_disj _ _ IH l r A B Ll Lr Hlr HA HB).
      * eapply (pt_nodup _ _ IH x); [lia|]. apply Iold; auto. lia.
    + assert (ONE : forall y L B, live ns y -> y <> l -> y <> r -> items_of n ns' (length ns) L -> items_of n ns y B ->
        forall i, In i L -> ~ In i B).
      { intros y L B Ly Y1 Y2 HL HB i Hi. destruct (Inew L HL) as (A1 & A2 & -> & HA1 & HA2).
        apply in_app_iff in Hi. destruct Hi as [Hi|Hi].
        - apply (pt_disj _ _ IH l y A1 B Ll Ly); auto.
        - apply (pt_disj _ _ IH r y A2 B Lr Ly); auto. }
      intros x y L B Lx Ly Hxy HL HB i Hi. apply (mg_live _ _ _ _ _ _ _ _ M) in Lx, Ly.
      destruct Lx as [-> |(Lx & X1 & X2)], Ly as [-> |(Ly & Y1 & Y2)]; [congruence| | |].
      * apply (ONE y L B); auto. apply Iold; auto. apply live_lt; auto.
      * intros C. apply (ONE x B L Lx X1 X2 HB) in C; auto. apply Iold; auto. apply live_lt; auto.
      * apply (pt_disj _ _ IH x y L B Lx Ly Hxy); auto; apply Iold; auto; apply live_lt; auto.
    + intros i Hi. destruct (pt_cover _ _ IH i Hi) as (x & L & Lx & HL & Hin).
      assert (C : x = l \/ x = r \/ (x <> l /\ x <> r)) by lia.
      destruct C as [C|[C|(C1 & C2)]].
      3:{ exists x, L. split; [apply (mg_live _ _ _ _ _ _ _ _ M); auto|]. split; auto. eapply items_mono; eauto. }
      all: destruct (items_ex n ns l W Bl) as (A & HA); destruct (items_ex n ns r W Br) as (B & HB);
        destruct (mg_new _ _ _ _ _ _ _ _ M) as (c & Ec & E1 & E2 & _);
        exists (length ns), (A ++ B); (split; [apply (mg_live _ _ _ _ _ _ _ _ M); auto|]; split;
          [apply (it_node n ns' (length ns) c); auto; [apply (wf_len _ _ W)|rewrite E1; eapply items_mono; eauto|rewrite E2; eapply items_mono; eauto]|]);
        apply in_app_iff; subst x.
      * left. rewrite (items_fun _ _ _ _ HA _ HL). auto.
      * right. rewrite (items_fun _ _ _ _ HB _ HL). auto.
Qed.

Lemma root_live n ns x : wf n ns -> 1 <= n -> length ns = 2 * n - 1 -> live ns x -> x = 2 * n - 2.
Proof.
  intros W Hn EL Lx. destruct (Nat.eq_dec x (2 * n - 2)) as [|Hne]; auto. exfalso.
  assert (Lr : live ns (2 * n - 2)).
  { apply (wf_live _ _ W); [lia|]. intros C. unfold children in C. apply in_flat_map in C. destruct C as (a & Ha & Hc).
    apply In_nth_error in Ha. destruct Ha as (i & Ei).
    assert (E : nth_error ns (n + i) = Some a).
    { clear -Ei. revert ns Ei. induction n as [|n IH]; intros ns Ei; simpl; auto. destruct ns; simpl in *; [destruct i; discriminate|apply IH; auto]. }
    assert (n + i < length ns) by (apply nth_error_Some; congruence).
    destruct (wf_node _ _ W (n + i) a ltac:(lia) E) as (H1 & H2 & _). destruct Hc as [C|[C|[]]]; lia. }
  pose proof (live_few n ns [x; 2 * n - 2] W) as F. cbn [length] in F.
  assert (2 + 2 * (length ns - n) <= length ns).
  { apply F; [|repeat constructor; auto]. constructor; [intros [C|[]]; lia|]. constructor; [intros []|constructor]. }
  lia.
Qed.

Lemma binary_tree_ok m n D0 ns D : 1 <= n -> reach m n D0 ns D -> length ns = 2 * n - 1 -> binary_tree n ns.
Proof.
  intros Hn HR EL. pose proof (reach_wf _ _ _ _ _ HR) as W. pose proof (parts_reach _ _ _ _ _ HR) as P. split; auto.
  - intros x a. apply (wf_leaf _ _ W).
  - intros x a Hx E. destruct (wf_node _ _ W x a Hx E) as (H1 & H2 & H3 & _). auto.
  - apply NoDup_Permutation_bis; [apply W| |].
    + rewrite seq_length, children_length. lia.
    + intros x Hx. apply in_seq. pose proof (children_bound _ _ _ W Hx).
      split; [lia|]. assert (x <> 2 * n - 2); [|lia]. intros ->. destruct (pt_cover _ _ P 0) as (y & L & Ly & _); [lia|].
      pose proof (root_live n ns y W Hn EL Ly) as ->. apply (wf_live _ _ W) in Hx; auto.
  - intros x a E. assert (Hx : x < length ns) by (apply nth_error_Some; congruence).
    destruct (items_ex n ns x W Hx) as (L & HL). exists L. split; auto. split; [eapply (pt_nodup _ _ P); eauto|].
    rewrite (items_length n ns x L W Hx HL). unfold wth. rewrite E. reflexivity.
  - intros L HL. apply NoDup_Permutation.
    + eapply (pt_nodup _ _ P); eauto. lia.
    + apply seq_NoDup.
    + intros i. rewrite in_seq. split.
      * intros Hi. apply (items_bound _ _ _ _ HL) in Hi. lia.
      * intros (_ & Hi). simpl in Hi. destruct (pt_cover _ _ P i Hi) as (x & L' & Lx & HL' & Hin).
        pose proof (root_live n ns x W Hn EL Lx) as ->. rewrite (items_fun _ _ _ _ HL _ HL'). auto.
Qed.

(** ** Heights never decrease towards the root *)
Record monotone (n : nat) (ns : list node) (D : dist) : Prop := {
  mn_dist : forall x y a, n <= x -> nth_error ns x = Some a -> live ns x -> live ns y -> x <> y -> (nd_height a <= dn D ns x y)%Qc;
  mn_tree : forall x a c b, n <= x -> nth_error ns x = Some a -> c = nd_left a \/ c = nd_right a -> n <= c -> nth_error ns c = Some b ->
     (nd_height b <= nd_height a)%Qc }.

Lemma monotone_reach m n D0 ns D : reach m n D0 ns D -> monotone n ns D.
Proof.
  induction 1 as [|ns D l r ns' D' HR IH Ll Lr Hlr N1 N2 M].
  - split.
    + intros x y a Hx E. apply init_nth in E. lia.
    + intros x a c b Hx E. apply init_nth in E. lia.
  - pose proof (reach_wf _ _ _ _ _ HR) as W.
    assert (WP : forall x, live ns x -> 0 < wth ns x) by (intros x Lx; eapply wth_pos; eauto; apply live_lt; auto).
    assert (OLD : forall x a, x < length ns -> nth_error ns' x = Some a -> exists b, nth_error ns x = Some b /\ same a b).
    { intros x a Hx E. destruct (nth_error ns x) as [b|] eqn:Eb; [|apply nth_error_None in Eb; lia]. exists b. split; auto.
      destruct (mg_old _ _ _ _ _ _ _ _ M x b Eb) as (a' & E' & S). congruence. }
    destruct (mg_new _ _ _ _ _ _ _ _ M) as (c & Ec & C1 & C2 & C3 & C4 & C5).
    assert (LG : forall x b, live ns x -> x <> l -> x <> r -> (b <= dn D ns l x)%Qc -> (b <= dn D ns r x)%Qc ->
       (b <= dn D' ns' x (length ns))%Qc).
    { intros x b Lx X1 X2 B1 B2. rewrite (mg_dist _ _ _ _ _ _ _ _ M) by auto. apply link_ge; auto.
      - apply NN_le; auto.
      - rewrite (dn_sym D ns l r). apply NN_le; auto. }
    split.
    + intros x y a Hx E Lx Ly Hxy. apply (mg_live _ _ _ _ _ _ _ _ M) in Lx, Ly.
      destruct Lx as [-> |(Lx & X1 & X2)].
      * assert (a = c) by congruence. subst a. rewrite C4. destruct Ly as [-> |(Ly & Y1 & Y2)]; [congruence|].
        rewrite (dn_sym D' ns'). apply LG; auto.
        -- apply NN_le; auto.
        -- rewrite (dn_sym D ns l r). apply NN_le; auto.
      * destruct (OLD x a (live_lt _ _ Lx) E) as (b & Eb & (_ & _ & _ & _ & ->)).
        destruct Ly as [-> |(Ly & Y1 & Y2)].
        -- apply LG; auto; rewrite dn_sym; apply (mn_dist _ _ _ IH x); auto.
        -- rewrite (mg_keep _ _ _ _ _ _ _ _ M) by auto. apply (mn_dist _ _ _ IH x); auto.
    + intros x a d b Hx E Hd Hn Eb. assert (Bx : x < length ns') by (apply nth_error_Some; congruence).
      rewrite (mg_len _ _ _ _ _ _ _ _ M) in Bx.
      destruct (Nat.eq_dec x (length ns)) as [->|Hne].
      * assert (a = c) by congruence. subst a. rewrite C1, C2 in Hd. rewrite C4.
        destruct Hd as [-> | ->].
        -- destruct (OLD l b (live_lt _ _ Ll) Eb) as (b' & Eb' & (_ & _ & _ & _ & ->)). apply (mn_dist _ _ _ IH l); auto.
        -- destruct (OLD r b (live_lt _ _ Lr) Eb) as (b' & Eb' & (_ & _ & _ & _ & ->)). rewrite dn_sym. apply (mn_dist _ _ _ IH r); auto.
      * assert (Hx' : x < length ns) by lia.
        destruct (OLD x a Hx' E) as (a' & Ea' & (S1 & S2 & _ & _ & S5)). rewrite S1, S2 in Hd. rewrite S5.
        destruct (wf_node _ _ W x a' Hx Ea') as (G1 & G2 & _).
        destruct (OLD d b) as (b' & Eb' & (_ & _ & _ & _ & ->)); auto; [lia|].
        eapply (mn_tree _ _ _ IH x); eauto.
Qed.
