(** The distances of the linkages in terms of the original distances. *)
From Verif Require Import Base Num ClusterModel ClusterSpec ClusterProofs ClusterProofs2.
Local Open Scope nat_scope.

Lemma halve_fst l : map fst (halve l) = map fst l.
Proof. unfold halve. rewrite map_map. reflexivity. Qed.
Lemma halve_length l : length (halve l) = length l.
Proof. apply map_length. Qed.

Lemma witems_items n ns x W : weighted_items n ns x W -> items_of n ns x (map fst W).
Proof.
  induction 1 as [x Hx|x a L R Hx E H1 IH1 H2 IH2]; simpl; [constructor; auto|].
  rewrite map_app, !halve_fst. eapply it_node; eauto.
Qed.
Lemma witems_fun n ns : forall x L, weighted_items n ns x L -> forall M, weighted_items n ns x M -> L = M.
Proof.
  induction 1 as [x Hx|x a L R Hx E H1 IH1 H2 IH2]; intros M HM; inversion HM; subst; auto; try lia.
  assert (a0 = a) by congruence. subst. f_equal; f_equal; auto.
Qed.
Lemma witems_ex n ns x : wf n ns -> x < length ns -> exists L, weighted_items n ns x L.
Proof.
  intros W. induction x as [x IH] using lt_wf_ind. intros Hx.
  destruct (Nat.lt_ge_cases x n) as [H|H]; [exists [(x, 1%Qc)]; constructor; auto|].
  destruct (nth_error ns x) as [a|] eqn:E; [|apply nth_error_None in E; lia].
  destruct (wf_node _ _ W x a H E) as (H1 & H2 & _).
  destruct (IH _ H1) as (L & HL); [lia|]. destruct (IH _ H2) as (R & HR); [lia|].
  exists (halve L ++ halve R). eapply wi_node; eauto.
Qed.
Lemma witems_length n ns x L : wf n ns -> x < length ns -> weighted_items n ns x L -> length L = wth ns x.
Proof.
  intros W Hx H. rewrite <- (items_length n ns x (map fst L) W Hx), map_length; auto. apply witems_items; auto.
Qed.
Lemma witems_mono m n ns D l r h ns' D' x L : merged m ns D l r h ns' D' -> weighted_items n ns x L -> weighted_items n ns' x L.
Proof.
  intros M. induction 1 as [x Hx|x a L R Hx E H1 IH1 H2 IH2]; [constructor; auto|].
  destruct (mg_old _ _ _ _ _ _ _ _ M x a E) as (a' & E' & S1 & S2 & _).
  apply (wi_node n ns' x a'); auto; rewrite ?S1, ?S2; auto.
Qed.
Lemma witems_mono_inv m n ns D l r h ns' D' x L : wf n ns -> x < length ns -> merged m ns D l r h ns' D' -> weighted_items n ns' x L -> weighted_items n ns x L.
Proof.
  intros W Hx M H. destruct (witems_ex n ns x W Hx) as (L' & HL'). pose proof (witems_mono _ _ _ _ _ _ _ _ _ _ _ M HL') as H'.
  rewrite (witems_fun _ _ _ _ H _ H'). auto.
Qed.

(** A quantity of two clusters that the linkage computes. *)
Record linkage_of (m : linkage) (D0 : dist) (P : list (nat * Qc) -> list (nat * Qc) -> Qc -> Prop) : Prop := {
  lk_base : forall i j, i <> j -> P [(i, 1%Qc)] [(j, 1%Qc)] (pair_dist D0 i j);
  lk_sym : forall X Y v, P X Y v -> P Y X v;
  lk_comb : forall X Y A dl dr h, X <> [] -> Y <> [] -> A <> [] -> P X A dl -> P Y A dr -> P X Y h ->
     P (halve X ++ halve Y) A (link_dist m (length X) (length Y) (length A) dl dr h) }.

Record tracks (n : nat) (ns : list node) (D : dist) (P : list (nat * Qc) -> list (nat * Qc) -> Qc -> Prop) : Prop := {
  tr_live : forall x y X Y, live ns x -> live ns y -> x <> y -> weighted_items n ns x X -> weighted_items n ns y Y -> P X Y (dn D ns x y);
  tr_node : forall x a X Y, n <= x -> nth_error ns x = Some a -> weighted_items n ns (nd_left a) X -> weighted_items n ns (nd_right a) Y ->
     P X Y (nd_height a) }.

Lemma tracks_reach m n D0 P ns D : linkage_of m D0 P -> reach m n D0 ns D -> tracks n ns D P.
Proof.
  intros LK. induction 1 as [|ns D l r ns' D' HR IH Ll Lr Hlr N1 N2 M].
  - split.
    + intros x y X Y Lx Ly Hxy HX HY. apply init_live in Lx, Ly. inversion HX; subst; [|lia]. inversion HY; subst; [|lia].
      unfold dn. rewrite !init_dix by auto. apply LK. auto.
    + intros x a X Y Hx E. apply init_nth in E. lia.
  - pose proof (reach_wf _ _ _ _ _ HR) as W. pose proof (live_lt _ _ Ll) as Bl. pose proof (live_lt _ _ Lr) as Br.
    destruct (mg_new _ _ _ _ _ _ _ _ M) as (c & Ec & C1 & C2 & C3 & C4 & C5).
    assert (Iold : forall x L, x < length ns -> weighted_items n ns' x L -> weighted_items n ns x L).
    { intros x L Hx HL. eapply witems_mono_inv; eauto. }
    assert (NE : forall x L, x < length ns -> weighted_items n ns x L -> L <> []).
    { intros x L Hx HL ->. apply witems_length in HL; auto. pose proof (wth_pos n ns x W Hx). simpl in HL. lia. }
    assert (Inew : forall L, weighted_items n ns' (length ns) L -> exists A B, L = halve A ++ halve B /\ weighted_items n ns l A /\ weighted_items n ns r B).
    { intros L HL. pose proof (wf_len _ _ W). inversion HL as [|x a L1 R1 Hx Ea H1 H2]; subst; [lia|]. assert (a = c) by congruence. subst a.
      exists L1, R1. split; auto. }
    assert (ONE : forall x X Y, live ns x -> x <> l -> x <> r -> weighted_items n ns x X -> weighted_items n ns' (length ns) Y ->
       P Y X (dn D' ns' x (length ns))).
    { intros x X Y Lx X1 X2 HX HY. destruct (Inew Y HY) as (A & B & -> & HA & HB).
      pose proof (live_lt _ _ Lx) as Bx.
      rewrite (mg_dist _ _ _ _ _ _ _ _ M) by auto.
      rewrite <- (witems_length n ns l A W Bl HA), <- (witems_length n ns r B W Br HB), <- (witems_length n ns x X W Bx HX).
      apply (lk_comb _ _ _ LK); [exact (NE l A Bl HA)|exact (NE r B Br HB)|exact (NE x X Bx HX)| | |]; apply (tr_live _ _ _ _ IH); auto. }
    split.
    + intros x y X Y Lx Ly Hxy HX HY. apply (mg_live _ _ _ _ _ _ _ _ M) in Lx, Ly.
      destruct Lx as [-> |(Lx & X1 & X2)], Ly as [-> |(Ly & Y1 & Y2)]; [congruence| | |].
      * rewrite dn_sym. apply (ONE y); auto. apply Iold; auto. apply live_lt; auto.
      * apply (lk_sym _ _ _ LK). apply (ONE x); auto. apply Iold; auto. apply live_lt; auto.
      * rewrite (mg_keep _ _ _ _ _ _ _ _ M) by auto. apply (tr_live _ _ _ _ IH); auto; apply Iold; auto; apply live_lt; auto.
    + intros x a X Y Hx E HX HY. assert (Bx : x < length ns') by (apply nth_error_Some; congruence).
      rewrite (mg_len _ _ _ _ _ _ _ _ M) in Bx. destruct (Nat.eq_dec x (length ns)) as [->|Hne].
      * assert (a = c) by congruence. subst a. rewrite C1 in HX. rewrite C2 in HY. rewrite C4. apply (tr_live _ _ _ _ IH); auto.
      * destruct (nth_error ns x) as [b|] eqn:Eb; [|apply nth_error_None in Eb; lia].
        destruct (mg_old _ _ _ _ _ _ _ _ M x b Eb) as (a' & E' & (S1 & S2 & S3 & S4 & S5)). assert (a' = a) by congruence. subst a'.
        rewrite S1 in HX. rewrite S2 in HY. rewrite S5. destruct (wf_node _ _ W x b Hx Eb) as (G1 & G2 & _).
        apply (tr_node _ _ _ _ IH x); auto; apply Iold; auto; lia.
Qed.

(** ** The linkages *)
Lemma cross_app D L1 L2 R : cross D (L1 ++ L2) R = cross D L1 R ++ cross D L2 R.
Proof. unfold cross. apply flat_map_app. Qed.
Lemma cross_in D L R v : In v (cross D L R) <-> exists i j, In i L /\ In j R /\ v = pair_dist D i j.
Proof.
  unfold cross. rewrite in_flat_map. split.
  - intros (i & Hi & H). apply in_map_iff in H. destruct H as (j & <- & Hj). eauto 6.
  - intros (i & j & Hi & Hj & ->). exists i. split; auto. apply in_map; auto.
Qed.
Lemma cross_in_sym D L R v : In v (cross D L R) -> In v (cross D R L).
Proof. rewrite !cross_in. intros (i & j & Hi & Hj & ->). exists j, i. repeat split; auto. apply dd_sym. Qed.
Lemma cross_length D L R : length (cross D L R) = length L * length R.
Proof. unfold cross. induction L as [|a L IH]; simpl; auto. rewrite app_length, map_length, IH. reflexivity. Qed.
Lemma cross_cons_r D L b R : qsum (cross D L (b :: R)) = (qsum (map (pair_dist D b) L) + qsum (cross D L R))%Qc.
Proof.
  unfold cross. induction L as [|a L IH]; simpl in *; [ring|]. rewrite !qsum_app, IH, (dd_sym D a b). simpl. ring.
Qed.
Lemma cross_sum_sym D L R : qsum (cross D L R) = qsum (cross D R L).
Proof.
  revert R. induction L as [|a L IH]; intros R.
  - induction R as [|b R IHR]; simpl; auto.
  - rewrite cross_cons_r. simpl. rewrite qsum_app, IH. reflexivity.
Qed.

Lemma single_link D0 : linkage_of kSingle D0 (fun X Y v => least v (cross D0 (map fst X) (map fst Y))).
Proof.
  split.
  - intros i j H. simpl. split; [left; auto|]. intros x [<-|[]]. apply Qcle_refl.
  - intros X Y v (H1 & H2). split; [apply cross_in_sym; auto|]. intros x Hx. apply H2, cross_in_sym; auto.
  - intros X Y A dl dr h _ _ _ (L1 & L2) (R1 & R2) _. rewrite map_app, !halve_fst, cross_app. unfold least, link_dist.
    destruct (qltb dr dl) eqn:Q; [apply qltb_true in Q|apply qltb_false in Q].
    + split; [apply in_app_iff; auto|]. intros x Hx. apply in_app_iff in Hx. destruct Hx as [Hx|Hx]; auto.
      apply Qcle_trans with dl; auto. apply Qclt_le_weak; auto.
    + split; [apply in_app_iff; auto|]. intros x Hx. apply in_app_iff in Hx. destruct Hx as [Hx|Hx]; auto.
      apply Qcle_trans with dr; auto.
Qed.
Lemma complete_link D0 : linkage_of kComplete D0 (fun X Y v => greatest v (cross D0 (map fst X) (map fst Y))).
Proof.
  split.
  - intros i j H. simpl. split; [left; auto|]. intros x [<-|[]]. apply Qcle_refl.
  - intros X Y v (H1 & H2). split; [apply cross_in_sym; auto|]. intros x Hx. apply H2, cross_in_sym; auto.
  - intros X Y A dl dr h _ _ _ (L1 & L2) (R1 & R2) _. rewrite map_app, !halve_fst, cross_app. unfold greatest, link_dist.
    destruct (qltb dr dl) eqn:Q; [apply qltb_true in Q|apply qltb_false in Q].
    + split; [apply in_app_iff; auto|]. intros x Hx. apply in_app_iff in Hx. destruct Hx as [Hx|Hx]; auto.
      apply Qcle_trans with dr; auto. apply Qclt_le_weak; auto.
    + split; [apply in_app_iff; auto|]. intros x Hx. apply in_app_iff in Hx. destruct Hx as [Hx|Hx]; auto.
      apply Qcle_trans with dl; auto.
Qed.

Lemma qn_mul a b : qn (a * b) = (qn a * qn b)%Qc.
Proof. unfold qn. rewrite Nat2Z.inj_mul, qz_mul. reflexivity. Qed.
Lemma len_pos {A} (l : list A) : l <> [] -> (0 < qn (length l))%Qc.
Proof. intros H. apply qn_pos. destruct l; simpl; [congruence|lia]. Qed.

Lemma average_link D0 : linkage_of kAverageU D0 (fun X Y v => average v (cross D0 (map fst X) (map fst Y))).
Proof.
  split.
  - intros i j H. simpl. split; [discriminate|]. simpl. replace (qn 1) with 1%Qc by reflexivity. ring.
  - intros X Y v (H1 & H2). split.
    + intros C. apply H1. destruct (cross D0 (map fst X) (map fst Y)) as [|z l] eqn:E; auto.
      assert (Hz : In z (cross D0 (map fst X) (map fst Y))) by (rewrite E; left; auto).
      apply cross_in_sym in Hz. rewrite C in Hz. destruct Hz.
    + rewrite cross_sum_sym, <- H2, !cross_length, Nat.mul_comm. reflexivity.
  - intros X Y A dl dr h NX NY NA (L1 & L2) (R1 & R2) _. rewrite map_app, !halve_fst, cross_app. split.
    + intros C. apply app_eq_nil in C. tauto.
    + rewrite qsum_app, <- L2, <- R2, app_length, !cross_length, !map_length, qn_add, !qn_mul. unfold link_dist.
      pose proof (len_pos _ NX). pose proof (len_pos _ NY). pose proof (len_pos _ NA). field. apply Qc_lt_ne. qlra.
Qed.

Lemma weighted_mean_app_l D A B R : weighted_mean D (A ++ B) R = (weighted_mean D A R + weighted_mean D B R)%Qc.
Proof. unfold weighted_mean. rewrite flat_map_app, qsum_app. reflexivity. Qed.
Lemma weighted_mean_halve D A R : weighted_mean D (halve A) R = (weighted_mean D A R / qz 2)%Qc.
Proof.
  unfold weighted_mean. induction A as [|a A IH]; simpl; [field; discriminate|]. rewrite !qsum_app, IH. simpl.
  assert (E : qsum (map (fun q => snd a / qz 2 * snd q * pair_dist D (fst a) (fst q))%Qc R) =
    (qsum (map (fun q => snd a * snd q * pair_dist D (fst a) (fst q))%Qc R) / qz 2)%Qc).
  { clear IH. induction R as [|b R IHR]; simpl; [field; discriminate|]. rewrite IHR. field. discriminate. }
  rewrite E. field. discriminate.
Qed.
Lemma weighted_mean_cons_r D A b R : weighted_mean D A (b :: R) =
  (qsum (map (fun q => snd b * snd q * pair_dist D (fst b) (fst q))%Qc A) + weighted_mean D A R)%Qc.
Proof.
  unfold weighted_mean. induction A as [|a A IH]; simpl in *; [reflexivity|]. rewrite !qsum_app, IH, (dd_sym D (fst a) (fst b)). ring.
Qed.
Lemma weighted_mean_sym D A B : weighted_mean D A B = weighted_mean D B A.
Proof.
  revert B. induction A as [|a A IH]; intros B.
  - unfold weighted_mean. induction B as [|b B IHB]; simpl; auto.
  - rewrite weighted_mean_cons_r, <- IH. unfold weighted_mean. simpl. rewrite qsum_app. reflexivity.
Qed.
Lemma weighted_link D0 : linkage_of kAverageW D0 (fun X Y v => v = weighted_mean D0 X Y).
Proof.
  split.
  - intros i j H. unfold weighted_mean. simpl. ring.
  - intros X Y v ->. apply weighted_mean_sym.
  - intros X Y A dl dr h _ _ _ -> -> _. rewrite weighted_mean_app_l, !weighted_mean_halve. simpl. field. discriminate.
Qed.

Lemma pair_sum_app D L R : pair_sum D (L ++ R) = (pair_sum D L + pair_sum D R + qsum (cross D L R))%Qc.
Proof.
  induction L as [|a L IH]; simpl; [ring|]. rewrite map_app, !qsum_app, IH. ring.
Qed.
Lemma ward_link D0 : linkage_of kWard D0 (fun X Y v =>
  v = (qz 2 * (inertia D0 (map fst X ++ map fst Y) - inertia D0 (map fst X) - inertia D0 (map fst Y)))%Qc /\ X <> [] /\ Y <> []).
Proof.
  split.
  - intros i j H. split; [|split; discriminate]. unfold inertia. simpl. replace (qn 2) with (qz 2) by reflexivity.
    replace (qn 1) with 1%Qc by reflexivity. field. split; discriminate.
  - intros X Y v (-> & H1 & H2). split; [|auto]. unfold inertia. rewrite !pair_sum_app, !app_length, (Nat.add_comm (length (map fst Y))), (cross_sum_sym D0 (map fst Y)).
    f_equal. replace (pair_sum D0 (map fst Y) + pair_sum D0 (map fst X))%Qc with (pair_sum D0 (map fst X) + pair_sum D0 (map fst Y))%Qc by ring.
    ring.
  - intros X Y A dl dr h NX NY NA (-> & _) (-> & _) (-> & _). split.
    2:{ split; auto. destruct X; [congruence|discriminate]. }
    unfold inertia. rewrite !map_app, !halve_fst, !pair_sum_app, cross_app, !qsum_app, !app_length, !map_length, !qn_add.
    unfold link_dist. rewrite !qn_add.
    pose proof (len_pos _ NX). pose proof (len_pos _ NY). pose proof (len_pos _ NA).
    field. repeat split; apply Qc_lt_ne; qlra.
Qed.
