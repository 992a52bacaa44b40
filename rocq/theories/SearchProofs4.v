(** Counting, distinct models, final forms. *)
From Coq Require Import String.
From Verif Require Import Base SearchModel SearchSpec SearchProofs SearchProofs2 SearchProofs3.
From Coq Require Import ZifyBool.
Local Open Scope nat_scope.

(** ** Distinct positions are distinct models *)
Lemma concat_nodup_inj (P : list (list Z)) : NoDup (concat P) ->
  forall p i p' i', p < length P -> p' < length P ->
    i < length (nth p P []) -> i' < length (nth p' P []) ->
    nth i (nth p P []) 0%Z = nth i' (nth p' P []) 0%Z -> p = p' /\ i = i'.
Proof.
  induction P as [|l P IH]; intros HN p i p' i' Hp Hp' Hi Hi' E; [simpl in Hp; lia|].
  simpl in HN.
  assert (HNl : NoDup l /\ NoDup (concat P) /\ forall x, In x l -> ~ In x (concat P)).
  { clear - HN. induction l as [|a l IH]; simpl in *.
    - split; [constructor|]. split; auto.
    - inversion HN as [|? ? Ha HN']; subst. destruct (IH HN') as (H1 & H2 & H3).
      rewrite in_app_iff in Ha. split; [constructor; tauto|]. split; auto.
      intros x [<-|Hx]; [tauto|auto]. }
  destruct HNl as (H1 & H2 & H3).
  assert (Hin : forall q j, q < length P -> j < length (nth q P []) -> In (nth j (nth q P []) 0%Z) (concat P)).
  { intros q j Hq Hj. apply in_concat. exists (nth q P []). split; apply nth_In; auto. }
  destruct p as [|p], p' as [|p']; simpl in *.
  - split; auto. rewrite NoDup_nth in H1. apply (H1 i i'); eauto.
  - exfalso. apply (H3 (nth i l 0%Z)); [apply nth_In; auto|]. rewrite E. apply Hin; auto; lia.
  - exfalso. apply (H3 (nth i' l 0%Z)); [apply nth_In; auto|]. rewrite <- E. apply Hin; auto; lia.
  - destruct (IH H2 p i p' i') as [-> ->]; auto; lia.
Qed.

Lemma ss_eq (l : list (nat * nat)) : forall l',
  StronglySorted (fun a b => fst a < fst b) l -> StronglySorted (fun a b => fst a < fst b) l' ->
  (forall x, In x l <-> In x l') -> l = l'.
Proof.
  induction l as [|a l IH]; intros [|b l'] H1 H2 H; auto.
  - exfalso. apply (H b); left; auto.
  - exfalso. apply (H a); left; auto.
  - inversion H1 as [|? ? H1' F1]; inversion H2 as [|? ? H2' F2]; subst.
    rewrite Forall_forall in F1, F2.
    assert (a = b).
    { pose proof (proj1 (H a) (or_introl eq_refl)) as [E|Ha]; auto.
      pose proof (proj2 (H b) (or_introl eq_refl)) as [E|Hb]; auto.
      specialize (F1 _ Hb); specialize (F2 _ Ha). lia. }
    subst b. f_equal. apply IH; auto. intros x. split; intros Hx.
    + destruct (proj1 (H x) (or_intror Hx)) as [<-|]; auto. specialize (F1 _ Hx). lia.
    + destruct (proj2 (H x) (or_intror Hx)) as [<-|]; auto. specialize (F2 _ Hx). lia.
Qed.

Lemma combine_ss ps : forall is_ : list nat, StronglySorted lt ps ->
  StronglySorted (fun a b => fst a < fst b) (combine ps is_).
Proof.
  induction ps as [|p ps IH]; intros [|i is_] H; simpl; try constructor.
  - inversion H; auto.
  - inversion H as [|? ? _ HF]; subst. rewrite Forall_forall in *. intros [a b] Hab.
    apply in_combine_l in Hab. apply HF in Hab. exact Hab.
Qed.

Lemma choice_perm_eq P k fx ps is_ ps' is' : NoDup (concat P) ->
  choice P k fx ps is_ -> choice P k fx ps' is' ->
  Permutation (model_at P ps is_) (model_at P ps' is') -> ps = ps' /\ is_ = is'.
Proof.
  intros HN (L1 & S1 & B1 & _ & F1) (L2 & S2 & B2 & _ & F2) HP.
  assert (Hb : forall ps is_, Forall (fun p => p < length P) ps ->
      Forall2 (fun p i => i < length (nth p P [])) ps is_ ->
      forall p i, In (p, i) (combine ps is_) -> p < length P /\ i < length (nth p P [])).
  { clear. intros ps is_ HF H. induction H as [|p i ps is_ Hi H IH]; simpl; [tauto|].
    inversion HF; subst. intros q j [E|Hq]; [injection E as <- <-; auto|auto]. }
  assert (Hsub : forall ps is_ ps' is', Forall (fun p => p < length P) ps -> Forall (fun p => p < length P) ps' ->
      Forall2 (fun p i => i < length (nth p P [])) ps is_ ->
      Forall2 (fun p i => i < length (nth p P [])) ps' is' ->
      Permutation (model_at P ps is_) (model_at P ps' is') ->
      forall x, In x (combine ps is_) -> In x (combine ps' is')).
  { clear - HN Hb. intros ps is_ ps' is' B1 B2 F1 F2 HP [p i] Hx.
    assert (Hm : In (nth i (nth p P []) 0%Z) (model_at P ps' is')).
    { eapply Permutation_in; [exact HP|]. unfold model_at. apply in_map_iff. exists (p, i). auto. }
    unfold model_at in Hm. apply in_map_iff in Hm. destruct Hm as ([p' i'] & E & Hx'). simpl in E.
    destruct (Hb _ _ B1 F1 _ _ Hx), (Hb _ _ B2 F2 _ _ Hx').
    destruct (concat_nodup_inj P HN p' i' p i) as [-> ->]; auto. }
  assert (E : combine ps is_ = combine ps' is').
  { apply ss_eq; try (apply combine_ss; auto). intros x; split; eapply Hsub; eauto using Permutation_sym. }
  assert (E1 : length ps = length is_) by (eapply Forall2_len; eauto).
  assert (E2 : length ps' = length is') by (eapply Forall2_len; eauto).
  split.
  - rewrite <- (map_fst_combine_eq ps is_ E1). rewrite E. apply map_fst_combine_eq; auto.
  - rewrite <- (map_snd_combine_eq ps is_ E1). rewrite E. apply map_snd_combine_eq; auto.
Qed.

(** ** Number of positions *)
Lemma fold_mul P ps : forall m, fold_left (fun m p => m * length (nth p P [])) ps m = m * prodl (map (plen P) ps).
Proof.
  induction ps as [|p ps IH]; intros m; simpl; [lia|]. rewrite IH. unfold plen. lia.
Qed.

Lemma prod_sizes_eq P ps : prod_sizes P ps = prodl (map (plen P) ps).
Proof. unfold prod_sizes. rewrite fold_mul. lia. Qed.

Lemma prodl_app a b : prodl (a ++ b) = prodl a * prodl b.
Proof. induction a as [|x a IH]; simpl; [lia|]. rewrite IH. lia. Qed.

Lemma list_sum_map_mul {A} (f : A -> nat) m l : list_sum (map (fun x => m * f x) l) = m * list_sum (map f l).
Proof. induction l as [|x l IH]; simpl; [lia|]. rewrite IH. lia. Qed.

Lemma combs_sum P d : forall lo k,
  list_sum (map (fun r => prodl (map (plen P) r)) (combs d lo k)) = esym k (map (plen P) (seq lo d)).
Proof.
  induction d as [|d IH]; intros lo [|k]; simpl; auto.
  rewrite map_app, list_sum_app, map_map, IH. simpl map.
  rewrite list_sum_map_mul, IH. reflexivity.
Qed.

Lemma plen_seq P : map (plen P) (seq 0 (length P)) = map (@length Z) P.
Proof.
  apply (nth_ext _ _ 0 0); rewrite !map_length, seq_length; auto.
  intros i Hi. rewrite (nth_indep _ 0 (plen P 0)) by (rewrite map_length, seq_length; auto).
  rewrite map_nth, seq_nth by auto. simpl.
  rewrite (nth_indep _ 0 (length (@nil Z))) by (rewrite map_length; auto).
  rewrite map_nth. reflexivity.
Qed.

Section Count.
  Variable c : cfg.
  Hypothesis Hne : Forall (fun l => l <> []) (parts c).
  Hypothesis Hk : 1 <= kk c <= length (parts c).
  Hypothesis Hfx : fixG c <= kk c.
  Hypothesis Hcl : closed_cfg c.

  Lemma count1_run l : forall x cnt fuel,
    Run (fun ps => next ps (kk c) (length (parts c)) (fixG c)) x l None -> length l <= fuel ->
    count_loop1 c fuel x cnt = Ok (cnt + list_sum (map (prod_sizes (parts c)) (tl l))).
  Proof.
    induction l as [|a l IH]; intros x cnt fuel HR Hf.
    - apply run_head in HR. destruct HR as (? & HR); discriminate.
    - destruct fuel as [|f]; [simpl in Hf; lia|].
      pose proof (run_head _ _ _ _ HR) as [tl0 E]. injection E as -> ->.
      inversion HR as [? Ha Hl Ho|? b ? ? Hs HR' E1]; subst; simpl.
      + rewrite Ho. simpl. f_equal; lia.
      + rewrite Hs. rewrite (IH _ _ _ HR') by (simpl in Hf; lia).
        pose proof (run_head _ _ _ _ HR') as [tl1 E]. subst tl0. simpl. f_equal; lia.
  Qed.

  Lemma count2_run l : forall x cnt fuel,
    Run (mstep c) x l None ->
    (forall y, In y l -> move_next c (fst y) (snd y) =
        match mstep c y with Some (ps', is') => MTrue ps' is' | None => MFalse end) ->
    (forall y, In y l -> okpos c y /\ length (fst y) = kk c /\ length (snd y) = kk c /\
                         Forall (fun p => p < length (parts c)) (fst y) /\
                         Forall2 (fun p i => i < length (nth p (parts c) [])) (fst y) (snd y)) ->
    length l <= fuel ->
    count_loop2 c fuel (fst x) (snd x) cnt = Ok (cnt + length (filter (noskip c) (tl l))).
  Proof.
    induction l as [|a l IH]; intros x cnt fuel HR Hm Hok Hf.
    - apply run_head in HR. destruct HR as (? & HR); discriminate.
    - destruct fuel as [|f]; [simpl in Hf; lia|].
      pose proof (run_head _ _ _ _ HR) as [tl0 E]. injection E as -> ->.
      simpl. rewrite Hm by (left; reflexivity).
      inversion HR as [? Ha Hl Ho|? b ? ? Hs HR' E1]; subst.
      + rewrite Ho. simpl. f_equal; lia.
      + rewrite Hs. destruct b as [ps' is'].
        pose proof (run_head _ _ _ _ HR') as [tl1 E]. subst tl0. simpl.
        specialize (IH (ps', is')). simpl in IH. simpl in Hf.
        assert (IH' : forall cnt, count_loop2 c f ps' is' cnt = Ok (cnt + length (filter (noskip c) tl1))).
        { intros cnt'. apply IH; auto; [intros y Hy; apply Hm; simpl; tauto|intros y Hy; apply Hok; simpl; tauto|lia]. }
        replace (noskip c (ps', is')) with (negb (skip_pos c ps' is')) by reflexivity.
        destruct (Hok (ps', is')) as (Hcur & Hlp & Hli & HF & H2); [simpl; auto|].
        unfold okpos in Hcur. simpl in *. unfold skip_pos. rewrite Hcur.
        destruct ps' as [|p ps']; [simpl in Hlp; lia|].
        inversion H2 as [|? i ? tl Hi Ht]; subst. inversion HF as [|? ? Hp HF']; subst. simpl nth.
        rewrite (nth_error_nth' (parts c) []) by auto.
        rewrite (nth_error_nth' _ 0%Z) by auto.
        unfold model_at. simpl.
        destruct (checkEmpty c); simpl.
        * destruct (lenTargets c <=? nth i (nth p (parts c) []) 0)%Z; simpl; rewrite IH'; f_equal; lia.
        * rewrite IH'. f_equal; lia.
  Qed.

  Lemma all_pos_sum : (fixI c = 0)%Z ->
    length (all_pos c) = list_sum (map (prod_sizes (parts c)) (all_ps c)).
  Proof.
    intros H0. unfold all_pos.
    assert (E : filter (good c) (all_ps c) = all_ps c).
    { assert (Hg : forall x, good c x = true) by (intros; unfold good; rewrite H0; reflexivity).
      induction (all_ps c) as [|a l IH]; simpl; auto. rewrite Hg, IH; auto. }
    rewrite E. clear E.
    assert (Hlen : forall ps, In ps (all_ps c) -> length (prods (esz (parts c) (fixI c) ps)) = prod_sizes (parts c) ps).
    { intros ps Hps. rewrite prods_count, prod_sizes_eq. f_equal.
      destruct ps as [|p ps]; simpl; auto. unfold flen. rewrite H0. reflexivity. }
    induction (all_ps c) as [|a l IH]; simpl; auto.
    rewrite app_length, map_length, IH, Hlen; simpl; auto.
    intros ps Hps. apply Hlen; right; auto.
  Qed.

  Lemma all_pos_count : (fixI c = 0)%Z ->
    length (all_pos c) = model_count (map (@length Z) (parts c)) (kk c) (fixG c).
  Proof.
    intros H0. rewrite all_pos_sum by auto. unfold all_ps, model_count. rewrite map_map.
    erewrite map_ext. 2:{ intros r. rewrite prod_sizes_eq, map_app, prodl_app. reflexivity. }
    rewrite list_sum_map_mul. rewrite <- plen_seq.
    set (n := length (parts c)) in *.
    replace (seq 0 n) with (seq 0 (fixG c) ++ seq (fixG c) (n - fixG c)).
    2:{ rewrite <- seq_app. f_equal. lia. }
    rewrite map_app, firstn_app, skipn_app, map_length, seq_length, Nat.sub_diag. simpl.
    rewrite firstn_all2, skipn_all2 by (rewrite map_length, seq_length; lia).
    rewrite app_nil_r. simpl. rewrite <- combs_sum. reflexivity.
  Qed.

  Lemma get_count_eq fuel : length (all_pos c) <= fuel -> length (all_ps c) <= fuel ->
    get_count c fuel = Ok (length (keep1 c (all_pos c))).
  Proof.
    intros Hf1 Hf2. unfold get_count.
    destruct (Nat.ltb_spec (length (parts c)) (kk c)); [lia|].
    destruct (all_pos_head c Hne Hk Hfx Hcl) as [t Et].
    destruct ((fixI c =? 0)%Z && negb (checkEmpty c)) eqn:E.
    - apply andb_true_iff in E. destruct E as [E1 E2].
      assert (H0 : (fixI c = 0)%Z) by lia.
      pose proof (next_run c Hk Hfx) as HR.
      rewrite (count1_run _ _ _ _ HR) by auto.
      replace (length (keep1 c (all_pos c))) with (length (all_pos c)).
      + rewrite all_pos_sum by auto.
        pose proof (run_head _ _ _ _ HR) as [tl0 Eh]. rewrite Eh. simpl. reflexivity.
      + rewrite Et. simpl. f_equal.
        assert (Hns : forall x, noskip c x = true).
        { intros x. unfold noskip, skip_pos. destruct (current _ _ _); auto. apply negb_true_iff in E2. rewrite E2. reflexivity. }
        clear Et. induction t as [|x t IH]; simpl; auto. rewrite Hns. simpl. auto.
    - pose proof (mstep_run c Hne Hk Hfx Hcl) as HR.
      pose proof (count2_run (all_pos c) (seq 0 (kk c), repeat 0 (kk c)) 1 fuel HR) as HC.
      simpl in HC. rewrite HC; auto.
      + rewrite Et. reflexivity.
      + intros [ps is_] Hy. simpl. apply move_next_eq; auto. apply all_pos_vs; auto.
      + intros [ps is_] Hy. split; [apply all_pos_okpos; auto|].
        apply (all_pos_choice c Hk Hfx Hcl) in Hy. destruct Hy as ((H1 & _ & H3 & _ & H5) & _). simpl.
        pose proof (Forall2_len _ _ _ H5). repeat split; auto; lia.
  Qed.
End Count.
