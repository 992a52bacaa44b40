(** Properties C45, C46, C48, C49: summaries of a search. *)
From Verif Require Import Num MomentsModel MomentsSpec MomentsProofs SummaryModel SummarySpec SummaryProofs.
Local Open Scope Qc_scope.

(** C45: numbering the pushed estimations and ranking them (better metric first, ties by push order),
    the list of bests is the first K of that ranking. *)
Theorem c45_best_list pos K h : (0 < K)%Z ->
  exists L, Permutation L (combine (seq 0 (length h)) h) /\ StronglySorted (ranks_before pos) L /\
    bests_of pos K h = map snd (firstn (Z.to_nat K) L).
Proof. exact (bests_top pos K h). Qed.
Print Assumptions c45_best_list.

Definition ex_keep id m w := {| k_id := id; k_metric := qz m; k_weight := qz w; k_endo := [0%nat]; k_exo := [2%nat] |}.
Example c45_nonvacuous : map k_id (bests_of false 2 [ex_keep 1 5 0; ex_keep 2 3 0; ex_keep 3 5 0; ex_keep 4 3 0]) = [2; 4]%Z /\
  map k_id (bests_of true 3 [ex_keep 1 5 0; ex_keep 2 3 0; ex_keep 3 5 0; ex_keep 4 3 0]) = [1; 3; 2]%Z.
Proof. split; reflexivity. Qed.

(** C46: when weight and metric agree on which model is better, CombineBests returns the K models of
    largest weight among all models pushed anywhere. *)
Theorem c46_combined_bests idx (pos : bool) K hs : (0 < K)%Z -> hs <> [] ->
  (forall a b, In a (models_at idx hs) -> In b (models_at idx hs) ->
     ((if pos then k_metric b < k_metric a else k_metric a < k_metric b) <-> k_weight b < k_weight a)) ->
  exists R, combine_bests idx K (summaries_of pos K hs) = Ok R /\
    top k_weight (Z.to_nat K) (models_at idx hs) R.
Proof.
  intros HK Hn H. apply combine_top; auto. intros a b Ha Hb. rewrite better_lt. auto.
Qed.
Print Assumptions c46_combined_bests.

(** ... so the list of weights is the same for every distribution of the models over searchers and
    every order of searchers and of pushes. *)
Theorem c46_schedule_independent idx (pos : bool) K hs hs' : (0 < K)%Z -> hs <> [] -> hs' <> [] ->
  Permutation (models_at idx hs) (models_at idx hs') ->
  (forall a b, In a (models_at idx hs) -> In b (models_at idx hs) ->
     ((if pos then k_metric b < k_metric a else k_metric a < k_metric b) <-> k_weight b < k_weight a)) ->
  exists R R', combine_bests idx K (summaries_of pos K hs) = Ok R /\
    combine_bests idx K (summaries_of pos K hs') = Ok R' /\ map k_weight R = map k_weight R'.
Proof.
  intros HK Hn Hn' HP H.
  destruct (c46_combined_bests idx pos K hs HK Hn H) as (R & E & T).
  destruct (c46_combined_bests idx pos K hs' HK Hn') as (R' & E' & T').
  { intros a b Ha Hb. apply H; eapply Permutation_in; try (symmetry; exact HP); auto. }
  exists R, R'. repeat split; auto. eapply top_unique; [|exact T|exact T'].
  apply Permutation_map. exact HP.
Qed.
Print Assumptions c46_schedule_independent.

(** ... and when no two of these models have the same weight, the very same list of models. *)
Theorem c46_same_models idx (pos : bool) K hs hs' : (0 < K)%Z -> hs <> [] -> hs' <> [] ->
  Permutation (models_at idx hs) (models_at idx hs') ->
  (forall a b, In a (models_at idx hs) -> In b (models_at idx hs) ->
     ((if pos then k_metric b < k_metric a else k_metric a < k_metric b) <-> k_weight b < k_weight a)) ->
  (forall a b, In a (models_at idx hs) -> In b (models_at idx hs) -> k_weight a = k_weight b -> a = b) ->
  exists R, combine_bests idx K (summaries_of pos K hs) = Ok R /\
    combine_bests idx K (summaries_of pos K hs') = Ok R.
Proof.
  intros HK Hn Hn' HP H Hinj.
  destruct (c46_combined_bests idx pos K hs HK Hn H) as (R & E & T).
  destruct (c46_combined_bests idx pos K hs' HK Hn') as (R' & E' & T').
  { intros a b Ha Hb. apply H; eapply Permutation_in; try (symmetry; exact HP); auto. }
  assert (EW : map k_weight R = map k_weight R').
  { eapply top_unique; [|exact T|exact T']. apply Permutation_map. exact HP. }
  exists R. split; auto. rewrite E'. f_equal. symmetry.
  destruct T as (rest & HP1 & _), T' as (rest' & HP2 & _).
  assert (I1 : incl R (models_at idx hs)).
  { intros x Hx. eapply Permutation_in; [symmetry; exact HP1|]. apply in_app_iff; auto. }
  assert (I2 : incl R' (models_at idx hs)).
  { intros x Hx. eapply Permutation_in; [symmetry; exact HP|].
    eapply Permutation_in; [symmetry; exact HP2|]. apply in_app_iff; auto. }
  clear -EW I1 I2 Hinj. revert R' EW I2. induction R as [|a R IH]; intros [|b R'] EW I2; try discriminate; auto.
  simpl in EW. injection EW as E1 E2. f_equal.
  - apply Hinj; auto with datatypes.
  - apply IH; auto; intros x Hx; [apply I1|apply I2]; right; auto.
Qed.
Print Assumptions c46_same_models.

Example c46_nonvacuous :
  let a := ex_keep 1 5 2 in let b := ex_keep 2 3 4 in let c := ex_keep 3 1 9 in let d := ex_keep 4 4 3 in
  combine_bests (0,0,0)%Z 2 (summaries_of false 2 [((0,0,0)%Z, [a; b; c]); ((1,0,0)%Z, [ex_keep 9 0 100]); ((0,0,0)%Z, [d])]) = Ok [c; b] /\
  combine_bests (0,0,0)%Z 2 (summaries_of false 2 [((0,0,0)%Z, [d; a]); ((0,0,0)%Z, [c]); ((0,0,0)%Z, [b])]) = Ok [c; b].
Proof. split; vm_compute; reflexivity. Qed.

(** With K <= 0 nothing is returned. *)
Theorem c46_nothing_kept idx K ss : (K <= 0)%Z -> ss <> [] -> combine_bests idx K ss = Ok [].
Proof.
  intros H Hn. unfold combine_bests. destruct ss; [congruence|]. simpl.
  destruct (Z.leb_spec K 0); [reflexivity|lia].
Qed.
Print Assumptions c46_nothing_kept.

(** The list of all models (option KeepAll) at an index is every model pushed there, none from any
    other index. *)
Theorem c46_all_models idx hs : hs <> [] -> combine_all_models idx hs = Ok (models_at idx hs).
Proof. exact (combine_all_eq idx hs). Qed.
Print Assumptions c46_all_models.

(** C48: over all pushed intervals (mean - m sd, mean + m sd) of all searchers, the lower bound is the
    least lower end (all doubles are at most DBL_MAX), the upper bound the greatest upper end - as long
    as one upper end is at least DBL_MIN (the smallest positive normal double). *)
Theorem c48_lower_bound hs e : In e (concat hs) -> Forall (fun e => fst e <= dbl_max) (concat hs) ->
  is_min (fst (combine_bounds (map bounds_of hs))) (map fst (concat hs)).
Proof.
  intros He HF. destruct (combine_bounds_eq hs) as ((H1 & H2) & _). inversion H2; subst.
  split; auto. destruct H1 as [H1|H1]; auto. rewrite <- H1 in *.
  rewrite Forall_forall in HF. pose proof (HF e He) as Hm.
  rewrite Forall_map, Forall_forall in H4. specialize (H4 e He).
  rewrite (Qcle_antisym _ _ H4 Hm). apply in_map; auto.
Qed.
Print Assumptions c48_lower_bound.

Theorem c48_upper_bound hs e : In e (concat hs) -> dbl_min <= snd e ->
  is_max (snd (combine_bounds (map bounds_of hs))) (map snd (concat hs)).
Proof.
  intros He Hp. destruct (combine_bounds_eq hs) as (_ & (H1 & H2)). inversion H2; subst.
  split; auto. destruct H1 as [H1|H1]; auto. rewrite <- H1 in *.
  rewrite Forall_map, Forall_forall in H4. specialize (H4 e He).
  rewrite (Qcle_antisym _ _ Hp H4). apply in_map; auto.
Qed.
Print Assumptions c48_upper_bound.

Example c48_nonvacuous : combine_bounds (map bounds_of [[(qz 1, qz 3)]; [(qz (-2), qz 0); (qz 4, qz 5)]]) = (qz (-2), qz 5).
Proof. reflexivity. Qed.

(** When every upper end is negative (every coefficient is significantly negative) the reported
    upper bound is DBL_MIN, a positive number that no estimation reached: for all such inputs. *)
Theorem c48_upper_bound_negative_refuted hs e :
  In e (concat hs) -> Forall (fun e => snd e <= 0) (concat hs) ->
  snd (combine_bounds (map bounds_of hs)) = dbl_min /\
  ~ is_max (snd (combine_bounds (map bounds_of hs))) (map snd (concat hs)).
Proof.
  intros He HF. destruct (combine_bounds_eq hs) as (_ & (H1 & H2)). inversion H2; subst.
  assert (HP : 0 < dbl_min) by reflexivity.
  assert (E : snd (combine_bounds (map bounds_of hs)) = dbl_min).
  { destruct H1 as [H1|H1]; auto. apply in_map_iff in H1. destruct H1 as (x & E & Hx).
    rewrite Forall_forall in HF. specialize (HF x Hx). rewrite E in HF.
    exfalso. apply (Qclt_not_le _ _ HP). eapply Qcle_trans; eauto. }
  split; auto. intros (K1 & _). rewrite E in K1. apply in_map_iff in K1. destruct K1 as (x & Ex & Hx).
  rewrite Forall_forall in HF. specialize (HF x Hx). rewrite Ex in HF. apply (Qclt_not_le _ _ HP HF).
Qed.
Print Assumptions c48_upper_bound_negative_refuted.
Example c48_negative_witness : combine_bounds (map bounds_of [[(qz (-6), qz (-4))]]) = (qz (-6), dbl_min).
Proof. reflexivity. Qed.

(** C49: the inclusion entry of variable i over all searchers holds the number of the models that
    contain it and the mean of their weights. *)
Theorem c49_inclusion_weights n i hs : (i < n)%nat -> hs <> [] ->
  Forall (Forall (fun e => Forall (fun i => (i < n)%nat) (k_endo e ++ k_exo e))) hs ->
  exists infos m, map (fun h => incl_of n h) hs = map Ok infos /\ combine_incl i infos = Ok m /\
    let ws := weights_with i (concat hs) in
    cnt m = Z.of_nat (length ws) /\
    get_mean m = if (length ws =? 0)%nat then None else Some (qsum ws / qn (length ws)).
Proof.
  intros Hi Hn HF. destruct (combine_incl_exact n i hs Hi Hn HF) as (infos & H1 & H2).
  exists infos, (incl_state (weights_with i (concat hs))). split; auto. split; auto.
  set (ws := weights_with i (concat hs)). unfold incl_state, statc, stat, get_mean. cbn [cnt sw mean].
  rewrite map_length. split; auto.
  assert (ET : total (map (fun w => (w, 1)) ws) = qn (length ws)).
  { unfold total. rewrite map_map. cbn [snd]. clear. induction ws as [|w ws IH]; [reflexivity|].
    cbn [map length]. rewrite qn_S. change (qsum (1 :: map (fun _ : Qc => 1) ws)) with (1 + qsum (map (fun _ : Qc => 1) ws)).
    rewrite IH. ring. }
  rewrite ET. destruct ws as [|w ws0] eqn:E.
  - reflexivity.
  - rewrite <- E in *. assert (HP : 0 < qn (length ws)) by (rewrite E; apply qn_pos; simpl; lia).
    destruct (qeqb_spec (qn (length ws)) 0) as [E0|E0]; [rewrite E0 in HP; discriminate HP|].
    replace (length ws =? 0)%nat with false by (rewrite E; reflexivity).
    unfold wmean. rewrite ET. f_equal. f_equal. rewrite map_map. cbn [fst snd].
    f_equal. clear. induction ws as [|w ws IH]; simpl; auto. rewrite IH. f_equal. ring.
Qed.
Print Assumptions c49_inclusion_weights.

Example c49_nonvacuous :
  let h1 := [ex_keep 1 5 2; ex_keep 2 3 4] in let h2 := [ex_keep 3 1 9] in
  exists i1 i2 m, incl_of 3 h1 = Ok i1 /\ incl_of 3 h2 = Ok i2 /\ combine_incl 2 [i1; i2] = Ok m /\
   cnt m = 3%Z /\ get_mean m = Some (qz 5).
Proof.
  do 3 eexists. repeat split; [vm_compute; reflexivity ..|].
  vm_compute. repeat first [apply Qc_is_canon; reflexivity | f_equal].
Qed.
