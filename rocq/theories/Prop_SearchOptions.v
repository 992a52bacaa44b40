(** C109: the options of a search are made consistent before it. *)
From Coq Require Import String Lia Lra ZifyBool.
From Verif Require Import RegProofs2.
Local Open Scope Z_scope.

Lemma update_fields random ts m m' : metrics_update random ts m = Ok m' ->
  m_in m' = m_in m /\ m_out m' = m_out m /\ m_pos m' = map gof_positive (m_in m) ++ map sc_positive (m_out m) /\ m_simfix m' = m_simfix m /\ m_trainfix m' = m_trainfix m /\
  m_ratio m' = (if 0 <? m_trainfix m then 0%R else m_ratio m) /\ m_seed m' = (if random then m_seed m else 0) /\ m_horizons m' = (if ts then m_horizons m else []) /\ m_ts m' = ts /\
  m_inidx m' = fold_left (fun a k => insert gof_eqb a k (index_of gof_eqb (m_in m) k)) all_gof (m_inidx m) /\
  m_outidx m' = fold_left (fun a k => insert sc_eqb a k (index_of sc_eqb (m_out m) k)) all_sc (m_outidx m).
Proof.
  unfold metrics_update. cbv zeta. destruct (_ && _); [discriminate|]. destruct (_ && _); [discriminate|]. destruct (_ && _); [discriminate|].
  intros H. apply (f_equal (fun o => match o with Ok v => v | _ => m' end)) in H. cbv beta iota in H. subst m'. repeat split.
Qed.

(** Options are refused exactly if: scores are asked for without simulations; or there are simulations but no training sample (not for time series); or, for time series, there are
    scores without horizons or horizons without scores. *)
Theorem c109_refused : forall random ts m,
  (metrics_update random ts m = Throw <->
    (m_out m <> [] /\ m_simfix m <= 0) \/
    (ts = false /\ 0 < m_simfix m /\ m_trainfix m = 0 /\ m_ratio m = 0%R) \/
    (ts = true /\ (m_horizons m = [] <-> m_out m <> []))) /\
  metrics_update random ts m <> UB.
Proof.
  intros random ts m. unfold metrics_update. cbv zeta.
  assert (Z00 : forall (A : Type) (x y : A), (if Req_EM_T 0 0 then x else y) = x) by (intros A x y; destruct (Req_EM_T 0 0); [reflexivity|congruence]).
  destruct (m_out m) as [|s0 l0] eqn:Eo, ts, (0 <? m_simfix m) eqn:Sf; cbn [negb andb orb].
  - destruct (m_horizons m) as [|h0 hs] eqn:Eh; cbn [negb andb orb]; (split; [split|]); intros H; try discriminate; try reflexivity.
    + exfalso. decompose [and or] H; try congruence; try lia. tauto.
    + right; right. split; [reflexivity|]. split; congruence.
  - destruct (m_horizons m) as [|h0 hs] eqn:Eh; cbn [negb andb orb]; (split; [split|]); intros H; try discriminate; try reflexivity.
    + exfalso. decompose [and or] H; try congruence; try lia. tauto.
    + right; right. split; [reflexivity|]. split; congruence.
  - destruct (m_trainfix m =? 0) eqn:T0; cbn [negb andb orb].
    + replace (0 <? m_trainfix m) with false by lia. destruct (Req_EM_T (m_ratio m) 0) as [Rz|Rz]; (split; [split|]); intros H; try discriminate; try reflexivity.
      * right; left. repeat split; [lia|lia|exact Rz].
      * exfalso. decompose [and or] H; congruence.
    + (split; [split|]); intros H; try discriminate. exfalso. decompose [and or] H; try congruence; lia.
  - (split; [split|]); intros H; try discriminate. exfalso. decompose [and or] H; try congruence; lia.
  - destruct (m_horizons m) as [|h0 hs] eqn:Eh; cbn [negb andb orb]; (split; [split|]); intros H; try discriminate; try reflexivity.
    + right; right. split; [reflexivity|]. split; congruence.
    + exfalso. destruct H as [[_ H]|[(H & _)|(_ & H)]]; [lia|discriminate|]. assert (K : h0 :: hs = []) by (apply H; discriminate). discriminate.
  - (split; [split|]); intros H; try discriminate; try reflexivity. left. split; [discriminate|lia].
  - destruct (m_trainfix m =? 0) eqn:T0; cbn [negb andb orb].
    + replace (0 <? m_trainfix m) with false by lia. destruct (Req_EM_T (m_ratio m) 0) as [Rz|Rz]; (split; [split|]); intros H; try discriminate; try reflexivity.
      * right; left. repeat split; [lia|lia|exact Rz].
      * exfalso. decompose [and or] H; try congruence; lia.
    + (split; [split|]); intros H; try discriminate. exfalso. decompose [and or] H; try congruence; lia.
  - (split; [split|]); intros H; try discriminate; try reflexivity. left. split; [discriminate|lia].
Qed.
(** What accepted options are: one orientation for each metric (larger is better exactly for the area under ROC, the sign and the direction), in the order of the metrics;
    the seed is zero unless the training sample is random; a fixed training size has precedence over the ratio; no horizons without time series. *)
Theorem c109_accepted : forall random ts m m', metrics_update random ts m = Ok m' ->
  m_in m' = m_in m /\ m_out m' = m_out m /\ List.length (m_pos m') = (List.length (m_in m) + List.length (m_out m))%nat /\
  (forall i f, nth_error (m_in m) i = Some f -> nth_error (m_pos m') i = Some (match f with GAuc => true | _ => false end)) /\
  (forall i s, nth_error (m_out m) i = Some s -> nth_error (m_pos m') (List.length (m_in m) + i) = Some (match s with SAuc | SSign | SDirection => true | _ => false end)) /\
  (random = false -> m_seed m' = 0) /\ (random = true -> m_seed m' = m_seed m) /\
  (0 < m_trainfix m -> m_ratio m' = 0%R) /\ (m_trainfix m <= 0 -> m_ratio m' = m_ratio m) /\ (ts = false -> m_horizons m' = []) /\
  (m_out m <> [] -> 0 < m_simfix m').
Proof.
  intros random ts m m' H. pose proof (update_fields _ _ _ _ H) as (A1 & A2 & A3 & A4 & A5 & A6 & A7 & A8 & A9 & _).
  split; [exact A1|]. split; [exact A2|]. split; [rewrite A3, app_length, !map_length; reflexivity|]. split; [|split; [|split; [|split; [|split; [|split; [|split]]]]]].
  - intros i f N. rewrite A3, nth_error_app1 by (rewrite map_length; apply nth_error_Some; congruence). rewrite nth_error_map, N. destruct f; reflexivity.
  - intros i s N. rewrite A3, nth_error_app2 by (rewrite map_length; lia). rewrite map_length. replace (List.length (m_in m) + i - List.length (m_in m))%nat with i by lia.
    rewrite nth_error_map, N. destruct s; reflexivity.
  - intros ->. exact A7.
  - intros ->. exact A7.
  - intros L. rewrite A6. replace (0 <? m_trainfix m) with true by lia. reflexivity.
  - intros L. rewrite A6. replace (0 <? m_trainfix m) with false by lia. reflexivity.
  - intros ->. exact A8.
  - intros N. rewrite A4. unfold metrics_update in H. cbv zeta in H. destruct (m_out m) as [|s l]; [congruence|]. destruct (0 <? m_simfix m) eqn:S; [lia|]. discriminate.
Qed.
(** The position of each metric in the list, -1 if it is not there: for options that are prepared once. *)
Theorem c109_positions_partial : forall random ts m m', m_inidx m = [] -> m_outidx m = [] -> metrics_update random ts m = Ok m' ->
  (forall f, exists n, at_key gof_eqb (m_inidx m') f = Ok n /\ ((n = -1 /\ ~ In f (m_in m)) \/ (0 <= n /\ nth_error (m_in m) (Z.to_nat n) = Some f))) /\
  (forall s, exists n, at_key sc_eqb (m_outidx m') s = Ok n /\ ((n = -1 /\ ~ In s (m_out m)) \/ (0 <= n /\ nth_error (m_out m) (Z.to_nat n) = Some s))).
Proof.
  intros random ts m m' E1 E2 H. split; intros k.
  - destruct (update_in _ _ _ _ k H E1) as [A B]. rewrite B in A. eexists. split; [exact A|].
    destruct (index_of_spec gof_eqb (m_in m) k gof_eqb_eq) as [[-> N]|(n & -> & N & _)]; [left; split; [reflexivity|exact N]|right; split; [lia|rewrite Nat2Z.id; exact N]].
  - destruct (update_out _ _ _ _ k H E2) as [A B]. rewrite B in A. eexists. split; [exact A|].
    destruct (index_of_spec sc_eqb (m_out m) k sc_eqb_eq) as [[-> N]|(n & -> & N & _)]; [left; split; [reflexivity|exact N]|right; split; [lia|rewrite Nat2Z.id; exact N]].
Qed.
(** Not for options that are used for a second search with other metrics: the positions stay those of the first search, and the second search writes outside of its results. *)
Definition with_in (m : mopts) (l : list gof) : mopts := Mopts l (m_out m) (m_pos m) (m_trainfix m) (m_ratio m) (m_simfix m) (m_seed m) (m_horizons m) (m_ts m) (m_inidx m) (m_outidx m).
Theorem c109_reuse_refuted : exists m0 m1 m2, m_inidx m0 = [] /\ m_outidx m0 = [] /\ metrics_update true false m0 = Ok m1 /\ metrics_update true false (with_in m1 [GAic]) = Ok m2 /\
  at_key gof_eqb (m_inidx m2) GAic = Ok 1 /\ (forall E len1 cur f, sur_one m2 E len1 cur (Some (Ok f)) None = UB).
Proof.
  exists (Mopts [GSic; GAic] [] [] 0 0 0 0 [] false [] []). eexists _, _. split; [reflexivity|]. split; [reflexivity|]. split; [reflexivity|]. split; [reflexivity|]. split; [reflexivity|].
  intros E len1 cur f. reflexivity.
Qed.
(** Preparing them again without a change has no effect. *)
Theorem c109_idempotent : forall random ts m m', m_inidx m = [] -> m_outidx m = [] -> metrics_update random ts m = Ok m' -> metrics_update random ts m' = Ok m'.
Proof.
  intros random ts m m' E1 E2 H. pose proof (update_fields _ _ _ _ H) as (A1 & A2 & A3 & A4 & A5 & A6 & A7 & A8 & A9 & A10 & A11).
  destruct (metrics_update random ts m') as [m2| |] eqn:H2.
  - pose proof (update_fields _ _ _ _ H2) as (B1 & B2 & B3 & B4 & B5 & B6 & B7 & B8 & B9 & B10 & B11). f_equal.
    rewrite E1 in A10. rewrite E2 in A11. rewrite A10 in B10. rewrite A11 in B11.
    assert (B10' : m_inidx m2 = m_inidx m') by (rewrite B10, A10, A1; cbn; reflexivity). assert (B11' : m_outidx m2 = m_outidx m') by (rewrite B11, A11, A2; cbn; reflexivity).
    clear B10 B11 A10 A11. destruct m2, m'. cbn in *. subst. f_equal; [destruct (0 <? _); reflexivity|destruct random; reflexivity|destruct ts; reflexivity].
  - exfalso. apply (proj1 (c109_refused random ts m')) in H2. assert (Throw = metrics_update random ts m); [|congruence]. symmetry. apply (proj1 (c109_refused random ts m)).
    rewrite A2, A4, A5, A6, A8 in H2. destruct H2 as [K|[(K1 & K2 & K3 & K4)|(K1 & K2)]]; [left; exact K| |].
    + right. left. rewrite K3 in K4. cbn in K4. repeat split; assumption.
    + right. right. split; [exact K1|]. rewrite K1 in K2. exact K2.
  - exfalso. apply (proj2 (c109_refused random ts m')). exact H2.
Qed.

(** Checks: estimation with all data is on if it was on or is needed by a metric or a check. *)
Theorem c109_estimation : forall m k k', checks_update m k = Ok k' ->
  (k_est k' = true <-> k_est k = true \/ m_in m <> [] \/ 0 < k_obs k \/ 0 < k_dof k \/ (exists x, k_aic k = Num x) \/ (exists x, k_sic k = Num x) \/ (exists x, k_r2 k = Num x)) /\
  (k_pred k' = true <-> k_pred k = true /\ m_ts m = true) /\ (k_checkcn k' = true <-> m_out m <> [] /\ exists x, k_cn k = Num x).
Proof.
  intros m k k'. unfold checks_update. cbv zeta. destruct (_ && _); [discriminate|]. intros H. apply (f_equal (fun o => match o with Ok v => v | _ => k' end)) in H. cbv beta iota in H. subst k'. cbn [k_est k_pred k_checkcn].
  assert (I : forall x, negb (isinf x) = true <-> exists y, x = Num y) by (intros [| |y]; cbn; split; intros K; try discriminate; try (destruct K; discriminate); [exists y; reflexivity|reflexivity]).
  assert (L : forall A (l : list A), negb (match l with [] => true | _ => false end) = true <-> l <> []) by (intros A [|a l]; cbn; split; congruence).
  split; [|split].
  - rewrite <- (I (k_aic k)), <- (I (k_sic k)), <- (I (k_r2 k)), <- (L _ (m_in m)).
    destruct (k_est k); cbn [negb andb]; [split; [intros _; left; reflexivity|reflexivity]|].
    destruct (negb (match m_in m with [] => true | _ => false end)); [cbn; split; [intros _; right; left; reflexivity|reflexivity]|].
    destruct (0 <? k_obs k) eqn:O; [cbn; split; [intros _; right; right; left; lia|reflexivity]|].
    destruct (0 <? k_dof k) eqn:D; [cbn; split; [intros _; right; right; right; left; lia|reflexivity]|].
    destruct (negb (isinf (k_aic k))); [cbn; split; [intros _; tauto|reflexivity]|]. destruct (negb (isinf (k_sic k))); [cbn; split; [intros _; tauto|reflexivity]|].
    destruct (negb (isinf (k_r2 k))); [cbn; split; [intros _; tauto|reflexivity]|]. cbn. split; [discriminate|]. intros K. exfalso. decompose [or] K; try discriminate; lia.
  - destruct (m_ts m); split; intros K; try discriminate; [split; [exact K|reflexivity]|apply K|destruct K; discriminate].
  - rewrite <- (I (k_cn k)), <- (L _ (m_out m)). rewrite andb_true_iff. reflexivity.
Qed.
(** More simulations than there are cannot be required. *)
Theorem c109_checks_refused : forall m k, (checks_update m k = Throw <-> 0 < m_simfix m /\ m_simfix m < k_outsim k) /\ checks_update m k <> UB.
Proof.
  intros m k. unfold checks_update. cbv zeta. destruct (_ && _) eqn:E; (split; [split|]); try discriminate; intros; try reflexivity; lia.
Qed.
(** The limit of the condition number applies to the estimation with all data if this was asked for explicitly. *)
Theorem c109_condition_partial : forall m k k', checks_update m k = Ok k' -> k_est k = true -> (k_checkcn_all k' = true <-> exists x, k_cn k = Num x).
Proof.
  intros m k k' H E. revert H. unfold checks_update. cbv zeta. destruct (_ && _); [discriminate|]. intros H. apply (f_equal (fun o => match o with Ok v => v | _ => k' end)) in H. cbv beta iota in H. subst k'.
  cbn [k_checkcn_all]. rewrite E. destruct (k_cn k) as [| |x]; cbn; split; intros K; try discriminate; try (destruct K; discriminate); [exists x; reflexivity|reflexivity].
Qed.
(** Not if the estimation is on because of a metric or another check: then the limit is ignored. *)
Theorem c109_condition_refuted : exists m k k' x, checks_update m k = Ok k' /\ k_est k' = true /\ k_cn k' = Num x /\ k_checkcn_all k' = false /\ (k_checkcn k' = false).
Proof. exists (Mopts [GAic] [] [] 0 0 0 0 [] false [] []). exists (Chk false 0 0 0 NegInf PosInf PosInf (Num 10) false false false). eexists _, 10%R. split; [reflexivity|]. repeat split. Qed.

Example ex_accepted : exists m', metrics_update true false (Mopts [GAic; GAuc] [SMae; SSign] [] 5 (1 / 2) 4 10 [1] false [] []) = Ok m' /\ m_pos m' = [false; true; false; true] /\ m_ratio m' = 0%R /\ m_horizons m' = [].
Proof. eexists. split; [reflexivity|]. repeat split. Qed.
Example ex_refused : metrics_update true false (Mopts [] [SMae] [] 5 0 0 0 [] false [] []) = Throw.
Proof. reflexivity. Qed.

Print Assumptions c109_refused.
Print Assumptions c109_accepted.
Print Assumptions c109_positions_partial.
Print Assumptions c109_reuse_refuted.
Print Assumptions c109_idempotent.
Print Assumptions c109_estimation.
Print Assumptions c109_checks_refused.
Print Assumptions c109_condition_partial.
Print Assumptions c109_condition_refuted.
