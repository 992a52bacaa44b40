(** C103: out-of-sample simulation of discrete choice models (DiscreteChoiceSim). *)
From Verif Require Import DcSimSpec DcSimProofs DcCalcProofs SurSimProofs DcExtProofs.
From Coq Require Import Lia Permutation.
Local Open Scope Z_scope.

(** A simulation succeeds exactly if at least one iteration succeeded and not more than [max] failed; the number of successful iterations is reported. *)
Theorem c103_succeeds : forall roc cost A C k max ds, k_model k = Binary -> 0 <= k_costs k -> (forall rows, In rows (fitted ds) -> good_rows roc cost A C k rows) ->
  (failures ds <= max /\ fitted ds <> [] -> exists R, dcs_calculate roc cost k max ds = Ok R /\ o_valid R = Z.of_nat (length (fitted ds))) /\
  (max < failures ds \/ fitted ds = [] -> dcs_calculate roc cost k max ds = Throw).
Proof.
  intros roc cost A C k max ds B K G. destruct (calculate_all roc cost A C k max ds B K G) as [P Q]. split; [|exact Q].
  intros [F N]. destruct (P F N) as [R [E [V _]]]. eauto.
Qed.
(** The reported area is the mean of the areas of the successful iterations. *)
Theorem c103_auc : forall roc cost A C k max ds R, k_model k = Binary -> 0 <= k_costs k -> (forall rows, In rows (fitted ds) -> good_rows roc cost A C k rows) ->
  dcs_calculate roc cost k max ds = Ok R -> k_auc k = true -> forall a, map A (fitted ds) = map Some a -> o_auc R = Some (qsum a / qz (Z.of_nat (length a)))%Qc.
Proof.
  intros roc cost A C k max ds R B K G E HA a EA. destruct (calculate_all roc cost A C k max ds B K G) as [P Q].
  destruct (Z_lt_ge_dec max (failures ds)) as [F|F]; [rewrite Q in E by auto; discriminate|]. destruct (fitted ds) as [|x l] eqn:EF; [rewrite Q in E by auto; discriminate|].
  destruct P as [R' [E' [_ [_ [AU _]]]]]; [lia|discriminate|]. rewrite E in E'. assert (R' = R) by congruence. subst R'. rewrite (AU HA), EA, fsum_some.
  assert (L : length a = length (x :: l)) by (rewrite <- (map_length Some a), <- EA; apply map_length). rewrite L. unfold fdiv.
  destruct (qeqb_spec (qz (Z.of_nat (length (x :: l)))) 0) as [Z0|_]; [|reflexivity]. exfalso. apply (qz_inj _ 0) in Z0. cbn in Z0. lia.
Qed.
(** The i-th cost ratio is the cost of all successful iterations over their total weight. *)
Theorem c103_costs : forall roc cost A C k max ds R i, k_model k = Binary -> 0 <= k_costs k -> (forall rows, In rows (fitted ds) -> good_rows roc cost A C k rows) ->
  dcs_calculate roc cost k max ds = Ok R -> (i < Z.to_nat (k_costs k))%nat ->
  let total := qsum (map (fun rows => nth i (snd (C rows)) 0%Qc) (fitted ds)) in total <> 0%Qc ->
  nth_error (o_ratios R) i = Some (Some (qsum (map (fun rows => nth i (fst (C rows)) 0) (fitted ds)) / total)%Qc).
Proof.
  intros roc cost A C k max ds R i B K G E Hi total NZ. destruct (calculate_all roc cost A C k max ds B K G) as [P Q].
  destruct (Z_lt_ge_dec max (failures ds)) as [F|F]; [rewrite Q in E by auto; discriminate|]. assert (NE : fitted ds <> []) by (intros H; rewrite Q in E by auto; discriminate).
  destruct P as [R' [E' [_ [_ [_ [L [RA _]]]]]]]; [lia|exact NE|]. rewrite E in E'. assert (R' = R) by congruence. subst R'.
  rewrite (nth_error_nth' (o_ratios R) (None : fl)) by lia. rewrite (RA i Hi). f_equal. unfold fdiv. fold total. destruct (qeqb_spec total 0); [contradiction|reflexivity].
Qed.
(** The frequency table: row j, column ch holds the weight of the test rows with choice ch whose predicted probability of this choice was in the j-th tenth;
    all entries together are the weight of all test rows. *)
Theorem c103_table : forall roc cost A C k max ds R, k_model k = Binary -> 0 <= k_costs k -> (forall rows, In rows (fitted ds) -> good_rows roc cost A C k rows) ->
  dcs_calculate roc cost k max ds = Ok R -> k_table k = true -> length (o_table R) = Z.to_nat (10 * k_choices k) /\
  qsum (o_table R) = weight_sum (k_weight k) (concat (fitted ds)) /\
  forall j ch, 0 <= j <= 9 -> 0 <= ch < k_choices k -> nth (Z.to_nat (j + 10 * ch)) (o_table R) 0%Qc = weight_sum (k_weight k) (filter (counted j ch) (concat (fitted ds))).
Proof.
  intros roc cost A C k max ds R B K G E T. destruct (calculate_all roc cost A C k max ds B K G) as [P Q].
  destruct (Z_lt_ge_dec max (failures ds)) as [F|F]; [rewrite Q in E by auto; discriminate|]. assert (NE : fitted ds <> []) by (intros H; rewrite Q in E by auto; discriminate).
  destruct P as [R' [E' [_ [_ [_ [_ [_ [L TT]]]]]]]]; [lia|exact NE|]. rewrite E in E'. assert (R' = R) by congruence. subst R'. split; [exact L|]. exact (TT T).
Qed.
(** [counted] means what its name says, and the tenths cover every probability exactly once. *)
Theorem c103_tenths : forall p, (0 <= p)%Qc -> (p <= 1)%Qc -> (forall j, tenth_b j p = true <-> tenth j p) /\
  exists j, 0 <= j <= 9 /\ tenth j p /\ forall j', 0 <= j' <= 9 -> tenth j' p -> j' = j.
Proof.
  intros p P0 P1. split; [intros; apply tenth_b_spec|]. exists (bucket p). destruct (proj1 (bucket_tenth p (bucket p) P0 P1) eq_refl) as [B T].
  split; [exact B|]. split; [exact T|]. intros j' J T'. symmetry. apply bucket_tenth; auto.
Qed.
(** Area, cost ratios and table do not depend on the order of the iterations. *)
Lemma fitted_perm ds ds' : Permutation ds ds' -> Permutation (fitted ds) (fitted ds').
Proof. intros P. apply Permutation_flat_map. exact P. Qed.
Lemma failures_perm ds ds' : Permutation ds ds' -> failures ds = failures ds'.
Proof.
  intros P. unfold failures. f_equal. apply Permutation_length. induction P; cbn; auto.
  - destruct x; [apply perm_skip|]; assumption.
  - destruct x, y; try apply perm_swap; apply Permutation_refl.
  - eapply perm_trans; eassumption.
Qed.
Lemma concat_perm (l l' : list (list trow)) : Permutation l l' -> Permutation (concat l) (concat l').
Proof. intros P. rewrite <- (map_id l), <- (map_id l'), <- !flat_map_concat_map. apply Permutation_flat_map. exact P. Qed.
Lemma weight_perm b (l l' : list trow) : Permutation l l' -> weight_sum b l = weight_sum b l'.
Proof. intros P. apply qsum_perm, Permutation_map, P. Qed.
Lemma filter_perm {X} (f : X -> bool) l l' : Permutation l l' -> Permutation (filter f l) (filter f l').
Proof.
  induction 1; cbn; auto.
  - destruct (f x); auto.
  - destruct (f x), (f y); auto using perm_swap.
  - eapply perm_trans; eassumption.
Qed.
Theorem c103_order : forall roc cost A C k max ds ds' R, k_model k = Binary -> 0 <= k_costs k -> k_auc k = true -> k_table k = true -> 1 <= k_choices k ->
  (forall rows, In rows (fitted ds) -> good_rows roc cost A C k rows) -> Permutation ds ds' -> dcs_calculate roc cost k max ds = Ok R ->
  exists R', dcs_calculate roc cost k max ds' = Ok R' /\ o_valid R' = o_valid R /\ o_auc R' = o_auc R /\ o_ratios R' = o_ratios R /\ o_table R' = o_table R.
Proof.
  intros roc cost A C k max ds ds' R B K HA HT C1 G PM E. assert (PF := fitted_perm _ _ PM). assert (LF := Permutation_length PF).
  assert (G' : forall rows, In rows (fitted ds') -> good_rows roc cost A C k rows) by (intros rows Hr; apply G; eapply Permutation_in; [apply Permutation_sym; exact PF|exact Hr]).
  destruct (calculate_all roc cost A C k max ds B K G) as [P Q]. destruct (calculate_all roc cost A C k max ds' B K G') as [P' _].
  destruct (Z_lt_ge_dec max (failures ds)) as [F|F]; [rewrite Q in E by auto; discriminate|]. assert (NE : fitted ds <> []) by (intros H; rewrite Q in E by auto; discriminate).
  destruct P as [R0 [E0 [V [_ [AU [L [RA [LT TT]]]]]]]]; [lia|exact NE|]. rewrite E in E0. assert (R0 = R) by congruence. subst R0.
  destruct P' as [R' [E' [V' [_ [AU' [L' [RA' [LT' TT']]]]]]]]; [rewrite <- (failures_perm _ _ PM); lia|intros H; rewrite H in LF; destruct (fitted ds); [contradiction|discriminate]|].
  exists R'. split; [exact E'|]. split; [rewrite V, V'; lia|]. split; [rewrite (AU HA), (AU' HA), LF; f_equal; apply fsum_perm, Permutation_map, Permutation_sym, PF|]. split.
  - apply nth_ext with (d := None) (d' := None); [lia|]. intros i Hi. rewrite (RA i), (RA' i) by lia. f_equal; f_equal; apply qsum_perm, Permutation_map, Permutation_sym, PF.
  - apply nth_ext with (d := 0%Qc) (d' := 0%Qc); [lia|]. intros i Hi. destruct (TT HT) as [_ N]. destruct (TT' HT) as [_ N'].
    assert (Hj : Z.of_nat i = Z.of_nat i mod 10 + 10 * (Z.of_nat i / 10)) by (rewrite Z.add_comm; apply Z.div_mod; lia).
    assert (J := Z.mod_pos_bound (Z.of_nat i) 10 ltac:(lia)). assert (CH : 0 <= Z.of_nat i / 10 < k_choices k) by (split; [apply Z.div_pos; lia|apply Z.div_lt_upper_bound; lia]).
    specialize (N (Z.of_nat i mod 10) (Z.of_nat i / 10) ltac:(lia) CH). specialize (N' (Z.of_nat i mod 10) (Z.of_nat i / 10) ltac:(lia) CH). rewrite <- Hj, Nat2Z.id in N, N'. rewrite N, N'.
    apply weight_perm, filter_perm, concat_perm, Permutation_sym, PF.
Qed.
(** The Brier score, unlike the other measures, is that of the last successful iteration only ... *)
Theorem c103_brier_last : forall roc cost A C k max ds R l rows, k_model k = Binary -> 0 <= k_costs k -> (forall rows, In rows (fitted ds) -> good_rows roc cost A C k rows) ->
  dcs_calculate roc cost k max ds = Ok R -> k_brier k = true -> fitted ds = l ++ [rows] -> forall obs,
  rows = map (fun '(w, y, p) => (y, w, [Some (1 - p)%Qc; Some p])) obs -> let score := map (fun '(w, y, p) => ((if k_weight k then w else 1)%Qc, qz y, p)) obs in
  qsum (map (fun '(w, _, _) => w) score) <> 0%Qc -> o_brier R = Some (Some (brier_score score)).
Proof.
  intros roc cost A C k max ds R l rows B K G E HB EL obs ER score NZ. destruct (calculate_all roc cost A C k max ds B K G) as [P Q].
  destruct (Z_lt_ge_dec max (failures ds)) as [F|F]; [rewrite Q in E by auto; discriminate|]. assert (NE : fitted ds <> []) by (rewrite EL; destruct l; discriminate).
  destruct P as [R' [E' [_ [BR _]]]]; [lia|exact NE|]. rewrite E in E'. assert (R' = R) by congruence. subst R'. rewrite BR, HB, EL, rev_app_distr. cbn [rev app]. f_equal.
  unfold test_brier, brier_score. subst rows. rewrite !map_map.
  match goal with |- _ /f fsum (map ?g obs) = _ => assert (E1 : map g obs = map Some (map (fun '(w, _, _) => w) score)) end.
  { unfold score. rewrite !map_map. apply map_ext. intros [[w y] p]. reflexivity. }
  rewrite E1, fsum_some.
  match goal with |- fsum (map ?f obs) /f _ = _ => assert (E2 : map f obs = map Some (map (fun '(w, y, p) => w * ((y - p) * (y - p)))%Qc score)) end.
  { unfold score. rewrite !map_map. apply map_ext. intros [[w y] p]. reflexivity. }
  rewrite E2, fsum_some. unfold fdiv. destruct (qeqb_spec (qsum (map (fun '(w, _, _) => w) score)) 0) as [Z0|_]; [contradiction|]. reflexivity.
Qed.
(** ... so it is not the score of the simulation: here it is 0 although the first iteration was completely wrong. *)
Definition yes : list fl := [Some 0%Qc; Some 1%Qc].
Theorem c103_brier_refuted : exists k R, dcs_new Binary false 4 2 2 (Q2Qc (1 # 2)) 0 0 true true false false = Ok k /\
  dcs_calculate (fun _ _ => Ok (Some 1%Qc)) (fun _ _ => Throw) k 0 [DFitted [(0, 1%Qc, yes); (0, 1%Qc, yes)]; DFitted [(1, 1%Qc, yes); (1, 1%Qc, yes)]] = Ok R /\
  o_brier R = Some (Some 0%Qc) /\ brier_score [(1, 0, 1); (1, 0, 1); (1, 1, 1); (1, 1, 1)]%Qc = Q2Qc (1 # 2).
Proof.
  eexists. eexists. split; [vm_compute; reflexivity|]. split; [vm_compute; reflexivity|]. split; vm_compute; repeat first [apply Qc_is_canon; reflexivity | f_equal].
Qed.
(** Weights enter the Brier score and the frequency table though unweighted evaluation was asked for. *)
Theorem c103_weights_refuted : exists k R, dcs_new Binary true 4 3 2 (Q2Qc (1 # 2)) 0 0 true true true false = Ok k /\
  dcs_calculate (fun _ _ => Ok (Some 1%Qc)) (fun _ _ => Throw) k 0 [DFitted [(0, qz 3, yes); (1, 1%Qc, yes)]] = Ok R /\
  o_brier R = Some (Some (Q2Qc (3 # 4))) /\ brier_score [(1, 0, 1); (1, 1, 1)]%Qc = Q2Qc (1 # 2) /\ nth 0 (o_table R) 0%Qc = qz 3.
Proof.
  eexists. eexists. split; [vm_compute; reflexivity|]. split; [vm_compute; reflexivity|]. repeat split; vm_compute; repeat first [apply Qc_is_canon; reflexivity | f_equal].
Qed.
(** A simulation for the Brier score alone is rejected; so are all ordered models, after the declaration was accepted. *)
Theorem c103_only_brier_refuted : forall t weight rows cols c pct fx weval k, dcs_new t weight rows cols c pct fx 0 true false false weval <> Ok k.
Proof. intros t weight rows cols c pct fx weval k E. destruct (dcs_sizes _ _ _ _ _ _ _ _ _ _ _ _ _ E) as (m & H). cbv zeta in H. destruct H as (_ & _ & _ & _ & _ & _ & _ & _ & _ & _ & _ & _ & [G|[G|G]] & _); try discriminate; apply G; reflexivity. Qed.
Theorem c103_ordered_refuted : (exists k, dcs_new Ordered false 10 2 3 (Q2Qc (1 # 2)) 0 0 false true false false = Ok k) /\
  forall roc cost k max ds, k_model k = Ordered -> dcs_calculate roc cost k max ds = Throw.
Proof. split; [eexists; vm_compute; reflexivity|]. intros roc cost k max ds H. unfold dcs_calculate. rewrite H. reflexivity. Qed.
(** The parts of the announced arrays follow one another; [m] is the model declared for the training sample. *)
Theorem c103_buffers : forall t weight rows cols c pct fx costs brier auc table weval k, 0 <= costs -> 0 <= rows * cols -> possible t c -> 0 <= exo cols weight ->
  dcs_new t weight rows cols c pct fx costs brier auc table weval = Ok k ->
  let n0 := SplitModel.train_size rows pct fx in n0 <= rows ->
  exists m, ext_new t n0 cols weight false c false (rows - n0) None false = Ok m /\ fits (dcs_storage_blocks k) (k_storage k) /\ fits (dcs_work_blocks costs rows cols m) (k_work k).
Proof.
  intros t weight rows cols c pct fx costs brier auc table weval k HC HR P X E n0 LE. destruct (dcs_sizes _ _ _ _ _ _ _ _ _ _ _ _ _ E) as (m & EM & N0 & N1 & _ & KC & _ & _ & _ & _ & KT & KO & _ & _ & _ & _ & ST & WK). fold n0 in EM.
  exists m. split; [exact EM|]. assert (2 <= c) by (destruct t; cbn in P; lia).
  destruct (ext_new_sizes _ _ _ _ _ _ _ _ _ _ _ EM) as (d & D & R & L & _ & _ & _ & _ & _ & _ & _ & _ & _ & ES & EW). assert (S0 := storage_nonneg _ _ _ _ _ _ D P X).
  assert (0 <= x_work m) by lia. assert (0 <= x_storage m).
  { rewrite ES. assert (0 <= n0 * cols) by nia. destruct (Z.ltb_spec 0 (rows - n0)); [|lia]. assert (0 <= c * (rows - n0)) by nia. assert (0 <= (rows - n0) * cols) by nia. lia. }
  split.
  - unfold fits, dcs_storage_blocks. rewrite ST, KC, KT, KO. destruct table; destruct (Z.ltb_spec 0 costs); cbn [app in_a_row b_pos b_len]; repeat split; lia.
  - unfold fits, dcs_work_blocks. rewrite WK. cbn [in_a_row b_pos b_len]. repeat split; lia.
Qed.
(** But the work array of that model is too short for its predictions if the testing sample is much larger than the training sample: 10 of 100 rows and one regressor. *)
Theorem c103_small_training_refuted : exists k m, dcs_new Binary false 100 2 2 (Q2Qc (1 # 10)) 0 0 false true false false = Ok k /\
  ext_new Binary 10 2 false false 2 false 90 None false = Ok m /\ ~ fits (predict_blocks Binary 90 1) (x_work m).
Proof.
  eexists. eexists. split; [vm_compute; reflexivity|]. split; [vm_compute; reflexivity|]. intros K. apply (predict_fits Binary 90 2) in K; [|reflexivity|lia]. revert K. vm_compute. intros K. apply K. reflexivity.
Qed.
(** A non-trivial case that meets the hypotheses. *)
Example c103_example : exists k, dcs_new Binary true 6 3 2 (Q2Qc (2 # 3)) 0 1 true true true true = Ok k /\
  let ds := [DFitted [(0, qz 2, [Some (Q2Qc (1 # 4)); Some (Q2Qc (3 # 4))]); (1, 1%Qc, yes)]; DFailed; DFitted [(1, qz 3, [Some 0%Qc; Some 1%Qc])]] in
  let roc := fun (_ : bool) (rows : list trow) => Ok (Some (qz (Z.of_nat (length rows)))) in
  let cost := fun (_ : bool) (rows : list trow) => Ok ([1%Qc], [qz (Z.of_nat (length rows))]) in
  (forall rows, In rows (fitted ds) -> good_rows roc cost (fun rows => Some (qz (Z.of_nat (length rows)))) (fun rows => ([1%Qc], [qz (Z.of_nat (length rows))])) k rows) /\
  exists R, dcs_calculate roc cost k 1 ds = Ok R /\ o_auc R = Some (Q2Qc (3 # 2)) /\ o_ratios R = [Some (Q2Qc (2 # 3))] /\ nth 2 (o_table R) 0%Qc = qz 2 /\ nth 19 (o_table R) 0%Qc = qz 4.
Proof.
  eexists. split; [vm_compute; reflexivity|]. cbv zeta. split.
  - intros rows [<- | [<- | []]]; (split; [intros _; reflexivity|]); (split; [intros _; repeat split; reflexivity|]); intros _ r Hr; cbn in Hr.
    + destruct Hr as [<- | [<- | []]]; (split; [vm_compute; split; [discriminate|reflexivity]|]); eexists; (split; [vm_compute; reflexivity|split; vm_compute; discriminate]).
    + destruct Hr as [<- | []]; (split; [vm_compute; split; [discriminate|reflexivity]|]); eexists; (split; [vm_compute; reflexivity|split; vm_compute; discriminate]).
  - eexists. split; [vm_compute; reflexivity|]. repeat split; vm_compute; repeat first [apply Qc_is_canon; reflexivity | f_equal].
Qed.
Print Assumptions c103_table.
Print Assumptions c103_order.
