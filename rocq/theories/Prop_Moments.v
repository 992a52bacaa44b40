(** Properties C22, C23, C61, C62: running moments. *)
From Verif Require Import Num MomentsModel MomentsSpec MomentsProofs MomentsProofs2.
Local Open Scope Qc_scope.

(** The state after pushing the observations [(value or NaN, weight); ...] one at a time. *)
Definition pushed (mo : nat) (l : list (option Qc * Qc)) : moms :=
  fold_left (fun s p => push_new mo true s (fst p) (snd p)) l moms0.

(** C22: with positive weights, pushing one observation at a time gives the number, total weight,
    weighted mean, variance and the 3rd and 4th central moment sums of the known observations. *)
Theorem c22_running_moments (l : list (option Qc * Qc)) :
  Forall (fun p => 0 < snd p) l -> known l <> [] ->
  let s := pushed 4 l in
  cnt s = Z.of_nat (length (known l)) /\ sw s = Some (total (known l)) /\
  get_mean s = Some (wmean (known l)) /\
  get_variance 4 s = Some (central 2 (known l) / total (known l)) /\
  m2 s = Some (central 2 (known l)) /\ m3 s = Some (central 3 (known l)) /\ m4 s = Some (central 4 (known l)).
Proof.
  intros H Hn s. unfold s, pushed. rewrite pushes_stat by auto.
  assert (HT : 0 < total (known l)) by (apply posw_total; auto; apply known_posw; auto).
  assert (HN : total (known l) <> 0) by (intros E; rewrite E in HT; discriminate HT).
  unfold statc, stat, get_mean, get_variance. cbn.
  destruct (qeqb_spec (total (known l)) 0) as [E|E]; [contradiction|].
  repeat split; reflexivity.
Qed.
Print Assumptions c22_running_moments.

(** The lower-order instantiations (moments = 1, 2, 3) maintain the same values up to their order. *)
Theorem c22_lower_orders mo (l : list (option Qc * Qc)) :
  Forall (fun p => 0 < snd p) l -> known l <> [] ->
  let s := pushed mo l in
  cnt s = Z.of_nat (length (known l)) /\ get_mean s = Some (wmean (known l)) /\
  ((2 <= mo)%nat -> m2 s = Some (central 2 (known l))) /\
  ((3 <= mo)%nat -> m3 s = Some (central 3 (known l))) /\
  (mo = 4%nat -> m4 s = Some (central 4 (known l))).
Proof.
  intros H Hn s. unfold s, pushed. rewrite pushes_stat by auto.
  assert (HT : 0 < total (known l)) by (apply posw_total; auto; apply known_posw; auto).
  unfold statc, stat, get_mean. cbn.
  destruct (qeqb_spec (total (known l)) 0) as [E|E]; [rewrite E in HT; discriminate HT|].
  repeat split; auto; intros Hm.
  - destruct mo as [|[|mo]]; try lia; reflexivity.
  - destruct mo as [|[|[|mo]]]; try lia; reflexivity.
  - subst; reflexivity.
Qed.
Print Assumptions c22_lower_orders.

(** Unweighted pushes are pushes of weight one. *)
Theorem c22_unweighted mo (l : list (option Qc * Qc)) :
  fold_left (fun s p => push_new mo false s (fst p) (snd p)) l moms0 = pushed mo (map (fun p => (fst p, 1)) l).
Proof. exact (pushes_unweighted mo l). Qed.
Print Assumptions c22_unweighted.

Example c22_nonvacuous :
  let l := [(Some (qz 1), qz 2); (None, qz 5); (Some (qz 4), qz 1)] in
  Forall (fun p => 0 < snd p) l /\ known l <> [] /\ get_mean (pushed 4 l) = Some (qz 2) /\
  m2 (pushed 4 l) = Some (qz 6) /\ m3 (pushed 4 l) = Some (qz 6) /\ m4 (pushed 4 l) = Some (qz 18).
Proof. repeat split; try (repeat constructor; reflexivity); try discriminate; vm_compute; f_equal; apply Qc_is_canon; reflexivity. Qed.

(** With a leading observation of weight zero the claim fails: 0/0 makes the mean NaN for ever. *)
Theorem c22_zero_weight_first_refuted :
  exists l : list (option Qc * Qc), Forall (fun p => 0 <= snd p) l /\ 0 < total (known l) /\
    get_mean (pushed 4 l) = None /\ wmean (known l) = qz 2.
Proof.
  exists [(Some (qz 1), 0); (Some (qz 2), 1)]. split; [|split; [|split]].
  - repeat constructor; discriminate.
  - reflexivity.
  - reflexivity.
  - vm_compute. apply Qc_is_canon; reflexivity.
Qed.
Print Assumptions c22_zero_weight_first_refuted.

(** C23: combining the running summaries of samples is the running summary of the concatenation. *)
Theorem c23_combine_is_concatenation mo (l r : list (option Qc * Qc)) :
  Forall (fun p => 0 < snd p) l -> Forall (fun p => 0 < snd p) r ->
  combine_moms mo (pushed mo l) (pushed mo r) = pushed mo (l ++ r).
Proof.
  intros Hl Hr. unfold pushed. rewrite !pushes_stat; auto.
  - rewrite combine_concat; [|apply known_posw; auto|apply known_posw; auto]. rewrite known_app. reflexivity.
  - apply Forall_app; auto.
Qed.
Print Assumptions c23_combine_is_concatenation.

(** ... hence the combined summary does not depend on how the observations are split among
    summaries, on the order of the summaries or on the order of observations. *)
Theorem c23_split_independent mo (ls ls' : list (list (option Qc * Qc))) :
  Forall (Forall (fun p => 0 < snd p)) ls -> Forall (Forall (fun p => 0 < snd p)) ls' ->
  Permutation (concat ls) (concat ls') ->
  fold_left (combine_moms mo) (map (pushed mo) ls) moms0 = fold_left (combine_moms mo) (map (pushed mo) ls') moms0.
Proof. exact (split_independent mo ls ls'). Qed.
Print Assumptions c23_split_independent.

Example c23_nonvacuous :
  let a := (Some (qz 1), qz 2) in let b := (None, qz 5) in let c := (Some (qz 4), qz 1) in let d := (Some (qz 7), qz 3) in
  fold_left (combine_moms 4) (map (pushed 4) [[a; b]; []; [c; d]]) moms0
  = fold_left (combine_moms 4) (map (pushed 4) [[d]; [c; b; a]]) moms0 /\
  get_mean (fold_left (combine_moms 4) (map (pushed 4) [[a; b]; []; [c; d]]) moms0) = Some (qz 27 / qz 6).
Proof.
  intros a b c d. split.
  - apply c23_split_independent; [repeat constructor; reflexivity ..|].
    simpl. change [a; b; c; d] with ([a; b; c] ++ [d]). change [d; c; b; a] with ([d] ++ [c; b; a]).
    rewrite Permutation_app_comm. apply Permutation_app_head.
    change [a; b; c] with (rev [c; b; a]). symmetry. apply Permutation_rev.
  - vm_compute. f_equal; apply Qc_is_canon; reflexivity.
Qed.

(** C61: combining (mean, variance, weight) triples of normal estimates, as the mixture summaries of
    a search do, gives the exact mean and central moments of the normal mixture. *)
Theorem c61_mixture_of_normals (l : list (Qc * Qc * Qc)) :
  Forall (fun c => 0 < snd c) l -> l <> [] ->
  let s := fold_left (fun s c => combine_normal 4 s (Some (fst (fst c))) (Some (snd (fst c))) (snd c) 1) l moms0 in
  cnt s = Z.of_nat (length l) /\ sw s = Some (mix_total l) /\ get_mean s = Some (mix_mean l) /\
  get_variance 4 s = Some (mix_central 2 l / mix_total l) /\
  m3 s = Some (mix_central 3 l) /\ m4 s = Some (mix_central 4 l).
Proof.
  intros H Hn s. unfold s. rewrite mixture_moments by auto.
  assert (HT : 0 < mix_total l) by (apply mix_total_pos; auto).
  unfold get_mean, get_variance. cbn.
  destruct (qeqb_spec (mix_total l) 0) as [E|E]; [rewrite E in HT; discriminate HT|].
  repeat split; reflexivity.
Qed.
Print Assumptions c61_mixture_of_normals.

Example c61_nonvacuous : let l := [(qz 0, qz 1, qz 1); (qz 2, qz 3, qz 1)] in
  Forall (fun c => 0 < snd c) l /\ l <> [] /\ mix_mean l = 1 /\ mix_central 2 l = qz 6 /\
  get_variance 4 (fold_left (fun s c => combine_normal 4 s (Some (fst (fst c))) (Some (snd (fst c))) (snd c) 1) l moms0)
   = Some (qz 3).
Proof.
  simpl. split; [repeat constructor; reflexivity|]. split; [discriminate|].
  repeat split; vm_compute; repeat first [apply Qc_is_canon; reflexivity | f_equal].
Qed.

(** C62: Array mean and variance that skip NaN: exact when some observation is known. *)
Theorem c62_array_mean_variance (data : list fl) (w : list Qc) :
  Forall (fun x => 0 < x) w ->
  let l := known (combine data w) in l <> [] ->
  array_mean true data w = Ok (Some (wmean l)) /\
  array_variance true data w = Ok (Some (central 2 l / total l)).
Proof.
  intros H l Hl. destruct (array_mean_ok data w H) as [H1 H2]. fold l in H1, H2. rewrite H1, H2.
  destruct l; [congruence|]. split; reflexivity.
Qed.
Print Assumptions c62_array_mean_variance.

Example c62_nonvacuous : let data := [None; Some (qz 1); Some (qz 3)] in let w := [1; 1; 1] in
  Forall (fun x => 0 < x) w /\ known (combine data w) <> [] /\
  array_mean true data w = Ok (Some (qz 2)) /\ array_variance true data w = Ok (Some 1).
Proof.
  simpl. split; [repeat constructor; reflexivity|]. split; [discriminate|].
  split; vm_compute; do 2 f_equal; apply Qc_is_canon; reflexivity.
Qed.

(** ... and for EVERY array without a known observation it dereferences a null pointer, instead of
    returning NaN. *)
Theorem c62_all_missing_refuted (data : list fl) (w : list Qc) :
  Forall (fun x => 0 < x) w -> Forall (fun x => x = None) data ->
  array_mean true data w = UB /\ array_variance true data w = UB.
Proof.
  intros H HN. destruct (array_mean_ok data w H) as [H1 H2].
  assert (E : known (combine data w) = []).
  { clear -HN. revert w. induction HN as [|x data Hx HN IH]; intros [|y w]; simpl; auto.
    unfold known. simpl. subst x. simpl. apply IH. }
  rewrite E in H1, H2. auto.
Qed.
Print Assumptions c62_all_missing_refuted.
Example c62_all_missing_nonvacuous : array_mean true [None; None] [1; 1] = UB. Proof. reflexivity. Qed.
