(** Properties C34 (area under the ROC curve) and C74 (area below points). *)
From Verif Require Import RocSpec RocModel SortSpec SortProofs RocProofs RocProofs2 RocProofs3 RocProofs4.
From Coq Require Import Lia Field Qcanon.
Local Open Scope Qc_scope.

(** ** C34 *)
Definition no_thresholds (o : roc_options) : Prop := o_lower o = None \/ o_upper o = None.
(** The observations of the arrays; without weights every one counts 1. *)
Definition data_of (y sc : list Qc) (ws : option (list Qc)) : list obs := observations y sc (match ws with Some l => l | None => repeat 1 (length y) end).
Definition enough (y sc : list Qc) (ws : option (list Qc)) : Prop := y <> [] /\ (length y <= length sc)%nat /\ match ws with Some l => (length y <= length l)%nat | None => True end.
Lemma enough_w y sc ws : enough y sc ws -> y <> [] /\ (length y <= length sc)%nat /\ (length y <= length (the_weights y ws))%nat.
Proof. intros (H1 & H2 & H3). split; auto. split; auto. destruct ws; cbn; auto. rewrite repeat_length. auto. Qed.
Lemma nth_map_seq (f : nat -> Qc) n i : (i < n)%nat -> nth i (map f (seq 0 n)) 0 = f i.
Proof. intros H. rewrite (nth_indep _ 0 (f 0%nat)) by (rewrite map_length, seq_length; auto). rewrite map_nth, seq_nth by auto. reflexivity. Qed.
Lemma none_partial o : no_thresholds o -> partial o = false.
Proof. unfold partial. intros [-> | ->]; auto. destruct (o_lower o); auto. Qed.

(** The result is the weighted fraction of correctly ranked pairs, with or without normalization of the
    points; it is undefined (NaN) iff one of the classes has no weight. *)
Theorem c34_auc (o : roc_options) (y sc : list Qc) (ws : option (list Qc)) : no_thresholds o -> o_pessimistic o = false -> o_eps o = 0 -> enough y sc ws ->
  exists R, roc_calculate o false y sc ws = Ok R /\
    r_auc R = let l := data_of y sc ws in if qeqb (all_pairs l) 0 then None else Some (correct_pairs l / all_pairs l).
Proof.
  intros NT NP E0 EN. destruct (enough_w _ _ _ EN) as (H1 & H2 & H3). apply none_partial in NT.
  destruct (core_plain o y sc ws NP ltac:(rewrite E0; apply Qcle_refl) H1 H2 H3 (bounds_none o NT)) as (g & ts & EC & TH & AR & G1 & G2). cbv zeta in *.
  exists (roc_finish o ((0, 0) :: map (roc_point (rescored g (data_of y sc ws))) ts) (wsum (negatives (data_of y sc ws))) (wsum (positives (data_of y sc ws)))). split; [exact EC|].
  rewrite (proj1 (finish_full o _ _ _ NT)). fold (the_weights y ws) (data_of y sc ws) in *. unfold data_of in *. fold (the_weights y ws) in *. rewrite <- all_pairs_eq. rewrite AR, (eps_zero o g) by auto. auto.
Qed.
Print Assumptions c34_auc.
(** In [0,1] for weights that are not negative, whatever the tolerance: scores that differ by at most
    Epsilon may be treated as equal, in a way that keeps their order. *)
Theorem c34_epsilon (o : roc_options) (y sc : list Qc) (ws : option (list Qc)) : no_thresholds o -> o_pessimistic o = false -> 0 <= o_eps o -> enough y sc ws ->
  let l := data_of y sc ws in
  exists R g, roc_calculate o false y sc ws = Ok R /\
    r_auc R = (if qeqb (all_pairs l) 0 then None else Some (correct_pairs (rescored g l) / all_pairs l)) /\
    (forall a, In a l -> g (score a) <= score a /\ score a - g (score a) <= o_eps o) /\
    (forall a b, In a l -> In b l -> score a <= score b -> g (score a) <= g (score b)).
Proof.
  intros NT NP E0 EN l. destruct (enough_w _ _ _ EN) as (H1 & H2 & H3). apply none_partial in NT.
  destruct (core_plain o y sc ws NP E0 H1 H2 H3 (bounds_none o NT)) as (g & ts & EC & TH & AR & G1 & G2). cbv zeta in *.
  eexists. exists g. split; [exact EC|]. rewrite (proj1 (finish_full o _ _ _ NT)). rewrite <- all_pairs_eq, AR. split; auto.
Qed.
Print Assumptions c34_epsilon.
Theorem c34_range (o : roc_options) (y sc : list Qc) (ws : option (list Qc)) R a : no_thresholds o -> o_pessimistic o = false -> 0 <= o_eps o -> enough y sc ws ->
  match ws with Some l => Forall (fun w => 0 <= w) l | None => True end ->
  roc_calculate o false y sc ws = Ok R -> r_auc R = Some a -> 0 <= a <= 1.
Proof.
  intros NT NP E0 EN FW ER EA. destruct (c34_epsilon o y sc ws NT NP E0 EN) as (R' & g & ER' & EA' & _). assert (R' = R) by congruence. subst R'. rewrite EA in EA'. clear EA.
  destruct (qeqb_spec (all_pairs (data_of y sc ws)) 0) as [Z|Z]; [discriminate|]. injection EA' as ->. rewrite <- (rescored_pairs g). apply auc_range.
  - apply rescored_weight, obs_weight. destruct ws as [w|]; auto. rewrite Forall_forall. intros x Hx. apply repeat_spec in Hx. subst x. discriminate.
  - rewrite rescored_pairs. auto.
Qed.
Print Assumptions c34_range.
(** The order of the observations is irrelevant. *)
Theorem c34_order (o : roc_options) y sc ws y' sc' ws' R R' : no_thresholds o -> o_pessimistic o = false -> o_eps o = 0 -> enough y sc ws -> enough y' sc' ws' ->
  Permutation (data_of y sc ws) (data_of y' sc' ws') ->
  roc_calculate o false y sc ws = Ok R -> roc_calculate o false y' sc' ws' = Ok R' -> r_auc R = r_auc R'.
Proof.
  intros NT NP E0 EN EN' P ER ER'. destruct (c34_auc o y sc ws NT NP E0 EN) as (R1 & ER1 & A1), (c34_auc o y' sc' ws' NT NP E0 EN') as (R2 & ER2 & A2).
  assert (R1 = R) by congruence. assert (R2 = R') by congruence. subst. rewrite A1, A2. cbv zeta. rewrite (all_pairs_perm _ _ P), (correct_pairs_perm _ _ P). auto.
Qed.
Print Assumptions c34_order.
(** The points of the curve are the origin and, for each distinct score in increasing order, the weights of
    the negative and positive observations up to it; divided by the totals if asked for. *)
Theorem c34_points (o : roc_options) (y sc : list Qc) (ws : option (list Qc)) : no_thresholds o -> o_pessimistic o = false -> o_eps o = 0 -> enough y sc ws ->
  let l := data_of y sc ws in all_pairs l <> 0 ->
  exists R ts, roc_calculate o false y sc ws = Ok R /\ thresholds l ts /\
    let pts := (0, 0) :: map (roc_point l) ts in
    r_points R = Some (if o_normalize o then map (fun p => (fst p / qsum (map weight (negatives l)), snd p / qsum (map weight (positives l)))) pts else pts).
Proof.
  intros NT NP E0 EN l NZ. destruct (enough_w _ _ _ EN) as (H1 & H2 & H3). apply none_partial in NT.
  destruct (core_plain o y sc ws NP ltac:(rewrite E0; apply Qcle_refl) H1 H2 H3 (bounds_none o NT)) as (g & ts & EC & TH & AR & G1 & G2). cbv zeta in *.
  rewrite (eps_zero o g) in * by auto. eexists. exists ts. split; [exact EC|]. split; [exact TH|]. apply finish_full; auto. intros Z. apply NZ. rewrite all_pairs_eq. exact Z.
Qed.
Print Assumptions c34_points.
(** With thresholds: the area below the normalized curve between them, divided by their distance; in [0,1]. *)
Theorem c34_partial_auc (o : roc_options) (y sc : list Qc) (ws : option (list Qc)) lo up : o_lower o = Some lo -> o_upper o = Some up -> 0 <= lo -> lo < up -> up <= 1 ->
  o_pessimistic o = false -> o_eps o = 0 -> enough y sc ws -> match ws with Some l => Forall (fun w => 0 <= w) l | None => True end ->
  let l := data_of y sc ws in all_pairs l <> 0 ->
  exists R ts, roc_calculate o false y sc ws = Ok R /\ thresholds l ts /\
    let pts := map (fun p => (fst p / qsum (map weight (negatives l)), snd p / qsum (map weight (positives l)))) ((0, 0) :: map (roc_point l) ts) in
    r_points R = Some pts /\ r_auc R = Some (area_between lo up pts / (up - lo)) /\ 0 <= area_between lo up pts / (up - lo) <= 1.
Proof.
  intros EL EU H0 HLU H1 NP E0 EN FW l NZ. destruct (enough_w _ _ _ EN) as (N1 & N2 & N3).
  assert (CB : check_bounds o = Ok tt). { unfold check_bounds. rewrite EL, EU. qd up lo; [exfalso; qlra|]. qd 1 up; [exfalso; qlra|]. qd lo 0; [exfalso; qlra|]. auto. }
  destruct (core_plain o y sc ws NP ltac:(rewrite E0; apply Qcle_refl) N1 N2 N3 CB) as (g & ts & EC & TH & AR & G1 & G2). cbv zeta in *. rewrite (eps_zero o g) in * by auto. eexists. exists ts. split; [exact EC|]. split; [exact TH|].
  assert (FL : Forall (fun a => 0 <= weight a) l). { apply obs_weight. destruct ws as [w|]; auto. rewrite Forall_forall. intros x Hx. apply repeat_spec in Hx. subst x. discriminate. }
  assert (PN : forall m, Forall (fun a => 0 <= weight a) m -> 0 <= wsum m). { intros m Fm. unfold wsum. apply qsum_nonneg. rewrite Forall_map. auto. }
  rewrite all_pairs_eq in NZ. change (observations y sc (the_weights y ws)) with l in *.
  assert (HN : 0 < wsum (negatives l)). { destruct (Qcle_lt_or_eq 0 (wsum (negatives l))) as [H|H]; auto; [apply PN, Forall_filter; auto|]. exfalso. apply NZ. rewrite <- H. ring. }
  assert (HP : 0 < wsum (positives l)). { destruct (Qcle_lt_or_eq 0 (wsum (positives l))) as [H|H]; auto; [apply PN, Forall_filter; auto|]. exfalso. apply NZ. rewrite <- H. ring. }
  destruct (clip_points lo up l ts H0 HLU FL HN HP (proj1 TH)) as (C1 & C2). cbv zeta in C1. unfold roc_finish. rewrite EL, EU.
  destruct (qeqb_spec (wsum (negatives l)) 0) as [Z|_]; [exfalso; apply (Qc_lt_ne _ _ HN); auto|]. destruct (qeqb_spec (wsum (positives l)) 0) as [Z|_]; [exfalso; apply (Qc_lt_ne _ _ HP); auto|]. cbn [orb r_points r_auc].
  split; [reflexivity|]. destruct (qeqb_spec up lo) as [Z|_]; [exfalso; subst; destruct (Qclt_irrefl _ HLU)|]. split; [|exact C2]. f_equal. f_equal. exact C1.
Qed.
Print Assumptions c34_partial_auc.
(** Thresholds that are not ordered or outside [0,1], and empty data, are rejected. *)
Theorem c34_rejected (o : roc_options) (has_cost : bool) (y sc : list Qc) ws : (exists lo up, o_lower o = Some lo /\ o_upper o = Some up /\ (up < lo \/ 1 < up \/ lo < 0)) \/ (y = [] /\ (has_cost = false \/ exists c, o_matrix o = Some (2, 2, c)%nat)) ->
  roc_calculate o has_cost y sc ws = Throw.
Proof.
  assert (CB : check_bounds o = Throw \/ check_bounds o = Ok tt) by (unfold check_bounds; destruct (o_lower o), (o_upper o); auto; destruct (_ || _)%bool; auto).
  intros [(lo & up & EL & EU & H)|(-> & H)]; unfold roc_calculate.
  - assert (E : check_bounds o = Throw); [|rewrite E; auto]. unfold check_bounds. rewrite EL, EU. qd up lo; auto. qd 1 up; auto. qd lo 0; auto. exfalso. destruct H as [H|[H|H]]; qlra.
  - destruct CB as [-> | ->]; auto. cbn [bind]. unfold check_matrix. destruct H as [-> |(c & E)]; [auto|]. rewrite E. destruct has_cost; auto.
Qed.
Print Assumptions c34_rejected.
(** With a cost matrix (columns c0 c1 and c2 c3) and costs of the observations: the same with the weights
    multiplied by the benefit or loss; if one of these is negative, an exception is thrown. *)
Theorem c34_costs (o : roc_options) (y sc : list Qc) (ws : option (list Qc)) c0 c1 c2 c3 : no_thresholds o -> o_pessimistic o = false -> o_eps o = 0 -> enough y sc ws ->
  o_matrix o = Some (2, 2, [c0; c1; c2; c3])%nat -> match o_costs o with Some cs => (length y <= length cs)%nat | None => True end ->
  ((forall i, (i < length y)%nat -> 0 <= benefit c0 c2 (o_costs o) i /\ 0 <= loss c1 c3 (o_costs o) i) ->
     exists R, roc_calculate o true y sc ws = Ok R /\
       r_auc R = let l := observations y sc (cost_weights c0 c1 c2 c3 (o_costs o) y (match ws with Some l => l | None => repeat 1 (length y) end)) in
                 if qeqb (all_pairs l) 0 then None else Some (correct_pairs l / all_pairs l)) /\
  ((exists i, (i < length y)%nat /\ (benefit c0 c2 (o_costs o) i < 0 \/ loss c1 c3 (o_costs o) i < 0)) -> roc_calculate o true y sc ws = Throw).
Proof.
  intros NT NP E0 EN EM HC. destruct (enough_w _ _ _ EN) as (N1 & N2 & N3). apply none_partial in NT. assert (CM : check_matrix o true = Ok tt) by (unfold check_matrix; rewrite EM; auto).
  assert (OC : forall i, (i < length y)%nat -> match o_costs o with Some cs => elt cs i | None => Ok 1 end = Ok (own_cost (o_costs o) i)). { intros i Hi. unfold own_cost. destruct (o_costs o); auto. apply elt_ok. lia. }
  assert (WT : forall i, (i < length y)%nat -> match ws with Some l => elt l i | None => Ok 1 end = Ok (nth i (the_weights y ws) 0)).
  { intros i Hi. destruct ws as [l|]; cbn [the_weights] in *; [apply elt_ok; lia|]. rewrite (nth_indep _ 0 1) by (rewrite repeat_length; auto). rewrite nth_repeat. auto. }
  assert (MV : forall i b w, (i < length y)%nat -> roc_move o true b w i = if qltb (benefit c0 c2 (o_costs o) i) 0 then Throw else if qltb (loss c1 c3 (o_costs o) i) 0 then Throw else Ok (w * (if b : bool then loss c1 c3 (o_costs o) i else benefit c0 c2 (o_costs o) i))).
  { intros i b w Hi. unfold roc_move. rewrite EM, OC by auto. cbn [bind elt nth_error]. fold (benefit c0 c2 (o_costs o) i). replace (- (c1 * own_cost (o_costs o) i - c3)) with (loss c1 c3 (o_costs o) i) by (unfold loss; ring). destruct (qltb _ 0); auto. destruct (qltb _ 0); auto. destruct b; auto. }
  split.
  - intros HB. assert (LM : length (cost_weights c0 c1 c2 c3 (o_costs o) y (the_weights y ws)) = length y) by (unfold cost_weights; rewrite map_length, seq_length; auto).
    destruct (roc_core o true y sc ws (cost_weights c0 c1 c2 c3 (o_costs o) y (the_weights y ws)) NP ltac:(rewrite E0; apply Qcle_refl) N1 N2 LM (bounds_none o NT) CM) as (g & ts & EC & TH & AR & G1 & G2).
    + intros i Hi. exists (nth i (the_weights y ws) 0). split; auto. rewrite MV by auto. destruct (HB i Hi) as (B1 & B2). qd (benefit c0 c2 (o_costs o) i) 0; [exfalso; qlra|]. qd (loss c1 c3 (o_costs o) i) 0; [exfalso; qlra|].
      f_equal. unfold cost_weights. rewrite nth_map_seq by auto. destruct (qeqb _ _); reflexivity.
    + cbv zeta in *. eexists. split; [exact EC|]. rewrite (proj1 (finish_full o _ _ _ NT)). rewrite <- all_pairs_eq, AR, (eps_zero o g) by auto. auto.
  - intros (i & Hi & HB). unfold roc_calculate. rewrite (bounds_none o NT), CM. cbn [bind]. replace (length y =? 0)%nat with false by (destruct y; [congruence|reflexivity]). replace (length sc <? length y)%nat with false by (symmetry; apply Nat.ltb_ge; lia).
    destruct (roc_sorted y sc [] N2) as (PI & _). set (inds := sort_indexes true (firstn (length y) sc)) in *.
    assert (FI : Forall (fun i => (i < length y)%nat) inds). { rewrite Forall_forall. intros j Hj. apply (Permutation_in _ PI) in Hj. apply in_seq in Hj. lia. }
    assert (Hi' : In i inds) by (apply (Permutation_in _ (Permutation_sym PI)), in_seq; lia). rewrite elt_ok by (destruct inds as [|j t]; [destruct Hi'|apply Forall_cons_iff in FI; cbn [hd]; lia]). cbn [bind].
    rewrite (loop_throw o true y sc ws); auto.
    + intros j Hj. eauto.
    + intros j w b Hj. rewrite MV by auto. destruct (qltb _ 0); [discriminate|]. destruct (qltb _ 0); discriminate.
    + exists i. split; auto. intros b w. rewrite MV by auto. qd (benefit c0 c2 (o_costs o) i) 0; auto. qd (loss c1 c3 (o_costs o) i) 0; auto. exfalso. destruct HB; qlra.
Qed.
Print Assumptions c34_costs.
(** Refuted: the documentation places the cost of a true negative at (1,1), that of a false positive at
    (1,2). If the latter is larger, as it should, the matrix is always rejected (unit costs of observations). *)
Theorem c34_cost_matrix_refuted (o : roc_options) (y sc : list Qc) ws tn fn fp tp : no_thresholds o -> o_pessimistic o = false -> o_eps o = 0 -> enough y sc ws ->
  o_matrix o = Some (2, 2, [tn; fn; fp; tp])%nat -> o_costs o = None -> tn < fp -> roc_calculate o true y sc ws = Throw.
Proof.
  intros NT NP E0 EN EM EC H. refine (proj2 (c34_costs o y sc ws tn fn fp tp NT NP E0 EN EM _) _); [rewrite EC; exact I|]. exists 0%nat. destruct EN as (NE & _). split; [destruct y; [congruence|cbn; lia]|].
  left. unfold benefit, own_cost. rewrite EC. qlra.
Qed.
Print Assumptions c34_cost_matrix_refuted.
Definition opts (pess : bool) lo up eps : roc_options := {| o_normalize := true; o_lower := lo; o_upper := up; o_eps := eps; o_pessimistic := pess; o_costs := None; o_matrix := None |}.
(** Refuted: the pessimistic option changes the area even if all scores are different (3/4 of the pairs are
    ranked correctly, the result is 5/8): the extra points drop to the axis. *)
Theorem c34_pessimistic_refuted : exists o y sc R, o_pessimistic o = true /\ no_thresholds o /\ o_eps o = 0 /\ NoDup sc /\ length y = length sc /\
  roc_calculate o false y sc None = Ok R /\ correct_pairs (data_of y sc None) / all_pairs (data_of y sc None) = Q2Qc (3 # 4) /\ r_auc R = Some (Q2Qc (5 # 8)).
Proof.
  exists (opts true None None 0), (map qz [1; 0; 1; 0]%Z), (map qz [1; 2; 3; 4]%Z). eexists. split; [reflexivity|]. split; [left; reflexivity|]. split; [reflexivity|]. split.
  - repeat constructor; cbn; intuition discriminate.
  - split; [reflexivity|]. split; [vm_compute; reflexivity|]. split; [apply Qc_is_canon; vm_compute; reflexivity|]. vm_compute. f_equal. apply Qc_is_canon. reflexivity.
Qed.
Print Assumptions c34_pessimistic_refuted.
(** Ties, weights. *)
Example c34_case : enough (map qz [1; 0; 0; 1; 0]%Z) (map qz [1; 1; 2; 3; 3]%Z) (Some (map qz [2; 1; 1; 1; 3]%Z)) /\
  exists R, roc_calculate (opts false None None 0) false (map qz [1; 0; 0; 1; 0]%Z) (map qz [1; 1; 2; 3; 3]%Z) (Some (map qz [2; 1; 1; 1; 3]%Z)) = Ok R /\ r_auc R = Some (Q2Qc (21 # 30)).
Proof. split; [repeat split; try discriminate; cbn; lia|]. eexists. split; [vm_compute; reflexivity|]. vm_compute. f_equal. apply Qc_is_canon. reflexivity. Qed.
Example c34_partial_case : exists R, roc_calculate (opts false (Some (Q2Qc (1 # 10))) (Some (Q2Qc (1 # 2))) 0) false (map qz [1; 0; 0; 1; 0]%Z) (map qz [1; 1; 2; 3; 3]%Z) None = Ok R /\ r_auc R = Some (Q2Qc (191 # 480)).
Proof. eexists. split; [vm_compute; reflexivity|]. vm_compute. f_equal. apply Qc_is_canon. reflexivity. Qed.
Example c34_costs_case : let o := {| o_normalize := false; o_lower := None; o_upper := None; o_eps := 0; o_pessimistic := false; o_costs := Some (map qz [100; 200]%Z); o_matrix := Some (2, 2, [Q2Qc (1 # 50); - (1); - qz 3; qz 3])%nat |} in
  (forall i, (i < 2)%nat -> 0 <= benefit (Q2Qc (1 # 50)) (- qz 3) (o_costs o) i /\ 0 <= loss (- (1)) (qz 3) (o_costs o) i) /\ exists R, roc_calculate o true (map qz [0; 1]%Z) (map qz [2; 1]%Z) None = Ok R /\ r_auc R = Some 1.
Proof.
  cbv zeta. split.
  - intros i Hi. destruct i as [|[|i]]; [| |lia]; split; unfold Qcle; vm_compute; discriminate.
  - eexists. split; [vm_compute; reflexivity|]. vm_compute. f_equal. apply Qc_is_canon. reflexivity.
Qed.

(** ** C74 *)
Lemma last_any {A} (l : list A) a d d' : last (a :: l) d = last (a :: l) d'.
Proof. revert a. induction l as [|u l IH]; intros; auto. apply (IH u). Qed.
(** AucPoints is the sum of the trapezoids below the points, above the base line. *)
Theorem c74_trapezoids (b : Qc) (ps : list point) : auc_points false b ps = trapezoids ps - b * (fst (last ps (0, 0)) - fst (hd (0, 0) ps)).
Proof.
  destruct ps as [|(x, y) t]; [cbn; ring|]. rewrite auc_points_alt. cbn [hd fst].
  assert (G : forall l x0 y0 r, auc_loop false b l x0 y0 r = r + trapezoids ((x0, y0) :: l) - b * (fst (last l (x0, y0)) - x0)).
  { induction l as [|(a, c) l IH]; intros x0 y0 r; [cbn; ring|]. cbn [auc_loop]. rewrite IH. change (trapezoids ((x0, y0) :: (a, c) :: l)) with ((a - x0) * (y0 + c) / qz 2 + trapezoids ((a, c) :: l)).
    assert (LQ : last ((a, c) :: l) (x0, y0) = last l (a, c)). { clear. revert a c x0 y0. induction l as [|(u, v) l IH]; intros; auto. change (last ((a, c) :: (u, v) :: l) (x0, y0)) with (last ((u, v) :: l) (x0, y0)). rewrite IH. symmetry. apply IH. }
    rewrite LQ, !half2. assert (E : y0 = y0 * (half + half)) by (replace (half + half) with 1 by (apply Qc_is_canon; reflexivity); ring).
    set (T := trapezoids _). set (Lx := fst _). transitivity (r + (a - x0) * (y0 * (half + half) - b + (c - y0) * half) + T - b * (Lx - a)); [rewrite <- E; ring|ring]. }
  rewrite G. replace (trapezoids ((x, y) :: (x, y) :: t)) with (trapezoids ((x, y) :: t)).
  - replace (last ((x, y) :: t) (x, y)) with (last ((x, y) :: t) (0, 0)); [ring|]. apply last_any.
  - change (trapezoids ((x, y) :: (x, y) :: t)) with ((x - x) * (y + y) / qz 2 + trapezoids ((x, y) :: t)). unfold Qcdiv. ring.
Qed.
Print Assumptions c74_trapezoids.
(** The vertical area is the horizontal one of the mirrored points. *)
Theorem c74_vertical (b : Qc) (ps : list point) : auc_points true b ps = auc_points false b (map (fun p => (snd p, fst p)) ps).
Proof.
  destruct ps as [|(x, y) t]; [reflexivity|]. cbn [map fst snd]. rewrite !auc_points_alt. change ((y, x) :: map (fun p => (snd p, fst p)) t) with (map (fun p : point => (snd p, fst p)) ((x, y) :: t)).
  generalize ((x, y) :: t). intros l. generalize 0 as r. revert x y. induction l as [|(a, c) l IH]; intros x0 y0 r; auto. cbn [map auc_loop fst snd]. apply IH.
Qed.
Print Assumptions c74_vertical.
(** Both areas together are the difference of the rectangles at the end points. *)
Theorem c74_parts (ps : list point) : auc_points false 0 ps + auc_points true 0 ps = let p := hd (0, 0) ps in let q := last ps (0, 0) in fst q * snd q - fst p * snd p.
Proof.
  destruct ps as [|(x, y) t]; [cbn; ring|]. rewrite !auc_points_alt. cbn [hd fst snd]. cbv zeta.
  assert (G : forall l x0 y0 r s, auc_loop false 0 l x0 y0 r + auc_loop true 0 l x0 y0 s = r + s + (fst (last l (x0, y0)) * snd (last l (x0, y0)) - x0 * y0)).
  { induction l as [|(a, c) l IH]; intros x0 y0 r s; [cbn; ring|]. cbn [auc_loop]. rewrite IH.
    assert (LQ : forall d, last ((a, c) :: l) d = last l (a, c)). { clear. revert a c. induction l as [|(u, v) l IH]; intros; auto. change (last ((a, c) :: (u, v) :: l) d) with (last ((u, v) :: l) d). rewrite (IH u v). symmetry. apply IH. }
    rewrite LQ, !half2. assert (E : half + half = 1) by (apply Qc_is_canon; reflexivity).
    set (T := _ * snd _). transitivity (r + s + (a - x0) * (y0 + (c - y0) * half) + (c - y0) * (x0 + (a - x0) * half) + (T - a * c)); [ring|].
    transitivity (r + s + (a - x0) * y0 + (c - y0) * x0 + (a - x0) * (c - y0) * (half + half) + (T - a * c)); [ring|]. rewrite E. ring. }
  rewrite G. rewrite (last_any t (x, y) (0, 0) (x, y)). ring.
Qed.
Print Assumptions c74_parts.
Example c74_case : auc_points false 1 [(0, 1); (qz 2, qz 3); (qz 4, 0)] = qz 3 /\ auc_points true 0 [(0, 1); (qz 2, qz 3)] = qz 2.
Proof. split; apply Qc_is_canon; vm_compute; reflexivity. Qed.
