From Verif Require Import RocSpec RocModel SortSpec SortProofs RocProofs RocProofs2 RocProofs3.
From Coq Require Import Lia Field Qcanon.
Local Open Scope Qc_scope.
Notation Wp l := (wsum (positives l)).
Notation Wn l := (wsum (negatives l)).

Lemma observations_firstn : forall y sc w, observations y sc w = observations y sc (firstn (length y) w).
Proof. induction y as [|a y IH]; intros sc w; [reflexivity|]. destruct sc as [|s sc]; [reflexivity|]. destruct w as [|u w]; [reflexivity|]. cbn [observations length firstn]. f_equal. apply IH. Qed.
Lemma rescored_id g l : (forall a, In a l -> g (score a) = score a) -> rescored g l = l.
Proof. intros H. unfold rescored. rewrite <- (map_id l) at 2. apply map_ext_in. intros a Ha. rewrite H by auto. destruct a; auto. Qed.
Lemma Qcmult_zero a b : a * b = 0 <-> a = 0 \/ b = 0.
Proof. split; [apply Qcmult_integral|]. intros [-> | ->]; ring. Qed.
Lemma qeqb_mul a b : (qeqb a 0 || qeqb b 0)%bool = qeqb (b * a) 0.
Proof.
  destruct (qeqb_spec (b * a) 0) as [E|E].
  - apply Qcmult_zero in E. destruct E as [-> | ->]; destruct (qeqb_spec 0 0); try congruence; [apply Bool.orb_true_r|apply Bool.orb_true_l].
  - destruct (qeqb_spec a 0) as [-> |Ea]; [exfalso; apply E; ring|]. destruct (qeqb_spec b 0) as [-> |Eb]; [exfalso; apply E; ring|]. auto.
Qed.
Definition partial (o : roc_options) : bool := match o_lower o, o_upper o with Some _, Some _ => true | _, _ => false end.
(** The result without thresholds. *)
Lemma finish_full o pts (f t : Qc) : partial o = false ->
  r_auc (roc_finish o pts f t) = (if qeqb (t * f) 0 then None else Some (auc_points false 0 pts / (t * f))) /\
  (t * f <> 0 -> r_points (roc_finish o pts f t) = Some (if o_normalize o then map (fun p => (fst p / f, snd p / t)) pts else pts)).
Proof.
  intros HP. unfold roc_finish, partial in *.
  assert (X : r_auc (if o_normalize o then if qeqb f 0 || qeqb t 0 then {| r_auc := None; r_points := None |} else {| r_auc := Some (auc_points false 0 (map (fun p => (fst p / f, snd p / t)) pts)); r_points := Some (map (fun p => (fst p / f, snd p / t)) pts) |}
      else {| r_auc := if qeqb (f * t) 0 then None else Some (auc_points false 0 pts / (f * t)); r_points := Some pts |})%bool = (if qeqb (t * f) 0 then None else Some (auc_points false 0 pts / (t * f))) /\
    (t * f <> 0 -> r_points (if o_normalize o then if qeqb f 0 || qeqb t 0 then {| r_auc := None; r_points := None |} else {| r_auc := Some (auc_points false 0 (map (fun p => (fst p / f, snd p / t)) pts)); r_points := Some (map (fun p => (fst p / f, snd p / t)) pts) |}
      else {| r_auc := if qeqb (f * t) 0 then None else Some (auc_points false 0 pts / (f * t)); r_points := Some pts |})%bool = Some (if o_normalize o then map (fun p => (fst p / f, snd p / t)) pts else pts))).
  { destruct (o_normalize o).
    - rewrite qeqb_mul. destruct (qeqb_spec (t * f) 0) as [E|E]; [split; auto; congruence|]. cbn [r_auc r_points]. split; auto. rewrite auc_scale; [|intros Z; apply E; rewrite Z; ring|intros Z; apply E; rewrite Z; ring]. rewrite (Qcmult_comm f t). auto.
    - cbn [r_auc r_points]. split; auto. rewrite (Qcmult_comm f t). auto. }
  destruct (o_lower o), (o_upper o); try discriminate; exact X.
Qed.
(** The weights and moves without costs. *)
Definition the_weights (y : list Qc) (ws : option (list Qc)) : list Qc := match ws with Some l => l | None => repeat 1 (length y) end.
Lemma moves_plain o y ws : (length y <= length (the_weights y ws))%nat ->
  forall i, (i < length y)%nat -> exists w, match ws with Some l => elt l i | None => Ok 1 end = Ok w /\ roc_move o false (qeqb (nth i y 0) 0) w i = Ok (nth i (firstn (length y) (the_weights y ws)) 0).
Proof.
  intros HL i Hi. assert (N : nth i (firstn (length y) (the_weights y ws)) 0 = nth i (the_weights y ws) 0).
  { rewrite <- (firstn_skipn (length y) (the_weights y ws)) at 2. rewrite app_nth1; auto. rewrite firstn_length. lia. }
  rewrite N. destruct ws as [l|]; cbn [the_weights] in *.
  - exists (nth i l 0). rewrite elt_ok by lia. auto.
  - exists 1. split; auto. cbn. rewrite (nth_indep _ 0 1) by (rewrite repeat_length; auto). rewrite nth_repeat. auto.
Qed.
Lemma core_plain o y sc ws : o_pessimistic o = false -> 0 <= o_eps o -> y <> [] -> (length y <= length sc)%nat -> (length y <= length (the_weights y ws))%nat -> check_bounds o = Ok tt ->
  let l := observations y sc (the_weights y ws) in
  exists g ts, let pts := (0, 0) :: map (roc_point (rescored g l)) ts in
    roc_calculate o false y sc ws = Ok (roc_finish o pts (Wn l) (Wp l)) /\ thresholds (rescored g l) ts /\
    auc_points false 0 pts = correct_pairs (rescored g l) /\
    (forall a, In a l -> g (score a) <= score a /\ score a - g (score a) <= o_eps o) /\ (forall a b, In a l -> In b l -> score a <= score b -> g (score a) <= g (score b)).
Proof.
  intros HP HE NY HL HW CB l. unfold l. rewrite observations_firstn. apply (roc_core o false y sc ws); auto.
  - rewrite firstn_length. lia.
  - apply moves_plain. auto.
Qed.
Lemma eps_zero o g l : o_eps o = 0 -> (forall a, In a l -> g (score a) <= score a /\ score a - g (score a) <= o_eps o) -> rescored g l = l.
Proof. intros E H. apply rescored_id. intros a Ha. destruct (H a Ha) as (H1 & H2). rewrite E in H2. apply Qcle_antisym; auto. qlra. Qed.
Lemma bounds_none o : partial o = false -> check_bounds o = Ok tt.
Proof. unfold partial, check_bounds. destruct (o_lower o), (o_upper o); try discriminate; auto. Qed.

Lemma auc_range l : Forall (fun a => 0 <= weight a) l -> all_pairs l <> 0 -> 0 <= correct_pairs l / all_pairs l <= 1.
Proof.
  intros F N. destruct (correct_range l F) as (H1 & H2). assert (P : 0 < all_pairs l). { destruct (Qcle_lt_or_eq 0 (all_pairs l)) as [H|H]; [eapply Qcle_trans; eauto|auto|congruence]. }
  assert (I : 0 <= / all_pairs l). { apply Qcnot_lt_le. intros M. assert (H : (/ all_pairs l) * all_pairs l < 0 * all_pairs l) by (apply Qcmult_lt_compat_r; auto). rewrite Qcmult_inv_l in H by auto. qlra. }
  unfold Qcdiv. split; [apply Qc_mul_nonneg; auto|]. rewrite <- (Qcmult_inv_r (all_pairs l)) by auto. apply Qcmult_le_compat_r; auto.
Qed.
Lemma obs_weight : forall y sc w, Forall (fun x => 0 <= x) w -> Forall (fun a => 0 <= weight a) (observations y sc w).
Proof. induction y as [|a y IH]; intros sc w F; [constructor|]. destruct sc as [|s sc]; [constructor|]. destruct w as [|u w]; [constructor|]. apply Forall_cons_iff in F. destruct F. cbn [observations]. constructor; auto. Qed.
Lemma rescored_weight g l : Forall (fun a => 0 <= weight a) l -> Forall (fun a => 0 <= weight a) (rescored g l).
Proof. intros F. unfold rescored. rewrite Forall_map. cbn. exact F. Qed.
Lemma rescored_pairs g l : all_pairs (rescored g l) = all_pairs l.
Proof. rewrite !all_pairs_eq. destruct (rescored_w g l) as (-> & ->). auto. Qed.

(** The area between thresholds. *)
Lemma point_le l t : Forall (fun a => 0 <= weight a) l -> snd (roc_point l t) <= Wp l.
Proof.
  intros F. unfold roc_point, wsum. cbn [snd]. assert (G : forall m, Forall (fun a => 0 <= weight a) m -> qsum (map weight (filter (fun o => qleb (score o) t) m)) <= qsum (map weight m)).
  { induction 1 as [|a m Ha Fm IH]; [apply Qcle_refl|]. cbn [filter]. destruct (qleb (score a) t); cbn [map qsum fold_right]; fold (qsum (map weight m)); [fold (qsum (map weight (filter (fun o => qleb (score o) t) m)))|]; qlra. }
  apply G. apply Forall_filter. auto.
Qed.
Lemma Qc_inv_nonneg a : 0 < a -> 0 <= / a.
Proof. intros Ha. apply Qcnot_lt_le. intros N. assert (H : (/ a) * a < 0 * a) by (apply Qcmult_lt_compat_r; auto). rewrite Qcmult_inv_l in H by (apply Qc_lt_ne; auto). qlra. Qed.
Lemma clip_points lo up l ts : 0 <= lo -> lo < up -> Forall (fun a => 0 <= weight a) l -> 0 < Wn l -> 0 < Wp l -> StronglySorted Qclt ts ->
  let pts := map (fun p => (fst p / Wn l, snd p / Wp l)) ((0, 0) :: map (roc_point l) ts) in
  auc_points false 0 (clip_loop lo up (0, 0) pts) = area_between lo up pts /\ 0 <= area_between lo up pts / (up - lo) <= 1.
Proof.
  intros H0 HLU F HN HP S pts. assert (C : chain (0, 0) (map (fun p => (fst p / Wn l, snd p / Wp l)) (map (roc_point l) ts))).
  { pose proof (chain_scale _ _ HN HP _ _ (points_chain l ts F S)) as C. cbn [fst snd] in C. replace (0 / Wn l) with 0 in C by (unfold Qcdiv; ring). replace (0 / Wp l) with 0 in C by (unfold Qcdiv; ring). auto. }
  assert (E : pts = (0, 0) :: map (fun p => (fst p / Wn l, snd p / Wp l)) (map (roc_point l) ts)).
  { unfold pts. cbn [map fst snd]. f_equal. f_equal; unfold Qcdiv; ring. }
  rewrite E. apply Qclt_le_weak in HLU as HLE. split; [apply clip_area; auto|].
  destruct (area_bounds lo up HLE (map (fun p => (fst p / Wn l, snd p / Wp l)) (map (roc_point l) ts)) (0, 0) C (Qcle_refl 0)) as (A & B).
  { rewrite Forall_forall. intros q Hq. rewrite map_map in Hq. apply in_map_iff in Hq. destruct Hq as (t & <- & Ht). cbn [snd]. rewrite <- (Qcmult_inv_r (Wp l)) by (apply Qc_lt_ne; auto). apply Qcmult_le_compat_r; [apply point_le; auto|apply Qc_inv_nonneg; auto]. }
  assert (D : 0 < up - lo) by qlra. unfold Qcdiv. split; [apply Qc_mul_nonneg; auto; apply Qc_inv_nonneg; auto|]. rewrite <- (Qcmult_inv_r (up - lo)) by (apply Qc_lt_ne; auto). apply Qcmult_le_compat_r; auto. apply Qc_inv_nonneg; auto.
Qed.

(** Costs. *)
Lemma loop_throw o hc y sc ws : (length y <= length sc)%nat -> (forall i, (i < length y)%nat -> exists w, match ws with Some l => elt l i | None => Ok 1 end = Ok w) ->
  (forall i w b, (i < length y)%nat -> roc_move o hc b w i <> UB) ->
  forall inds s, Forall (fun i => (i < length y)%nat) inds -> (exists i, In i inds /\ forall b w, roc_move o hc b w i = Throw) -> roc_loop o hc y sc ws inds s = Throw.
Proof.
  intros HL HW HU. induction inds as [|j inds IH]; intros s F (i & Hi & HT); [destruct Hi|]. apply Forall_cons_iff in F. destruct F as (Hj & F). cbn [roc_loop]. rewrite !elt_ok by lia. cbn [bind].
  destruct (HW j Hj) as (w & Ew). rewrite Ew. cbn [bind]. destruct (roc_move o hc (qeqb (nth j y 0) 0) w j) as [m| |] eqn:Em; cbn [bind]; auto.
  - apply IH; auto. destruct Hi as [->|Hi]; [rewrite HT in Em; discriminate|]. eauto.
  - destruct (HU j w _ Hj Em).
Qed.
