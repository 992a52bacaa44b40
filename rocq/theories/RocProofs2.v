From Verif Require Import RocSpec RocModel SortSpec SortProofs RocProofs.
From Coq Require Import Lia Field Qcanon Sorting.Sorted.
Local Open Scope Qc_scope.
Notation Wp l := (wsum (positives l)).
Notation Wn l := (wsum (negatives l)).

Lemma roc_point_app a b t : roc_point (a ++ b) t = (fst (roc_point a t) + fst (roc_point b t), snd (roc_point a t) + snd (roc_point b t)).
Proof. unfold roc_point. rewrite negatives_app, positives_app, !filter_app, !map_app, !qsum_app. reflexivity. Qed.
Lemma filter_all {A} (p : A -> bool) l : (forall x, In x l -> p x = true) -> filter p l = l.
Proof. induction l; intros H; cbn; auto. rewrite (H a (or_introl eq_refl)). f_equal. apply IHl. intros x Hx. apply H. right. auto. Qed.
Lemma filter_none {A} (p : A -> bool) l : (forall x, In x l -> p x = false) -> filter p l = [].
Proof. induction l; intros H; cbn; auto. rewrite (H a (or_introl eq_refl)). apply IHl. intros x Hx. apply H. right. auto. Qed.
Lemma pn_in p l : In p (positives l) \/ In p (negatives l) -> In p l.
Proof. intros [H|H]; apply filter_In in H; tauto. Qed.
Lemma roc_point_all l t : Forall (fun o => score o <= t) l -> roc_point l t = (Wn l, Wp l).
Proof. intros F. rewrite Forall_forall in F. unfold roc_point. rewrite !filter_all; auto; intros x Hx; apply qleb_le, F, pn_in; auto. Qed.
Lemma qleb_false a b : b < a -> qleb a b = false.
Proof. intros H. destruct (qleb_spec a b) as [L|L]; auto. destruct (Qclt_not_le _ _ H L). Qed.
Lemma roc_point_none l t : Forall (fun o => t < score o) l -> roc_point l t = (0, 0).
Proof. intros F. rewrite Forall_forall in F. unfold roc_point. rewrite !filter_none; auto; intros x Hx; apply qleb_false, F, pn_in; auto. Qed.
Lemma roc_point_perm a b t : Permutation a b -> roc_point a t = roc_point b t.
Proof. intros P. unfold roc_point. f_equal; apply qsum_perm, Permutation_map, filter_perm, filter_perm; auto. Qed.
Lemma thresholds_perm a b ts : Permutation a b -> thresholds a ts -> thresholds b ts.
Proof. intros P (S & H). split; auto. intros t. rewrite H. split; intros (o & Ho & E); exists o; split; auto; [apply (Permutation_in _ P)|apply (Permutation_in _ (Permutation_sym P))]; auto. Qed.
Lemma annotate_ge eps : 0 <= eps -> forall l pre, StronglySorted le_score l -> Forall (fun o => pre <= score o) l -> Forall (fun o => pre <= score o) (annotate eps pre l).
Proof.
  intros HE. induction l as [|ob l IH]; intros pre SS F; cbn [annotate]; [constructor|]. apply StronglySorted_inv in SS. destruct SS as (SS & FS). apply Forall_cons_iff in F. destruct F as (Hx & F).
  destruct (next_close eps pre (score ob) HE Hx) as ((N1 & N2) & N3). constructor; auto.
  eapply Forall_impl; [|apply IH; auto].
  - cbn. intros a Ha. eapply Qcle_trans; eauto.
  - eapply Forall_impl; [|exact FS]. unfold le_score. intros a Ha. eapply Qcle_trans; eauto.
Qed.
Lemma sorted_snoc ts x : StronglySorted Qclt ts -> Forall (fun t => t < x) ts -> StronglySorted Qclt (ts ++ [x]).
Proof.
  induction ts as [|a ts IH]; intros S F; [repeat constructor|]. apply StronglySorted_inv in S. destruct S as (S & FS). apply Forall_cons_iff in F. destruct F as (Ha & F). cbn [app]. constructor; auto. apply Forall_app. auto.
Qed.
(** The points. *)
Definition Inv2 (A : list obs) (s : roc_state) (P : list obs) : Prop := exists ts, s_pts s = (0, 0) :: map (roc_point A) ts /\ thresholds P ts.
Lemma snoc_point A P G pre ts rest : A = (P ++ G) ++ rest -> G <> [] -> Forall (fun o => score o < pre) P -> Forall (fun o => score o = pre) G -> Forall (fun o => pre < score o) rest ->
  thresholds P ts -> thresholds (P ++ G) (ts ++ [pre]) /\ roc_point A pre = (Wn (P ++ G), Wp (P ++ G)).
Proof.
  intros -> NG FP FG FR (S & H). split.
  - split.
    + apply sorted_snoc; auto. rewrite Forall_forall. intros t Ht. apply H in Ht. destruct Ht as (o & Ho & <-). rewrite Forall_forall in FP. auto.
    + intros t. rewrite in_app_iff. split.
      * intros [Ht|[->|[]]]; [apply H in Ht; destruct Ht as (o & Ho & E); exists o; split; auto; apply in_or_app; auto|].
        destruct G as [|o G]; [congruence|]. exists o. split; [apply in_or_app; right; left; auto|]. apply Forall_cons_iff in FG. tauto.
      * intros (o & Ho & E). apply in_app_or in Ho. destruct Ho as [Ho|Ho]; [left; apply H; eauto|right; left]. rewrite Forall_forall in FG. rewrite <- E. symmetry. auto.
  - rewrite roc_point_app. rewrite (roc_point_none rest) by auto. rewrite (roc_point_all (P ++ G)). + cbn [fst snd]. f_equal; ring.
    + apply Forall_app. split; eapply Forall_impl; eauto; cbn; intros a Ha; [apply Qclt_le_weak; auto|rewrite Ha; apply Qcle_refl].
Qed.
Lemma aloop_pts o : o_pessimistic o = false -> 0 <= o_eps o -> forall l s P G A, Inv s P G -> StronglySorted le_score l -> Forall (fun ob => s_pre s <= score ob) l ->
  (G <> [] \/ exists ob t, l = ob :: t /\ score ob = s_pre s) -> A = (P ++ G) ++ annotate (o_eps o) (s_pre s) l -> Inv2 A s P ->
  exists P' G', Inv (aloop o l s) P' G' /\ P' ++ G' = A /\ G' <> [] /\ Inv2 A (aloop o l s) P'.
Proof.
  intros HP HE. induction l as [|ob l IH]; intros s P G A I SS FL NG EA I2.
  - exists P, G. cbn [aloop annotate] in *. rewrite app_nil_r in EA. split; auto. split; auto. split; auto. destruct NG as [NG|(x & t & E & _)]; [auto|discriminate].
  - apply StronglySorted_inv in SS. destruct SS as (SS & FS). apply Forall_cons_iff in FL. destruct FL as (Hob & FL).
    cbn [aloop annotate] in *. unfold roc_push, next in *. rewrite qabs_pos in * by qlra. destruct (qltb_spec (o_eps o) (score ob - s_pre s)) as [L|L].
    + cbn [s_pre s_fp s_tp s_pts s_h s_v]. rewrite HP. cbn [app]. destruct (close_group s P G I) as (AR & F1 & F2).
      assert (NG' : G <> []). { destruct NG as [NG|(x & t & E & Ex)]; auto. injection E as -> ->. rewrite Ex in L. exfalso. qlra. }
      assert (GT : s_pre s < score ob) by qlra.
      destruct I2 as (ts & E2 & TH).
      destruct (snoc_point A P G (s_pre s) ts (Obs (is_pos ob) (score ob) (weight ob) :: annotate (o_eps o) (score ob) l) EA NG' (i_P _ _ _ I) (i_G _ _ _ I)) as (T2 & R2); auto.
      { constructor; auto. eapply Forall_impl; [|apply annotate_ge; auto]. cbn. intros a Ha. eapply Qclt_le_trans; eauto. }
      match goal with |- context [aloop o l ?st] => destruct (IH st (P ++ G) [Obs (is_pos ob) (score ob) (weight ob)] A) as (P' & G' & R) end; cbn [s_pre s_fp s_tp s_pts s_h s_v]; auto.
      * constructor; cbn [s_pre s_fp s_tp s_pts s_h s_v]; auto.
        -- rewrite wn_one. destruct (negb (is_pos ob)); ring.
        -- rewrite wp_one. destruct (negb (is_pos ob)); ring.
        -- apply Forall_app. split.
           ++ eapply Forall_impl; [|apply (i_P _ _ _ I)]. cbn. intros a Ha. qlra.
           ++ eapply Forall_impl; [|apply (i_G _ _ _ I)]. cbn. intros a Ha. qlra.
        -- exists (s_pts s). auto.
      * left. discriminate.
      * rewrite EA, <- !app_assoc. auto.
      * exists (ts ++ [s_pre s]). split; auto. cbn [s_pts]. rewrite E2, map_app. cbn [map app]. rewrite R2, F1, F2. auto.
      * eauto.
    + match goal with |- context [aloop o l ?st] => destruct (IH st P (G ++ [Obs (is_pos ob) (s_pre s) (weight ob)]) A) as (P' & G' & R) end; cbn [s_pre s_fp s_tp s_pts s_h s_v]; auto.
      * destruct I as [I1 I2' I3 I4 I5 I6 I7 I8]. constructor; cbn [s_pre s_fp s_tp s_pts s_h s_v]; auto.
        -- rewrite negatives_app, wsum_app, wn_one, <- I3. destruct (negb (is_pos ob)); ring.
        -- rewrite positives_app, wsum_app, wp_one, <- I4. destruct (negb (is_pos ob)); ring.
        -- apply Forall_app. split; auto.
      * left. destruct G; discriminate.
      * rewrite EA, <- !app_assoc. auto.
      * eauto.
Qed.

(** ** From arrays to observations *)
Definition oi (y sc ms : list Qc) (i : nat) : obs := Obs (negb (qeqb (nth i y 0) 0)) (nth i sc 0) (nth i ms 0).
Lemma elt_ok l i : (i < length l)%nat -> elt l i = Ok (nth i l 0).
Proof. intros H. unfold elt. rewrite (nth_error_nth' l 0 H). auto. Qed.
Lemma roc_loop_a o hc y sc ws ms : (length y <= length sc)%nat ->
  (forall i, (i < length y)%nat -> exists w, match ws with Some l => elt l i | None => Ok 1 end = Ok w /\ roc_move o hc (qeqb (nth i y 0) 0) w i = Ok (nth i ms 0)) ->
  forall inds s, Forall (fun i => (i < length y)%nat) inds -> roc_loop o hc y sc ws inds s = Ok (aloop o (map (oi y sc ms) inds) s).
Proof.
  intros HL HM. induction inds as [|i inds IH]; intros s F; auto. apply Forall_cons_iff in F. destruct F as (Hi & F). cbn [roc_loop map aloop].
  rewrite !elt_ok by lia. cbn [bind]. destruct (HM i Hi) as (w & Ew & Em). rewrite Ew. cbn [bind]. rewrite Em. cbn [bind]. rewrite IH by auto. cbn [oi is_pos score weight]. rewrite Bool.negb_involutive. auto.
Qed.
Lemma observations_nth : forall y sc ms, (length y <= length sc)%nat -> length ms = length y -> observations y sc ms = map (oi y sc ms) (seq 0 (length y)).
Proof.
  induction y as [|a y IH]; intros sc ms H1 H2; auto. destruct sc as [|s sc]; [cbn in H1; lia|]. destruct ms as [|m ms]; [discriminate|]. cbn [length] in *. cbn [observations seq map]. f_equal.
  rewrite IH by lia. rewrite <- seq_shift, map_map. auto.
Qed.
Lemma roc_sorted y sc ms : (length y <= length sc)%nat -> let inds := sort_indexes true (firstn (length y) sc) in
  Permutation inds (seq 0 (length y)) /\ StronglySorted le_score (map (oi y sc ms) inds).
Proof.
  intros HL inds. destruct (sort_indexes_spec true (firstn (length y) sc)) as (P & S). fold inds in P, S. rewrite firstn_length, Nat.min_l in P by lia. split; auto.
  assert (F : Forall (fun i => (i < length y)%nat) inds). { rewrite Forall_forall. intros i Hi. apply (Permutation_in _ P) in Hi. apply in_seq in Hi. lia. }
  clear P. revert F S. generalize inds. clear inds. induction inds as [|i l IH]; intros F S; cbn [map]; [constructor|]. apply StronglySorted_inv in S. destruct S as (S & FS). apply Forall_cons_iff in F. destruct F as (Hi & F).
  constructor; auto. rewrite Forall_forall in *. intros ob Hob. apply in_map_iff in Hob. destruct Hob as (j & <- & Hj). specialize (FS j Hj). specialize (F j Hj). unfold comes_before in FS.
  assert (N : forall q, (q < length y)%nat -> nth q (firstn (length y) sc) 0 = nth q sc 0).
  { intros q Hq. rewrite <- (firstn_skipn (length y) sc) at 2. rewrite app_nth1; auto. rewrite firstn_length. lia. }
  rewrite !N in FS by auto. unfold le_score, oi. cbn [score]. destruct FS as [FS|(FS & _)]; [apply Qclt_le_weak; auto|rewrite FS; apply Qcle_refl].
Qed.
Lemma rescored_w g L : Wn (rescored g L) = Wn L /\ Wp (rescored g L) = Wp L.
Proof.
  unfold wsum, negatives, positives, rescored. induction L as [|a L (IH1 & IH2)]; [auto|]. cbn [map filter is_pos]. destruct (is_pos a); cbn [negb map weight qsum fold_right]; split; auto; unfold qsum in *; f_equal; auto.
Qed.
(** What Calculate computes, before the last step. *)
Lemma roc_core o hc y sc ws ms : o_pessimistic o = false -> 0 <= o_eps o -> y <> [] -> (length y <= length sc)%nat -> length ms = length y ->
  check_bounds o = Ok tt -> check_matrix o hc = Ok tt ->
  (forall i, (i < length y)%nat -> exists w, match ws with Some l => elt l i | None => Ok 1 end = Ok w /\ roc_move o hc (qeqb (nth i y 0) 0) w i = Ok (nth i ms 0)) ->
  let l := observations y sc ms in
  exists g ts, let pts := (0, 0) :: map (roc_point (rescored g l)) ts in
    roc_calculate o hc y sc ws = Ok (roc_finish o pts (Wn l) (Wp l)) /\ thresholds (rescored g l) ts /\
    auc_points false 0 pts = correct_pairs (rescored g l) /\
    (forall a, In a l -> g (score a) <= score a /\ score a - g (score a) <= o_eps o) /\ (forall a b, In a l -> In b l -> score a <= score b -> g (score a) <= g (score b)).
Proof.
  intros HP HE NY HL HMS CB CM HM l. destruct (roc_sorted y sc ms HL) as (PI & SI). set (inds := sort_indexes true (firstn (length y) sc)) in *.
  assert (FI : Forall (fun i => (i < length y)%nat) inds). { rewrite Forall_forall. intros i Hi. apply (Permutation_in _ PI) in Hi. apply in_seq in Hi. lia. }
  set (L := map (oi y sc ms) inds) in *. assert (PL : Permutation L l) by (unfold L, l; rewrite observations_nth by auto; apply Permutation_map; auto).
  unfold roc_calculate. rewrite CB, CM. cbn [bind]. replace (length y =? 0)%nat with false by (destruct y; [congruence|reflexivity]). replace (length sc <? length y)%nat with false by (symmetry; apply Nat.ltb_ge; lia).
  fold inds. destruct inds as [|i0 inds'] eqn:EI; [apply Permutation_nil in PI; destruct y; [congruence|discriminate]|]. rewrite <- EI in *. assert (Hd : hd 0%nat inds = i0) by (rewrite EI; auto). rewrite Hd.
  assert (Hi0 : (i0 < length y)%nat) by (rewrite EI in FI; apply Forall_cons_iff in FI; tauto). rewrite elt_ok by lia. cbn [bind]. rewrite (roc_loop_a o hc y sc ws ms HL HM) by auto. cbn [bind]. replace (map (oi y sc ms) inds) with L by (unfold L; rewrite EI; auto).
  set (s0 := {| s_pre := nth i0 sc 0; s_fp := 0; s_tp := 0; s_h := 0; s_v := 0; s_pts := [(0, 0)] |}).
  assert (I0 : Inv s0 [] []). { constructor; cbn; auto. exists []. auto. }
  assert (EL : L = oi y sc ms i0 :: map (oi y sc ms) inds') by (unfold L; rewrite ?EI; auto).
  assert (FL : Forall (fun ob => s_pre s0 <= score ob) L). { rewrite EL in *. apply StronglySorted_inv in SI. destruct SI as (_ & F). constructor; auto. cbn. apply Qcle_refl. }
  destruct (aloop_pts o HP HE L s0 [] [] (annotate (o_eps o) (s_pre s0) L) I0 SI FL) as (P & G & I & EA & NG & ts & E2 & TH).
  - right. rewrite EL. eexists. eexists. split; [reflexivity|]. reflexivity.
  - reflexivity.
  - exists []. split; auto. split; [constructor|]. intros t. cbn. split; [tauto|]. intros (x & [] & _).
  - set (s := aloop o L s0) in *. set (A := annotate (o_eps o) (s_pre s0) L) in *.
    destruct (close_group s P G I) as (AR & F1 & F2). rewrite EA in AR, F1, F2. rewrite F1, F2 in *.
    destruct (snoc_point A P G (s_pre s) ts [] ltac:(rewrite app_nil_r; auto) NG (i_P _ _ _ I) (i_G _ _ _ I) ltac:(constructor) TH) as (T2 & R2). rewrite EA in T2, R2.
    assert (AR2 : A = rescored (repf (o_eps o) (s_pre s0) L) L) by (apply annotate_repf; auto). set (g := repf (o_eps o) (s_pre s0) L) in *.
    assert (PA : Permutation A (rescored g l)) by (rewrite AR2; apply Permutation_map; auto).
    assert (WA : Wn A = Wn l /\ Wp A = Wp l).
    { rewrite AR2. destruct (rescored_w g L) as (-> & ->). split; unfold wsum, negatives, positives; apply qsum_perm, Permutation_map, filter_perm; auto. }
    destruct WA as (WA1 & WA2). rewrite WA1, WA2 in *.
    assert (PT : s_pts s ++ [(Wn l, Wp l)] = (0, 0) :: map (roc_point (rescored g l)) (ts ++ [s_pre s])).
    { rewrite E2. cbn [app]. f_equal. rewrite (map_ext _ _ (fun t => roc_point_perm _ _ t (Permutation_sym PA))). rewrite map_app. cbn [map]. rewrite R2. auto. }
    exists g, (ts ++ [s_pre s]). cbv zeta. rewrite <- PT. split; [auto|]. split; [apply (thresholds_perm _ _ _ PA); auto|]. split; [rewrite AR; apply correct_pairs_perm; auto|].
    assert (LIn : forall a, In a l -> exists ob, In ob L /\ score ob = score a) by (intros a Ha; exists a; split; auto; apply (Permutation_in _ (Permutation_sym PL)); auto).
    assert (GE : forall a, In a l -> s_pre s0 <= score a). { intros a Ha. rewrite Forall_forall in FL. apply FL. apply (Permutation_in _ (Permutation_sym PL)). auto. }
    split.
    + intros a Ha. split; [apply repf_range; auto|apply repf_close; auto].
    + intros a b Ha Hb Hab. apply repf_mono; auto.
Qed.
