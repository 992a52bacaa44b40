(** Final forms of the search theorems. *)
From Coq Require Import String.
From Verif Require Import Base SearchModel SearchSpec SearchProofs SearchProofs2 SearchProofs3 SearchProofs4.
From Coq Require Import ZifyBool.
Local Open Scope nat_scope.

Lemma ss_nth (R : Z -> Z -> Prop) (l : list Z) d : StronglySorted R l ->
  forall i j, i < j < length l -> R (nth i l d) (nth j l d).
Proof.
  induction 1 as [|a l Hs IH HF]; intros i j Hij; [simpl in Hij; lia|].
  destruct j as [|j]; [lia|]. rewrite Forall_forall in HF. destruct i as [|i]; simpl.
  - apply HF, nth_In. simpl in Hij; lia.
  - apply IH. simpl in Hij; lia.
Qed.

Lemma fix_ok_closed c : fix_ok (parts c) (fixI c) -> closed_cfg c.
Proof.
  intros [H|((H1 & H2) & H3)]; [left; auto|right]. split; [|split].
  - rewrite Forall_forall in *. intros l Hl i j Hij Hj. specialize (H1 l Hl).
    pose proof (ss_nth _ _ 0%Z H1 i j Hij). lia.
  - intros p q Hpq Hq. destruct (Nat.eq_dec p q) as [->|Hn]; auto.
    pose proof (ss_nth _ _ 0%Z H2 p q) as Hs. rewrite map_length in Hs. specialize (Hs ltac:(lia)).
    assert (E : forall r, nth r (map (hd 0%Z) (parts c)) 0%Z = nth 0 (nth r (parts c) []) 0%Z).
    { intros r. change 0%Z with (hd 0%Z []) at 2. rewrite map_nth. destruct (nth r (parts c) []); reflexivity. }
    rewrite !E in Hs. lia.
  - destruct (parts c) as [|[|a l] P]; simpl in *; auto.
Qed.

Section Final.
  Variable est : nat -> list Z -> string.
  Variable cancel : nat -> bool.
  Variable c : cfg.
  Hypothesis Hwf : well_formed (parts c) (kk c) (fixG c).
  Hypothesis Hfi : fix_ok (parts c) (fixI c).

  Let Hne := proj1 Hwf.
  Let Hk := proj1 (proj2 Hwf).
  Let Hfx := proj2 (proj2 Hwf).
  Let Hcl := fix_ok_closed c Hfi.

  Lemma search_result : exists F s, (forall fuel, F <= fuel -> start est cancel c fuel = Ok s) /\
     counter s = length (plan cancel c) /\ states s = fold_left addmsg (map v_msg (visited s)) [] /\
     visited s = logs est c 0 (plan cancel c).
  Proof.
    exists (length (all_pos c)), {| counter := length (plan cancel c);
          states := fold_left addmsg (map v_msg (logs est c 0 (plan cancel c))) [];
          visited := logs est c 0 (plan cancel c) |}.
    split; [|simpl; auto]. intros fuel Hf. apply start_plan; auto.
  Qed.

  Lemma keep1_in x l : In x (keep1 c l) <-> In x l /\ (noskip c x = true \/ hd_error l = Some x).
  Proof.
    destruct l as [|y r]; simpl; [tauto|]. rewrite filter_In. split.
    - intros [->|[H1 H2]]; auto.
    - intros [[->|H] [H2|H2]]; auto. injection H2 as ->; auto.
  Qed.

  Lemma keep1_nodup l : NoDup l -> NoDup (keep1 c l).
  Proof.
    destruct l as [|y r]; simpl; auto. intros H; inversion H; subst. constructor; [|apply NoDup_filter; auto].
    rewrite filter_In; tauto.
  Qed.

  Lemma noskip_choice ps is_ : choice (parts c) (kk c) (fixG c) ps is_ ->
    (noskip c (ps, is_) = true <-> checkEmpty c = false \/ (nth 0 (model_at (parts c) ps is_) 0 < lenTargets c)%Z).
  Proof.
    intros (_ & _ & HF & _ & H2). unfold noskip, skip_pos; simpl.
    rewrite (current_ok _ _ _ HF H2). destruct (checkEmpty c); simpl; [|intuition].
    rewrite negb_true_iff, Z.leb_gt. intuition congruence.
  Qed.

  Lemma plan_in ps is_ : (forall t, cancel t = false) ->
    (In (ps, is_) (plan cancel c) <->
     choice (parts c) (kk c) (fixG c) ps is_ /\
     (fixI c = 0%Z \/ (nth 0 (model_at (parts c) ps is_) 0 < fixI c)%Z) /\
     (checkEmpty c = false \/ (nth 0 (model_at (parts c) ps is_) 0 < lenTargets c)%Z \/
      (ps = seq 0 (kk c) /\ is_ = repeat 0 (kk c)))).
  Proof.
    intros Hc. unfold plan. rewrite cut_false by auto. rewrite keep1_in.
    rewrite (all_pos_choice c Hk Hfx Hcl).
    destruct (all_pos_head c Hne Hk Hfx Hcl) as [t ->]. simpl hd_error.
    split.
    - intros ((H1 & H2) & H3). split; auto. split; auto.
      rewrite noskip_choice in H3 by auto. destruct H3 as [[H3|H3]|H3]; auto.
      injection H3 as <- <-. auto.
    - intros (H1 & H2 & H3). split; auto. rewrite noskip_choice by auto.
      destruct H3 as [H3|[H3|[-> ->]]]; auto.
  Qed.

  Lemma plan_nodup : NoDup (plan cancel c).
  Proof.
    apply keep1_nodup. destruct (cut_prefix cancel 0 (all_pos c)) as [n ->].
    pose proof (all_pos_nodup c) as H. rewrite <- (firstn_skipn n (all_pos c)) in H.
    revert H. generalize (skipn n (all_pos c)). generalize (firstn n (all_pos c)).
    intros l; induction l as [|a l IH]; intros l' H; [constructor|].
    simpl in H. inversion H as [|? ? Ha H']; subst. constructor; [|eapply IH; eauto].
    intros Hin; apply Ha, in_or_app; auto.
  Qed.

  Lemma plan_choice ps is_ : In (ps, is_) (plan cancel c) -> choice (parts c) (kk c) (fixG c) ps is_.
  Proof.
    intros H. unfold plan in H. apply keep1_in in H. destruct H as [H _].
    destruct (cut_prefix cancel 0 (all_pos c)) as [n E]. rewrite E in H.
    assert (Hi : In (ps, is_) (all_pos c)).
    { rewrite <- (firstn_skipn n (all_pos c)). apply in_or_app; auto. }
    apply (all_pos_choice c Hk Hfx Hcl) in Hi. tauto.
  Qed.

  Lemma plan_models_distinct : NoDup (concat (parts c)) ->
    ForallOrdPairs (fun a b => ~ Permutation (v_cur a) (v_cur b)) (logs est c 0 (plan cancel c)).
  Proof.
    intros HN. pose proof plan_nodup as Hnd. pose proof plan_choice as Hch.
    revert Hnd Hch. generalize (plan cancel c). generalize 0.
    intros n l; revert n. induction l as [|[ps is_] l IH]; intros n Hnd Hch; simpl; [constructor|].
    inversion Hnd as [|? ? Hn Hnd']; subst. constructor.
    - apply Forall_forall. intros v Hv Hp. simpl in Hp. apply Hn.
      assert (Hin : In (v_ps v, v_is v) l).
      { rewrite <- (logs_pos est c l (S n)). apply in_map_iff. exists v; auto. }
      rewrite (logs_cur est c _ _ _ Hv) in Hp.
      destruct (choice_perm_eq (parts c) (kk c) (fixG c) ps is_ (v_ps v) (v_is v)) as [E1 E2]; auto.
      + apply Hch; left; auto.
      + apply Hch; right; auto.
      + rewrite <- E1, <- E2 in Hin. exact Hin.
    - apply IH; auto. intros; apply Hch; right; auto.
  Qed.
End Final.

Theorem search_visits_once est cancel c :
  (forall t, cancel t = false) -> well_formed (parts c) (kk c) (fixG c) -> fix_ok (parts c) (fixI c) ->
  exists F s, (forall fuel, F <= fuel -> start est cancel c fuel = Ok s) /\
    NoDup (map (fun v => (v_ps v, v_is v)) (visited s)) /\
    (forall ps is_, In (ps, is_) (map (fun v => (v_ps v, v_is v)) (visited s)) <->
       choice (parts c) (kk c) (fixG c) ps is_ /\
       (fixI c = 0%Z \/ (nth 0 (model_at (parts c) ps is_) 0 < fixI c)%Z) /\
       (checkEmpty c = false \/ (nth 0 (model_at (parts c) ps is_) 0 < lenTargets c)%Z \/
        (ps = seq 0 (kk c) /\ is_ = repeat 0 (kk c)))) /\
    (forall v, In v (visited s) -> v_cur v = model_at (parts c) (v_ps v) (v_is v)) /\
    (forall j v, nth_error (visited s) j = Some v -> v_msg v = est j (v_cur v)) /\
    (NoDup (concat (parts c)) -> ForallOrdPairs (fun a b => ~ Permutation (v_cur a) (v_cur b)) (visited s)).
Proof.
  intros Hc Hwf Hfi. destruct (search_result est cancel c Hwf Hfi) as (F & s & H1 & H2 & H3 & H4).
  exists F, s. split; auto. rewrite H4, logs_pos. split; [apply plan_nodup; auto|].
  split; [intros; apply plan_in; auto|]. split; [apply logs_cur|].
  split; [intros j v Hj; exact (logs_msg est c _ 0 j v Hj)|apply plan_models_distinct; auto].
Qed.

Theorem search_count est cancel c :
  (forall t, cancel t = false) -> well_formed (parts c) (kk c) (fixG c) -> fix_ok (parts c) (fixI c) ->
  exists F s, forall fuel, F <= fuel -> start est cancel c fuel = Ok s /\
     get_count c fuel = Ok (counter s) /\ counter s = length (visited s).
Proof.
  intros Hc Hwf Hfi. destruct (search_result est cancel c Hwf Hfi) as (F & s & H1 & H2 & H3 & H4).
  exists (F + length (all_pos c) + length (all_ps c)), s. intros fuel Hf.
  split; [apply H1; lia|]. split; [|rewrite H4, logs_length; auto].
  rewrite get_count_eq; try (apply Hwf); try (apply fix_ok_closed; auto); try lia.
  rewrite H2. unfold plan. rewrite cut_false; auto.
Qed.

Theorem count_formula c :
  well_formed (parts c) (kk c) (fixG c) -> fixI c = 0%Z -> checkEmpty c = false ->
  exists F, forall fuel, F <= fuel ->
     get_count c fuel = Ok (model_count (map (@length Z) (parts c)) (kk c) (fixG c)).
Proof.
  intros Hwf Hf He. exists (length (all_pos c) + length (all_ps c)). intros fuel Hfuel.
  assert (Hfi : fix_ok (parts c) (fixI c)) by (left; auto).
  rewrite get_count_eq; try (apply Hwf); try (apply fix_ok_closed; auto); try lia.
  assert (Ec : length (all_pos c) = model_count (map (@length Z) (parts c)) (kk c) (fixG c)) by (eapply all_pos_count; eauto; apply Hwf).
  rewrite <- Ec. clear Ec Hfuel. f_equal.
  assert (Hns : forall x, noskip c x = true).
  { intros x. unfold noskip, skip_pos. destruct (current _ _ _); auto. rewrite He. reflexivity. }
  destruct (all_pos c) as [|x t]; simpl; auto. f_equal.
  induction t as [|y t IH]; simpl; auto. rewrite Hns; simpl; auto.
Qed.

Lemma loop_mono est cancel c f : forall t ps is_ s r, loop est cancel c f t ps is_ s = Ok r ->
  forall f', f <= f' -> loop est cancel c f' t ps is_ s = Ok r.
Proof.
  induction f as [|f IH]; intros t ps is_ s r H f' Hf; simpl in H; [discriminate|].
  destruct f' as [|f']; [lia|]. simpl.
  destruct (move_next c ps is_); auto. destruct (cancel t); auto.
  destruct (skip_pos c ps0 is_0); apply (IH _ _ _ _ _ H); lia.
Qed.

Lemma start_mono est cancel c f r : start est cancel c f = Ok r ->
  forall f', f <= f' -> start est cancel c f' = Ok r.
Proof.
  unfold start. intros H f' Hf.
  destruct (length (parts c) <? kk c); auto. destruct (kk c =? 0); auto. destruct (cancel 0); auto.
  eapply loop_mono; eauto.
Qed.

Lemma start_ok_eq est cancel c f r : well_formed (parts c) (kk c) (fixG c) -> fix_ok (parts c) (fixI c) ->
  start est cancel c f = Ok r ->
  counter r = length (visited r) /\ states r = fold_left addmsg (map v_msg (visited r)) [] /\
  visited r = logs est c 0 (plan cancel c).
Proof.
  intros Hwf Hfi H. destruct (search_result est cancel c Hwf Hfi) as (F & s & H1 & H2 & H3 & H4).
  assert (E : r = s).
  { pose proof (start_mono _ _ _ _ _ H (f + F) ltac:(lia)) as E1. rewrite H1 in E1 by lia. congruence. }
  subst r. rewrite H2, H4, logs_length. split; auto. rewrite <- H4. auto.
Qed.

Theorem accounting est cancel c fuel s :
  well_formed (parts c) (kk c) (fixG c) -> fix_ok (parts c) (fixI c) ->
  start est cancel c fuel = Ok s ->
  counter s = length (visited s) /\
  (forall m, m <> ""%string -> lookup (states s) m = count_occ string_dec (map v_msg (visited s)) m) /\
  list_sum (map snd (states s)) = length (filter (fun v => negb (String.eqb (v_msg v) "")) (visited s)) /\
  NoDup (map fst (states s)) /\ ~ In ""%string (map fst (states s)).
Proof.
  intros Hwf Hfi H. destruct (start_ok_eq _ _ _ _ _ Hwf Hfi H) as (H1 & H2 & H3).
  split; auto. rewrite H2. split; [|split].
  - intros m Hm. rewrite lookup_addmsgs by auto. reflexivity.
  - change (list_sum (map snd ?t)) with (sumv t). rewrite sumv_addmsgs. simpl.
    generalize (visited s). intros l. induction l as [|a l IH]; simpl; auto.
    destruct (String.eqb (v_msg a) ""); simpl; auto.
  - apply keys_addmsgs; simpl; [constructor|tauto].
Qed.

Theorem merged_accounting (ss : list srch) :
  Forall (fun s => exists est cancel c fuel,
     well_formed (parts c) (kk c) (fixG c) /\ fix_ok (parts c) (fixI c) /\ start est cancel c fuel = Ok s) ss ->
  total_counter ss = length (flat_map visited ss) /\
  (forall m, m <> ""%string ->
     lookup (merge_tables (map states ss)) m = count_occ string_dec (map v_msg (flat_map visited ss)) m) /\
  list_sum (map snd (merge_tables (map states ss)))
  = length (filter (fun v => negb (String.eqb (v_msg v) "")) (flat_map visited ss)).
Proof.
  intros HF.
  assert (HA : Forall (fun s => counter s = length (visited s) /\
    (forall m, m <> ""%string -> lookup (states s) m = count_occ string_dec (map v_msg (visited s)) m) /\
    list_sum (map snd (states s)) = length (filter (fun v => negb (String.eqb (v_msg v) "")) (visited s)) /\
    NoDup (map fst (states s))) ss).
  { eapply Forall_impl; [|exact HF]. intros s (est & cancel & c & fuel & H1 & H2 & H3).
    destruct (accounting _ _ _ _ _ H1 H2 H3) as (A & B & C & D & _). auto. }
  clear HF. split; [|split].
  - unfold total_counter.
    assert (G : forall a, fold_left (fun a s => a + counter s) ss a = a + length (flat_map visited ss)).
    { induction HA as [|s ss (H & _) _ IH]; intros a; simpl; [lia|].
      rewrite IH, H, app_length. lia. }
    rewrite G. reflexivity.
  - intros m Hm. unfold merge_tables. rewrite merge_lookup.
    2:{ rewrite Forall_map. eapply Forall_impl; [|exact HA]. simpl. tauto. }
    simpl. rewrite map_map.
    induction HA as [|s ss (_ & H & _) _ IH]; simpl; auto.
    rewrite map_app, count_occ_app, H, IH by auto. reflexivity.
  - change (list_sum (map snd ?t)) with (sumv t). unfold merge_tables. rewrite merge_total. simpl. rewrite map_map.
    induction HA as [|s ss (_ & _ & H & _) _ IH]; simpl; auto.
    rewrite filter_app, app_length, <- H, IH. reflexivity.
Qed.

Lemma keep1_firstn c n : forall l, exists m, m <= n /\ keep1 c (firstn n l) = firstn m (keep1 c l).
Proof.
  intros l. destruct l as [|x l]; [exists 0; rewrite firstn_nil; simpl; split; [lia|auto]|].
  destruct n as [|n]; [exists 0; simpl; auto|].
  assert (G : forall l n, exists m, m <= n /\ filter (noskip c) (firstn n l) = firstn m (filter (noskip c) l)).
  { clear. induction l as [|y l IH]; intros n.
    - exists 0. rewrite firstn_nil. split; [lia|auto].
    - destruct n as [|n]; [exists 0; simpl; auto|].
      destruct (IH n) as (m & Hm & E). simpl. destruct (noskip c y).
      + exists (S m). simpl. rewrite E. split; [lia|auto].
      + exists m. split; [lia|auto]. }
  destruct (G l n) as (m & Hm & E). exists (S m). simpl. rewrite E. split; [lia|auto].
Qed.

Theorem cancel_prefix est cancel c fuel fuel' s s' T :
  well_formed (parts c) (kk c) (fixG c) -> fix_ok (parts c) (fixI c) ->
  start est (fun _ => false) c fuel = Ok s ->
  start est cancel c fuel' = Ok s' ->
  (exists n, visited s' = firstn n (visited s)) /\
  (cancel T = true -> length (visited s') <= T).
Proof.
  intros Hwf Hfi H H'. apply start_ok_eq in H; auto. apply start_ok_eq in H'; auto.
  destruct H as (_ & _ & ->), H' as (_ & _ & ->). unfold plan.
  rewrite (cut_false (fun _ => false)) by auto.
  destruct (cut_prefix cancel 0 (all_pos c)) as [n E]. split.
  - rewrite E. destruct (keep1_firstn c n (all_pos c)) as (m & _ & E2). exists m.
    rewrite E2. apply logs_firstn.
  - intros HT. rewrite logs_length.
    pose proof (cut_bound cancel T 0 (all_pos c) HT) as Hb.
    assert (G : forall l, length (keep1 c l) <= length l).
    { intros [|x l]; simpl; auto. apply le_n_S. induction l as [|y l IH]; simpl; auto.
      destruct (noskip c y); simpl; lia. }
    specialize (G (cut cancel 0 (all_pos c))). lia.
Qed.

Theorem cancel_terminates est cancel c :
  well_formed (parts c) (kk c) (fixG c) -> fix_ok (parts c) (fixI c) ->
  exists F s, forall fuel, F <= fuel -> start est cancel c fuel = Ok s.
Proof.
  intros Hwf Hfi. destruct (search_result est cancel c Hwf Hfi) as (F & s & H1 & _). exists F, s; auto.
Qed.
