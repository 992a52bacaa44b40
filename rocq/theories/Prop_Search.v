(** Properties C42, C43, C44, C47, C59, C60: the model-set search. *)
From Coq Require Import String.
From Verif Require Import Base SearchModel SearchSpec SearchProofs5.
From Coq Require Import ZifyBool.
Local Open Scope nat_scope.

(** C42: without cancellation and restriction the search ends and estimates every choice of k
    partitions (with the fixed leading ones) and one item of each, exactly once; the variables
    handed to the estimation are those of the choice; and when the partitions are disjoint no two
    estimated models consist of the same variables. *)
Theorem c42_search_visits_every_model_once est cancel c :
  (forall t, cancel t = false) -> well_formed (parts c) (kk c) (fixG c) ->
  fixI c = 0%Z -> checkEmpty c = false ->
  exists F s, (forall fuel, F <= fuel -> start est cancel c fuel = Ok s) /\
    NoDup (map (fun v => (v_ps v, v_is v)) (visited s)) /\
    (forall ps is_, In (ps, is_) (map (fun v => (v_ps v, v_is v)) (visited s)) <->
       choice (parts c) (kk c) (fixG c) ps is_) /\
    (forall v, In v (visited s) -> v_cur v = model_at (parts c) (v_ps v) (v_is v)) /\
    (forall j v, nth_error (visited s) j = Some v -> v_msg v = est j (v_cur v)) /\
    (NoDup (concat (parts c)) ->
       ForallOrdPairs (fun a b => ~ Permutation (v_cur a) (v_cur b)) (visited s)).
Proof.
  intros Hc Hwf Hf He.
  destruct (search_visits_once est cancel c Hc Hwf (or_introl Hf)) as (F & s & H1 & H2 & H3 & H4).
  exists F, s. split; [exact H1|]. split; [exact H2|]. split; [|exact H4].
  intros ps is_. rewrite H3. tauto.
Qed.
Print Assumptions c42_search_visits_every_model_once.

(** Non-vacuity: 3 partitions, size 2, first partition fixed: 5 models. *)
Definition ex_c : cfg :=
  {| parts := [[0]; [1; 2]; [3; 4; 5]]%Z; kk := 2; fixG := 1; fixI := 0%Z; checkEmpty := false; lenTargets := 1%Z |}.
Example c42_nonvacuous :
  well_formed (parts ex_c) (kk ex_c) (fixG ex_c) /\ NoDup (concat (parts ex_c)) /\
  exists s, start (fun _ _ => ""%string) (fun _ => false) ex_c 100 = Ok s /\
    map v_cur (visited s) = [[0;1]; [0;2]; [0;3]; [0;4]; [0;5]]%Z.
Proof.
  split; [|split].
  - split; [repeat constructor; discriminate|]. simpl; lia.
  - simpl. repeat (constructor; [simpl; intuition discriminate|]). constructor.
  - eexists. split; [vm_compute; reflexivity|reflexivity].
Qed.

(** C43: the expected number equals the number of estimations; closed form without restriction. *)
Theorem c43_count_equals_estimated est cancel c :
  (forall t, cancel t = false) -> well_formed (parts c) (kk c) (fixG c) -> fix_ok (parts c) (fixI c) ->
  exists F s, forall fuel, F <= fuel -> start est cancel c fuel = Ok s /\
     get_count c fuel = Ok (counter s) /\ counter s = length (visited s).
Proof. exact (search_count est cancel c). Qed.
Print Assumptions c43_count_equals_estimated.

Theorem c43_count_closed_form c :
  well_formed (parts c) (kk c) (fixG c) -> fixI c = 0%Z -> checkEmpty c = false ->
  exists F, forall fuel, F <= fuel ->
     get_count c fuel = Ok (model_count (map (@length Z) (parts c)) (kk c) (fixG c)).
Proof. exact (count_formula c). Qed.
Print Assumptions c43_count_closed_form.

Example c43_nonvacuous : get_count ex_c 100 = Ok 5 /\ model_count [1; 2; 3] 2 1 = 5 /\
  model_count [2; 3; 4; 5] 3 0 = 2*3*4 + 2*3*5 + 2*4*5 + 3*4*5.
Proof. split; [|split]; vm_compute; reflexivity. Qed.

(** C44: with NumFixItems = m > 0 and sorted partitions, exactly the models whose first item is
    below m are estimated. *)
Theorem c44_fixed_items_exact est cancel c :
  (forall t, cancel t = false) -> well_formed (parts c) (kk c) (fixG c) ->
  (0 < fixI c)%Z -> sorted_parts (parts c) -> (hd 0 (hd [] (parts c)) < fixI c)%Z ->
  checkEmpty c = false ->
  exists F s, (forall fuel, F <= fuel -> start est cancel c fuel = Ok s) /\
    NoDup (map (fun v => (v_ps v, v_is v)) (visited s)) /\
    (forall ps is_, In (ps, is_) (map (fun v => (v_ps v, v_is v)) (visited s)) <->
       choice (parts c) (kk c) (fixG c) ps is_ /\ (nth 0 (model_at (parts c) ps is_) 0 < fixI c)%Z).
Proof.
  intros Hc Hwf Hp Hs Hh He.
  destruct (search_visits_once est cancel c Hc Hwf (or_intror (conj Hs Hh))) as (F & s & H1 & H2 & H3 & _).
  exists F, s. split; [exact H1|]. split; [exact H2|].
  intros ps is_. rewrite H3. intuition lia.
Qed.
Print Assumptions c44_fixed_items_exact.

Definition ex_f : cfg :=
  {| parts := [[0; 2]; [1; 5]; [4]]%Z; kk := 2; fixG := 0; fixI := 2%Z; checkEmpty := false; lenTargets := 1%Z |}.
Example c44_nonvacuous :
  well_formed (parts ex_f) 2 0 /\ sorted_parts (parts ex_f) /\
  exists s, start (fun _ _ => ""%string) (fun _ => false) ex_f 100 = Ok s /\
    map v_cur (visited s) = [[0;1]; [0;5]; [0;4]; [1;4]]%Z.
Proof.
  split; [|split].
  - split; [repeat constructor; discriminate|]. simpl; lia.
  - split; repeat constructor; simpl; lia.
  - eexists. split; [vm_compute; reflexivity|reflexivity].
Qed.

(** C44, without the sortedness of the partitions' first items: the search stops at the first
    partition whose first item is not below m and misses admissible models after it. *)
Theorem c44_fixed_items_unsorted_refuted :
  ~ (forall est cancel c, (forall t, cancel t = false) -> well_formed (parts c) (kk c) (fixG c) ->
      (0 < fixI c)%Z -> Forall (StronglySorted Z.le) (parts c) -> (hd 0 (hd [] (parts c)) < fixI c)%Z ->
      checkEmpty c = false ->
      exists F s, (forall fuel, F <= fuel -> start est cancel c fuel = Ok s) /\
        (forall ps is_, choice (parts c) (kk c) (fixG c) ps is_ -> (nth 0 (model_at (parts c) ps is_) 0 < fixI c)%Z ->
            In (ps, is_) (map (fun v => (v_ps v, v_is v)) (visited s)))).
Proof.
  intros H.
  set (c := {| parts := [[0]; [5]; [1]]%Z; kk := 1; fixG := 0; fixI := 2%Z; checkEmpty := false; lenTargets := 1%Z |}).
  destruct (H (fun _ _ => ""%string) (fun _ => false) c) as (F & s & H1 & H2); auto; try reflexivity.
  - split; [repeat constructor; discriminate|]. simpl; lia.
  - repeat constructor.
  - specialize (H1 (F + 10) ltac:(lia)). rewrite Nat.add_comm in H1. vm_compute in H1.
    injection H1 as <-. specialize (H2 [2] [0]). simpl in H2.
    destruct H2 as [E|[]]; [|lia|discriminate].
    repeat split; simpl; auto; repeat constructor; lia.
Qed.
Print Assumptions c44_fixed_items_unsorted_refuted.

(** C60: with CheckForEmpty the estimated models are the first position and the models whose FIRST
    item is a target (index below LengthTargets). *)
Theorem c60_check_empty_exact est cancel c :
  (forall t, cancel t = false) -> well_formed (parts c) (kk c) (fixG c) ->
  fixI c = 0%Z -> checkEmpty c = true ->
  exists F s, (forall fuel, F <= fuel -> start est cancel c fuel = Ok s) /\
    NoDup (map (fun v => (v_ps v, v_is v)) (visited s)) /\
    (forall ps is_, In (ps, is_) (map (fun v => (v_ps v, v_is v)) (visited s)) <->
       choice (parts c) (kk c) (fixG c) ps is_ /\
       ((nth 0 (model_at (parts c) ps is_) 0 < lenTargets c)%Z \/
        (ps = seq 0 (kk c) /\ is_ = repeat 0 (kk c)))).
Proof.
  intros Hc Hwf Hf He.
  destruct (search_visits_once est cancel c Hc Hwf (or_introl Hf)) as (F & s & H1 & H2 & H3 & _).
  exists F, s. split; [exact H1|]. split; [exact H2|].
  intros ps is_. rewrite H3, He. intuition discriminate.
Qed.
Print Assumptions c60_check_empty_exact.

Example c60_nonvacuous :
  exists s, start (fun _ _ => ""%string) (fun _ => false)
    {| parts := [[0; 3]; [1; 4]]%Z; kk := 2; fixG := 0; fixI := 0%Z; checkEmpty := true; lenTargets := 2%Z |} 100 = Ok s /\
    map v_cur (visited s) = [[0;1]; [0;4]]%Z.
Proof. eexists. split; [vm_compute; reflexivity|reflexivity]. Qed.

(** C60: the claim "every model with at least one target is estimated" fails when a partition
    without a target precedes one with a target. *)
Theorem c60_models_with_a_target_estimated_refuted :
  ~ (forall est cancel c, (forall t, cancel t = false) -> well_formed (parts c) (kk c) (fixG c) ->
      fixI c = 0%Z -> checkEmpty c = true -> NoDup (concat (parts c)) ->
      exists F s, (forall fuel, F <= fuel -> start est cancel c fuel = Ok s) /\
        (forall ps is_, choice (parts c) (kk c) (fixG c) ps is_ ->
            (exists y, In y (model_at (parts c) ps is_) /\ (y < lenTargets c)%Z) ->
            In (ps, is_) (map (fun v => (v_ps v, v_is v)) (visited s)))).
Proof.
  intros H.
  set (c := {| parts := [[1]; [2]; [0]]%Z; kk := 2; fixG := 0; fixI := 0%Z; checkEmpty := true; lenTargets := 1%Z |}).
  destruct (H (fun _ _ => ""%string) (fun _ => false) c) as (F & s & H1 & H2); auto; try reflexivity.
  - split; [repeat constructor; discriminate|]. simpl; lia.
  - simpl. repeat (constructor; [simpl; intuition discriminate|]). constructor.
  - specialize (H1 (F + 10) ltac:(lia)). rewrite Nat.add_comm in H1. vm_compute in H1.
    injection H1 as <-. specialize (H2 [0; 2] [0; 0]). simpl in H2.
    destruct H2 as [E|[]]; [| |discriminate].
    + repeat split; simpl; auto; repeat constructor; simpl; lia.
    + exists 0%Z. split; auto; lia.
Qed.
Print Assumptions c60_models_with_a_target_estimated_refuted.

(** C47: counters and failure tables of one searcher and of all searchers together. *)
Theorem c47_accounting est cancel c fuel s :
  well_formed (parts c) (kk c) (fixG c) -> fix_ok (parts c) (fixI c) ->
  start est cancel c fuel = Ok s ->
  counter s = length (visited s) /\
  (forall m, m <> ""%string -> lookup (states s) m = count_occ string_dec (map v_msg (visited s)) m) /\
  list_sum (map snd (states s)) = length (filter (fun v => negb (String.eqb (v_msg v) "")) (visited s)) /\
  NoDup (map fst (states s)) /\ ~ In ""%string (map fst (states s)).
Proof. exact (accounting est cancel c fuel s). Qed.
Print Assumptions c47_accounting.

Theorem c47_merged_accounting (ss : list srch) :
  Forall (fun s => exists est cancel c fuel,
     well_formed (parts c) (kk c) (fixG c) /\ fix_ok (parts c) (fixI c) /\ start est cancel c fuel = Ok s) ss ->
  total_counter ss = length (flat_map visited ss) /\
  (forall m, m <> ""%string ->
     lookup (merge_tables (map states ss)) m = count_occ string_dec (map v_msg (flat_map visited ss)) m) /\
  list_sum (map snd (merge_tables (map states ss)))
  = length (filter (fun v => negb (String.eqb (v_msg v) "")) (flat_map visited ss)).
Proof. exact (merged_accounting ss). Qed.
Print Assumptions c47_merged_accounting.

Definition ex_est (n : nat) (cur : list Z) : string :=
  (if nth 1 cur 0 =? 3 then "singular" else if 3 <? nth 1 cur 0 then "few obs" else "")%Z%string.
Example c47_nonvacuous : exists s,
  start ex_est (fun _ => false) ex_c 100 = Ok s /\ counter s = 5 /\
  states s = [("singular", 1); ("few obs", 2)]%string /\
  merge_tables [states s; states s] = [("singular", 2); ("few obs", 4)]%string.
Proof. eexists. split; [vm_compute; reflexivity|]. repeat split. Qed.

(** C59: under any cancellation the run ends; the estimated models are a prefix of those of the
    full run, and at most T models are estimated when the check number T answers "cancel". *)
Theorem c59_cancel_terminates est cancel c :
  well_formed (parts c) (kk c) (fixG c) -> fix_ok (parts c) (fixI c) ->
  exists F s, forall fuel, F <= fuel -> start est cancel c fuel = Ok s.
Proof. exact (cancel_terminates est cancel c). Qed.
Print Assumptions c59_cancel_terminates.

Theorem c59_cancel_prefix est cancel c fuel fuel' s s' T :
  well_formed (parts c) (kk c) (fixG c) -> fix_ok (parts c) (fixI c) ->
  start est (fun _ => false) c fuel = Ok s ->
  start est cancel c fuel' = Ok s' ->
  (exists n, visited s' = firstn n (visited s)) /\
  (cancel T = true -> length (visited s') <= T).
Proof. exact (cancel_prefix est cancel c fuel fuel' s s' T). Qed.
Print Assumptions c59_cancel_prefix.

Example c59_nonvacuous : exists s',
  start ex_est (fun t => 3 <=? t) ex_c 100 = Ok s' /\ map v_cur (visited s') = [[0;1]; [0;2]; [0;3]]%Z.
Proof. eexists. split; [vm_compute; reflexivity|reflexivity]. Qed.
