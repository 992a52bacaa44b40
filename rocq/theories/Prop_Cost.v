(** Property C35 (frequency costs). *)
From Verif Require Import CostSpec CostModel CostProofs RocProofs3 RocProofs4.
From Coq Require Import Lia Field Qcanon.
Local Open Scope Qc_scope.

(** Check accepts exactly the valid tables, every other one is an error. *)
Theorem c35_check (c : mat Qc) (n : Z) : mat_ok c -> (0 <= n)%Z -> (fc_check c n = Ok tt <-> valid_table n c) /\ (fc_check c n = Throw <-> ~ valid_table n c).
Proof. exact (check_iff c n). Qed.
Print Assumptions c35_check.
(** An accepted table has one bracket for each probability up to its last bound, and none above. *)
Theorem c35_brackets (c : mat Qc) (n : Z) (p : Qc) : mat_ok c -> (0 <= n)%Z -> fc_check c n = Ok tt ->
  ((exists! r, bracket c p r) <-> p <= bound c (nrows c - 1)) /\ (bound c (nrows c - 1) < p -> forall r, ~ bracket c p r).
Proof.
  intros M N H. apply check_iff in H; auto. split.
  - rewrite <- (bracket_exists c p n) by auto. split; [intros (r & B & _); eauto|]. intros (r & B). exists r. split; auto. intros r' B'. apply (bracket_unique c p); auto.
  - intros L r B. assert (X : p <= bound c (nrows c - 1)) by (apply (bracket_exists c p n); eauto). apply (Qclt_not_le _ _ L X).
Qed.
Print Assumptions c35_brackets.
(** Calculate: if the probability of the label of each observation has a bracket (row r) in each table, each
    observation is charged the cost of its class in that row, times its weight; missing labels do not count. *)
Theorem c35_calculate (cs : list (mat Qc)) (scores : mat (option Qc)) (ws : option (list Qc)) (labels : list (option Z)) (classes : Z) (r : mat Qc -> Z -> Z) :
  cs <> [] -> (forall c, In c cs -> mat_ok c /\ ncols c = (classes + 1)%Z) ->
  mat_ok scores -> match ws with Some l => (length labels <= length l)%nat | None => True end ->
  (forall i k, label labels i = Some k -> (0 <= i)%Z -> (0 <= k < classes)%Z /\ exists p, opel scores i k = Some p /\ forall c, In c cs -> bracket c p (r c i)) ->
  let total c := over_cases labels (fun i k => weight_of ws i * cost_at c (r c i) k) in
  let count := over_cases labels (fun i k => weight_of ws i) in
  fc_calculate cs (map (option_map qz) labels) scores ws = Ok (map total cs, map (fun _ => count) cs,
    if qeqb count 0 then None else Some (qsum (map (fun c => total c / count) cs) / qn (length cs))).
Proof.
  intros NE HC MS HW H. apply calculate_ok; auto. intros j k J E. destruct (H j k E J) as (K & p & P & B). split; [lia|]. split.
  - destruct ws as [l|]; auto. unfold label in E. destruct (Nat.lt_ge_cases (Z.to_nat j) (length labels)) as [L|L]; [lia|]. rewrite nth_overflow in E by auto. discriminate.
  - exists p. split; auto. apply Forall_forall. intros c Hc. destruct (HC c Hc). split; auto. split; auto. lia.
Qed.
Print Assumptions c35_calculate.
Lemma qsum_const {A} (l : list A) : qsum (map (fun _ => 1) l) = qn (length l).
Proof. induction l as [|a l IH]; [reflexivity|]. cbn [map length]. change (qsum (1 :: ?l)) with (1 + qsum l). rewrite IH. unfold qn. rewrite Nat2Z.inj_succ. unfold Z.succ. rewrite qz_add. change (qz 1) with 1. ring. Qed.
(** If all costs are in [0,1], so is the result. *)
Theorem c35_range (cs : list (mat Qc)) (scores : mat (option Qc)) (ws : option (list Qc)) (labels : list (option Z)) (classes : Z) (r : mat Qc -> Z -> Z) R :
  cs <> [] -> (forall c, In c cs -> mat_ok c /\ ncols c = (classes + 1)%Z /\ forall r k, 0 <= cost_at c r k <= 1) ->
  mat_ok scores -> match ws with Some l => (length labels <= length l)%nat /\ Forall (fun w => 0 <= w) l | None => True end ->
  (forall i k, label labels i = Some k -> (0 <= i)%Z -> (0 <= k < classes)%Z /\ exists p, opel scores i k = Some p /\ forall c, In c cs -> bracket c p (r c i)) ->
  fc_calculate cs (map (option_map qz) labels) scores ws = Ok R -> forall a, snd R = Some a -> 0 <= a <= 1.
Proof.
  intros NE HC MS HW H ER a EA. rewrite (c35_calculate cs scores ws labels classes r) in ER; auto.
  2: { intros c Hc. destruct (HC c Hc) as (? & ? & _). auto. } 2: { destruct ws; tauto. }
  cbv zeta in ER. injection ER as <-. cbn [snd] in EA. set (W := over_cases labels (fun i k => weight_of ws i)) in *. destruct (qeqb_spec W 0) as [Z|Z]; [discriminate|]. injection EA as <-.
  assert (WN : forall i, 0 <= weight_of ws i). { intros i. unfold weight_of, vel. destruct ws as [l|]; [|discriminate]. destruct HW as (_ & F). rewrite Forall_forall in F. destruct (nth_in_or_default (Z.to_nat i) l 0) as [I|I]; [auto|rewrite I; apply Qcle_refl]. }
  assert (W0 : 0 <= W). { unfold W, over_cases. apply qsum_nonneg. apply Forall_forall. intros x Hx. apply in_map_iff in Hx as (i & <- & _). destruct (label labels i); auto. apply Qcle_refl. }
  assert (WP : 0 < W) by (apply Qcle_lt_or_eq in W0 as [?|E]; auto; congruence).
  assert (NP : 0 < qn (length cs)) by (apply qn_pos; destruct cs; [congruence|cbn; lia]).
  assert (T : forall c, In c cs -> 0 <= over_cases labels (fun i k => weight_of ws i * cost_at c (r c i) k) / W <= 1).
  { intros c Hc. destruct (HC c Hc) as (_ & _ & CR). split.
    - apply Qc_mul_nonneg; [|apply Qc_inv_nonneg; auto]. unfold over_cases. apply qsum_nonneg. apply Forall_forall. intros x Hx. apply in_map_iff in Hx as (i & <- & _). destruct (label labels i); [|apply Qcle_refl]. apply Qc_mul_nonneg; auto. apply CR.
    - replace 1 with (W / W) by (field; auto). apply Qcmult_le_compat_r; [|apply Qc_inv_nonneg; auto]. unfold over_cases, W. apply qsum_le. intros i _. destruct (label labels i); [|apply Qcle_refl].
      replace (weight_of ws i) with (1 * weight_of ws i) at 2 by ring. rewrite Qcmult_comm. apply Qcmult_le_compat_r; auto. apply CR. }
  split.
  - apply Qc_mul_nonneg; [|apply Qc_inv_nonneg; auto]. apply qsum_nonneg. apply Forall_forall. intros x Hx. apply in_map_iff in Hx as (c & <- & Hc). apply T; auto.
  - replace 1 with (qn (length cs) / qn (length cs)) by (field; apply Qc_lt_ne in NP; auto). apply Qcmult_le_compat_r; [|apply Qc_inv_nonneg; auto]. rewrite <- qsum_const. apply qsum_le. intros c Hc. apply T. auto.
Qed.
Print Assumptions c35_range.
(** Refuted: an accepted table need not reach 1. A probability above its last bound is charged the first cost
    of the next class, or is read outside the table for the last class. *)
Theorem c35_bracket_refuted : exists c (scores : mat (option Qc)), fc_check c 2 = Ok tt /\ mat_ok c /\ mat_ok scores /\
  opel scores 0 0 = Some (Q2Qc (9 # 10)) /\ opel scores 0 1 = Some (Q2Qc (9 # 10)) /\
  (forall r, (0 <= r < nrows c)%Z -> cost_at c r 0 = 1) /\ (forall r, (0 <= r < nrows c)%Z -> cost_at c r 1 = qz 5) /\
  fc_calculate [c] (map (option_map qz) [Some 0%Z]) scores None = Ok ([qz 5], [1], Some (qz 5)) /\
  fc_calculate [c] (map (option_map qz) [Some 1%Z]) scores None = UB.
Proof.
  exists (Mat 2 3 [Q2Qc (1 # 4); Q2Qc (3 # 4); 1; 1; qz 5; qz 5]), (Mat 1 2 [Some (Q2Qc (9 # 10)); Some (Q2Qc (9 # 10))]).
  split; [reflexivity|]. split; [vm_compute; lia|]. split; [vm_compute; lia|]. split; [reflexivity|]. split; [reflexivity|].
  split; [intros r Hr; change (nrows _) with 2%Z in Hr; assert (r = 0 \/ r = 1)%Z as [-> | ->] by lia; reflexivity|].
  split; [intros r Hr; change (nrows _) with 2%Z in Hr; assert (r = 0 \/ r = 1)%Z as [-> | ->] by lia; reflexivity|].
  split; [|reflexivity]. vm_compute. repeat first [apply Qc_is_canon; reflexivity | f_equal].
Qed.
Print Assumptions c35_bracket_refuted.
(** Two classes, a bracket hit at its bound, a missing label, weights. *)
Definition ex_table : mat Qc := Mat 3 3 [Q2Qc (1 # 4); Q2Qc (3 # 4); 1; 1; Q2Qc (1 # 2); 0; Q2Qc (4 # 5); 0; 0].
Definition ex_scores : mat (option Qc) := Mat 3 2 [Some (Q2Qc (3 # 4)); None; Some (Q2Qc (4 # 5)); Some (Q2Qc (1 # 4)); None; Some (Q2Qc (1 # 5))].
Example c35_case : fc_check ex_table 2 = Ok tt /\ bound ex_table (nrows ex_table - 1) = 1 /\ bracket ex_table (Q2Qc (3 # 4)) 1 /\ bracket ex_table (Q2Qc (1 # 5)) 0 /\
  fc_calculate [ex_table] (map (option_map qz) [Some 0; None; Some 1]%Z) ex_scores (Some (map qz [3; 5; 1]%Z)) = Ok ([Q2Qc (23 # 10)], [qz 4], Some (Q2Qc (23 # 40))).
Proof.
  split; [reflexivity|]. split; [reflexivity|]. split; [|split].
  - split; [vm_compute; split; congruence|]. split; [discriminate|]. intros r' Hr. assert (r' = 0%Z) as -> by lia. reflexivity.
  - split; [vm_compute; split; congruence|]. split; [discriminate|]. intros r' Hr. lia.
  - vm_compute. repeat first [apply Qc_is_canon; reflexivity | f_equal].
Qed.
