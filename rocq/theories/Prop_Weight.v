(** Properties C36 (metrics and weights) and C24 (Box-Cox transformation). *)
From Verif Require Import WeightModel WeightProofs.
From Coq Require Import Lra Lia.
Local Open Scope R_scope.

(** ** C36 *)
(** Both kinds of metrics. *)
Inductive metric := In_sample (t : gof) | Out_sample (t : scoring).
Definition to_weight (k : metric) : R -> option R -> option R := match k with In_sample t => gof_to_weight t | Out_sample t => sc_to_weight t end.
Definition from_weight (k : metric) : R -> option R -> option R := match k with In_sample t => gof_from_weight t | Out_sample t => sc_from_weight t end.
Definition positive (k : metric) : bool := match k with In_sample t => gof_positive t | Out_sample t => sc_positive t end.
(** A larger value is better for positive metrics, a smaller one for the others. *)
Definition better (k : metric) (m m' : R) : Prop := if positive k then m' < m else m < m'.
(** Every metric has a weight, which converts back to the metric. *)
Theorem c36_inverse (k : metric) (m a : R) : exists w, to_weight k m (Some a) = Some w /\ from_weight k w (Some a) = Some m.
Proof.
  destruct k as [[]|[]]; cbn; eexists; (split; [reflexivity|]); unfold exp_metric; rewrite ?log_exp; f_equal; lra.
Qed.
Print Assumptions c36_inverse.
(** The other way round: for the metrics on an exponential scale only positive weights have a metric. *)
Theorem c36_inverse_weight (k : metric) (w a : R) : (0 < w \/ to_weight k 0 None <> None) -> exists m, from_weight k w (Some a) = Some m /\ to_weight k m (Some a) = Some w.
Proof.
  intros H. assert (L : 0 < w -> log_ w = Some (ln w)) by (intros P; unfold log_; destruct (Rlt_dec 0 w); [auto|contradiction]).
  destruct k as [[]|[]]; cbn in *; unfold exp_metric; try (destruct H as [H|H]; [|congruence]; rewrite L by auto); eexists; (split; [reflexivity|]); cbn; f_equal; try lra;
    match goal with |- exp ?e = _ => replace e with (ln w) by lra; apply exp_ln; auto end.
Qed.
Print Assumptions c36_inverse_weight.
(** A larger weight is a better metric. *)
Theorem c36_order (k : metric) (m m' a w w' : R) : to_weight k m (Some a) = Some w -> to_weight k m' (Some a) = Some w' -> (w' < w <-> better k m m').
Proof.
  intros H H'. unfold better. destruct k as [[]|[]]; cbn in *; injection H as <-; injection H' as <-; try lra; rewrite exp_lt_iff; lra.
Qed.
Print Assumptions c36_order.
(** Weights are positive, and at most 1, if the metric is not below the minimum, in [0,1] for rates. *)
Theorem c36_range (k : metric) (m a w : R) : to_weight k m (Some a) = Some w ->
  (to_weight k m None = None /\ 0 < w /\ (a <= m -> w <= 1) /\ (m = a -> w = 1)) \/ (to_weight k m None = Some w /\ (0 <= m <= 1 -> 0 <= w <= 1)).
Proof.
  intros H. assert (G : forall e, (e <= 0 -> exp e <= 1) /\ (e = 0 -> exp e = 1)). { intros e. split; [|intros ->; apply exp_0]. intros [L| ->]; [left; rewrite <- exp_0; apply exp_increasing; auto|right; apply exp_0]. }
  destruct k as [[]|[]]; cbn in *; injection H as <-; try (right; split; [reflexivity|]; lra); left; (split; [reflexivity|]); (split; [apply exp_pos|]); split; intros; apply G; lra.
Qed.
Print Assumptions c36_range.
(** Without a minimum (the default) the weight of most metrics is NaN. *)
Theorem c36_default_nan : forall m, to_weight (In_sample GAic) m None = None /\ to_weight (In_sample GSic) m None = None /\ to_weight (In_sample GBrier) m None = None /\
  to_weight (Out_sample SMae) m None = None /\ to_weight (Out_sample SRmse) m None = None /\ to_weight (Out_sample SMape) m None = None /\ to_weight (Out_sample SRmspe) m None = None /\ to_weight (Out_sample SCrps) m None = None /\ to_weight (Out_sample SBrier) m None = None.
Proof. repeat split. Qed.
Print Assumptions c36_default_nan.
Example c36_case : to_weight (Out_sample SMape) 300 (Some 100) = Some (exp (-1)) /\ to_weight (In_sample GFrequencyCost) (1 / 4) None = Some (3 / 4) /\ better (In_sample GAic) 1 2 /\ better (Out_sample SAuc) 2 1.
Proof. split; [cbn; do 2 f_equal; lra|]. split; [cbn; f_equal; lra|]. split; unfold better; cbn; lra. Qed.

(** ** C24 *)
Theorem c24_inverse (x : R) (l : option R) : 0 < x -> box_cox_inv (box_cox (Some x) l) l = Some x.
Proof. exact (bc_inv x l). Qed.
Print Assumptions c24_inverse.
(** The other way round: every number is a transform for lambda 0, the numbers with lambda * z + 1 > 0 for others. *)
Theorem c24_inverse_image (z : R) (l : R) : l = 0 \/ 0 < l * z + 1 -> box_cox (box_cox_inv (Some z) (Some l)) (Some l) = Some z.
Proof. intros H. destruct (Req_dec l 0) as [-> |E]; [apply inv_bc0|]. apply inv_bc; auto. destruct H; [contradiction|auto]. Qed.
Print Assumptions c24_inverse_image.
(** Defined by the usual formula, increasing, and continuous at lambda 0. *)
Theorem c24_formula (x l : R) : 0 < x -> box_cox (Some x) (Some l) = Some (if Req_EM_T l 0 then ln x else (Rpower x l - 1) / l).
Proof. exact (box_cox_pos x l). Qed.
Print Assumptions c24_formula.
Theorem c24_increasing (x y l : R) : 0 < x -> x < y -> exists a b, box_cox (Some x) (Some l) = Some a /\ box_cox (Some y) (Some l) = Some b /\ a < b.
Proof. exact (bc_lt x y l). Qed.
Print Assumptions c24_increasing.
Theorem c24_limit (x : R) : 0 < x -> forall eps, 0 < eps -> exists delta, 0 < delta /\ forall l, Rabs l < delta -> exists a, box_cox (Some x) (Some l) = Some a /\ Rabs (a - ln x) < eps.
Proof. exact (bc_limit x). Qed.
Print Assumptions c24_limit.
(** A NaN lambda changes nothing, a NaN value stays NaN. *)
Theorem c24_nan (v : option R) (l : R) : box_cox v None = v /\ box_cox_inv v None = v /\ box_cox None (Some l) = None /\ box_cox_inv None (Some l) = None.
Proof. auto. Qed.
Print Assumptions c24_nan.
(** Arrays: exactly the first n elements are transformed; the inverse restores arrays of positive numbers and NaN. *)
Theorem c24_array (d : list (option R)) (n : nat) (l : option R) : (n <= length d)%nat ->
  box_cox_array d n l = Ok (map (fun v => box_cox v l) (firstn n d) ++ skipn n d) /\ box_cox_inv_array d n l = Ok (map (fun v => box_cox_inv v l) (firstn n d) ++ skipn n d) /\
  (Forall (fun v => match v with Some x => 0 < x | None => True end) d -> exists d', box_cox_array d n l = Ok d' /\ box_cox_inv_array d' n l = Ok d).
Proof.
  intros H. assert (A : box_cox_array d n l = Ok (map (fun v => box_cox v l) (firstn n d) ++ skipn n d)).
  { unfold box_cox_array. destruct l; [apply each_ok; auto|]. cbn. rewrite map_id, firstn_skipn. auto. }
  assert (I : forall d, (n <= length d)%nat -> box_cox_inv_array d n l = Ok (map (fun v => box_cox_inv v l) (firstn n d) ++ skipn n d)).
  { intros e He. unfold box_cox_inv_array. destruct l; [apply each_ok; auto|]. cbn. rewrite map_id, firstn_skipn. auto. }
  split; auto. split; auto. intros F. eexists. split; [exact A|]. assert (LF : length (map (fun v => box_cox v l) (firstn n d)) = n) by (rewrite map_length, firstn_length; lia).
  rewrite I by (rewrite app_length, LF; lia). f_equal. rewrite firstn_app, LF, Nat.sub_diag, firstn_O, app_nil_r, skipn_app, LF, Nat.sub_diag, skipn_O. rewrite firstn_all2 by lia. rewrite skipn_all2 by lia. cbn [app].
  rewrite map_map. rewrite <- (firstn_skipn n d) at 3. f_equal. rewrite <- (map_id (firstn n d)) at 2. apply map_ext_in. intros v Hv. assert (Hd : In v d) by (rewrite <- (firstn_skipn n d); apply in_or_app; auto). rewrite Forall_forall in F. specialize (F v Hd).
  destruct v as [x|]; [apply bc_inv; auto|destruct l; auto].
Qed.
Print Assumptions c24_array.
(** Not so for negative numbers (outside the domain of the transformation). *)
Theorem c24_negative : box_cox (Some (-3)) (Some 2) = Some 4 /\ box_cox_inv (Some 4) (Some 2) = Some 3.
Proof.
  assert (I2 : Int_part 2 = 2%Z). { unfold Int_part. rewrite <- (tech_up 2 3); [reflexivity|lra|lra]. }
  split.
  - unfold box_cox, pow_. destruct (Req_EM_T 2 0); [lra|]. destruct (Rlt_dec 0 (-3)); [lra|]. destruct (Req_EM_T (-3) 0); [lra|]. rewrite I2. destruct (Req_EM_T 2 2) as [_|N]; [|lra]. f_equal. change (powerRZ (-3) 2) with (-3 * (-3 * 1)). lra.
  - unfold box_cox_inv. destruct (Req_EM_T 2 0); [lra|]. rewrite pow_pos by lra. f_equal. replace (2 * 4 + 1) with (Rpower 3 2). { rewrite Rpower_mult. replace (2 * (1 / 2)) with 1 by lra. apply Rpower_1. lra. } replace 2 with (1 + 1) at 1 by lra. rewrite Rpower_plus, Rpower_1 by lra. lra.
Qed.
Print Assumptions c24_negative.
Example c24_case : box_cox (Some 3) (Some 1) = Some 2 /\ box_cox (Some 1) (Some (-5)) = Some 0 /\ box_cox_array [Some 3; None; Some 7] 2 (Some 1) = Ok [Some 2; None; Some 7].
Proof.
  assert (A : box_cox (Some 3) (Some 1) = Some 2). { rewrite box_cox_pos by lra. destruct (Req_EM_T 1 0); [lra|]. rewrite Rpower_1 by lra. f_equal. lra. }
  split; auto. split; [rewrite box_cox_pos by lra; destruct (Req_EM_T (-5) 0); [lra|]; unfold Rpower; rewrite ln_1, Rmult_0_r, exp_0; f_equal; lra|].
  unfold box_cox_array. cbn [each bind]. rewrite A. auto.
Qed.
