(** C101: checks, counts and buffers of the estimation of discrete choice models. *)
From Verif Require Import DcCalcSpec DcCalcProofs.
From Coq Require Import Lia.
Local Open Scope Z_scope.

(** The object is declared for n0 rows, k1 exogenous columns and c0 choices; the data have at most these sizes and their choices
    are 0, ..., c - 1. The estimation starts exactly if every choice has enough weight, and the reported counts are the weights. *)
Theorem c101_accepts : forall t n0 k1 c0 details d ys k0 w c m,
  dc_new t n0 k1 c0 details = Ok d -> 1 <= Z.of_nat (length ys) <= n0 -> 1 <= k0 <= k1 -> c <= c0 ->
  possible t c -> (t = Ordered -> m = c) -> choices_upto (c - 1) ys -> weights_match ys w ->
  exists cs, length cs = Z.to_nat c /\ (forall j, 0 <= j <= c - 1 -> nth (Z.to_nat j) cs 0%Qc = weight_of ys (row_weights ys w) j) /\
    ((forall j, 0 <= j <= c - 1 -> enough t (weight_of ys (row_weights ys w) j)) ->
      dc_calculate d ys (Z.of_nat (length ys)) k0 w m = Ok (Start (c - 1) c (k0 + c - 2) cs)) /\
    (~ (forall j, 0 <= j <= c - 1 -> enough t (weight_of ys (row_weights ys w) j)) ->
      dc_calculate d ys (Z.of_nat (length ys)) k0 w m = Throw).
Proof. exact calculate_ok. Qed.
(** Without weights, every choice must occur in the data. *)
Theorem c101_every_choice_occurs : forall n0 k1 c0 details d ys k0 c,
  dc_new Ordered n0 k1 c0 details = Ok d -> 1 <= Z.of_nat (length ys) <= n0 -> 1 <= k0 <= k1 -> 3 <= c <= c0 -> choices_upto (c - 1) ys ->
  ((exists s, dc_calculate d ys (Z.of_nat (length ys)) k0 None c = Ok s) <-> forall j, 0 <= j <= c - 1 -> In (qz j) ys).
Proof.
  intros n0 k1 c0 details d ys k0 c D Hn Hk Hc V.
  destruct (calculate_ok Ordered n0 k1 c0 details d ys k0 None c c D Hn Hk ltac:(lia) ltac:(cbn; lia) (fun _ => eq_refl) V) as [cs [_ [_ [A B]]]];
    [intros ws K; discriminate K|]. cbn [row_weights] in A, B. split.
  - intros [s E] j Hj. destruct (in_dec Qc_eq_dec (qz j) ys) as [H|H]; [exact H|]. exfalso.
    rewrite B in E; [discriminate E|]. intros K. apply H, weight_ones_occurs, K, Hj.
  - intros H. eexists. apply A. intros j Hj. apply weight_ones_occurs, H, Hj.
Qed.
Theorem c101_both_values_occur : forall n0 k1 details d ys k0 m,
  dc_new Binary n0 k1 2 details = Ok d -> 1 <= Z.of_nat (length ys) <= n0 -> 1 <= k0 <= k1 -> choices_upto 1 ys ->
  ((exists s, dc_calculate d ys (Z.of_nat (length ys)) k0 None m = Ok s) <-> In (qz 0) ys /\ In (qz 1) ys).
Proof.
  intros n0 k1 details d ys k0 m D Hn Hk V.
  assert (G : forall j, enough Binary (weight_of ys (map (fun _ => 1%Qc) ys) j) <-> In (qz j) ys).
  { intros j. rewrite <- weight_ones_occurs. destruct (weight_ones_nat ys j) as [n ->]. cbn. split; intros K.
    - destruct n; [exfalso; apply K; reflexivity|]. apply Qcle_not_lt. apply Qcle_trans with 1%Qc; [vm_compute; discriminate|].
      change 1%Qc with (qn 1). unfold qn. apply qz_le. lia.
    - intros E. apply K. rewrite E. vm_compute. reflexivity. }
  destruct (calculate_ok Binary n0 k1 2 details d ys k0 None 2 m D Hn Hk ltac:(lia) eq_refl ltac:(discriminate) V) as [cs [_ [_ [A B]]]];
    [intros ws K; discriminate K|]. cbn [row_weights] in A, B. split.
  - intros [s E]. assert (K : forall j, 0 <= j <= 2 - 1 -> In (qz j) ys); [|split; apply K; lia].
    intros j Hj. destruct (in_dec Qc_eq_dec (qz j) ys) as [H|H]; [exact H|]. exfalso.
    rewrite B in E; [discriminate E|]. intros K. apply H, G, K, Hj.
  - intros [H0 H1]. eexists. apply A. intros j Hj. apply G. assert (j = 0 \/ j = 1) as [-> | ->] by lia; assumption.
Qed.
(** If the number of choices is not given, it is the largest value plus 1. *)
Theorem c101_number_of_choices : forall d ys xr xc w m J,
  dc_model d = Ordered -> m <= 0 -> 1 <= J -> choices_upto J ys -> In (qz J) ys ->
  dc_calculate d ys xr xc w m = dc_calculate d ys xr xc w (J + 1).
Proof. exact calculate_max. Qed.
(** Data whose lengths differ are rejected. *)
Theorem c101_lengths : forall d ys xr xc w m,
  xr <> Z.of_nat (length ys) \/ (exists ws, w = Some ws /\ length ws <> length ys) -> dc_calculate d ys xr xc w m = Throw.
Proof.
  intros d ys xr xc w m H. unfold dc_calculate. cbv zeta. destruct (Z.eqb_spec xr (Z.of_nat (length ys))) as [E|E]; [|reflexivity]. cbn [negb].
  destruct H as [H|[ws [-> H]]]; [contradiction|]. destruct (Z.eqb_spec (Z.of_nat (length ws)) (Z.of_nat (length ys))); [lia|]. reflexivity.
Qed.
(** A problem larger than the declared one is rejected. *)
Theorem c101_too_large : forall t n0 k1 c0 details d ys k0 w c m,
  dc_new t n0 k1 c0 details = Ok d -> possible t c -> (t = Ordered -> m = c) -> weights_match ys w ->
  0 <= n0 <= Z.of_nat (length ys) -> 1 <= k1 <= k0 -> c0 <= c -> n0 < Z.of_nat (length ys) \/ k1 < k0 \/ c0 < c ->
  dc_calculate d ys (Z.of_nat (length ys)) k0 w m = Throw.
Proof. exact calculate_too_large. Qed.
(** The numbers of choices an object can be declared with. *)
Theorem c101_declare : forall n k c details,
  ((exists d, dc_new Binary n k c details = Ok d) <-> 1 <= c <= 2) /\ ((exists d, dc_new Ordered n k c details = Ok d) <-> c = 1 \/ 3 <= c).
Proof.
  intros n k c details. unfold dc_new. split.
  - destruct (Z.ltb_spec c 1); [split; [intros [d K]; discriminate K|lia]|]. rewrite andb_false_r.
    destruct (Z.ltb_spec 2 c); cbn [andb]; split; try lia; [intros [d K]; discriminate K| intros _; eexists; reflexivity].
  - destruct (Z.ltb_spec c 1); [split; [intros [d K]; discriminate K|lia]|]. rewrite andb_true_r, andb_false_r.
    destruct (Z.eqb_spec c 2); split; try lia; [intros [d K]; discriminate K| intros _; eexists; reflexivity].
Qed.
(** Whatever the data are: when the estimation starts, the results, the initial values and the estimation stay in the announced buffers
    (the parts follow one another, without overlap). *)
Theorem c101_buffers : forall d ys xr xc w m s, 0 <= xc -> dc_calculate d ys xr xc w m = Ok s ->
  let n := Z.of_nat (length ys) in
  fits (storage_blocks (s_params s) (s_choices s) (dc_details d)) (dc_storage d) /\
  fits (prior_blocks (dc_model d) n xc (s_cutoffs s)) (dc_work d) /\
  fits (estimate_blocks (dc_model d) n xc (s_cutoffs s)) (dc_work d).
Proof. exact calculate_fits. Qed.
Theorem c101_started : forall d ys xr xc w m s, dc_calculate d ys xr xc w m = Ok s ->
  xr = Z.of_nat (length ys) /\ s_choices s = s_cutoffs s + 1 /\ s_params s = xc + s_cutoffs s - 1 /\ 1 <= s_params s <= dc_k d /\ 1 <= s_cutoffs s.
Proof. intros d ys xr xc w m s E. destruct (calculate_sizes _ _ _ _ _ _ _ E) as (tmp & _ & _ & _ & R). exact R. Qed.
(** The values of the dependent variable are not checked: a binary model takes 2, 0, 0 with the counts 1 and 2, though
    only two rows are 0 and none is 1; with weights, and in ordered models, such values are used as indices out of range. *)
Theorem c101_values_refuted :
  (exists d s, dc_new Binary 3 1 2 false = Ok d /\ dc_calculate d [qz 2; 0%Qc; 0%Qc] 3 1 None 2 = Ok s /\ s_counts s = [1%Qc; qz 2] /\
     weight_of [qz 2; 0%Qc; 0%Qc] [1%Qc; 1%Qc; 1%Qc] 0 = qz 2 /\ weight_of [qz 2; 0%Qc; 0%Qc] [1%Qc; 1%Qc; 1%Qc] 1 = 0%Qc) /\
  (exists d, dc_new Binary 3 1 2 false = Ok d /\ dc_calculate d [qz 2; 0%Qc; 0%Qc] 3 1 (Some [1%Qc; 1%Qc; 1%Qc]) 2 = UB) /\
  (exists d, dc_new Ordered 4 1 3 false = Ok d /\ dc_calculate d [0%Qc; 1%Qc; qz 2; qz 3] 4 1 None 3 = UB) /\
  (exists d, dc_new Ordered 4 1 3 false = Ok d /\ dc_calculate d [0%Qc; 1%Qc; qz 2; qz (-1)] 4 1 None 0 = UB).
Proof.
  split; [|split; [|split]].
  - eexists. eexists. split; [vm_compute; reflexivity|]. split; [vm_compute; reflexivity|]. repeat split; vm_compute; repeat first [apply Qc_is_canon; reflexivity | f_equal].
  - eexists. split; [reflexivity|]. vm_compute. reflexivity.
  - eexists. split; [reflexivity|]. vm_compute. reflexivity.
  - eexists. split; [reflexivity|]. vm_compute. reflexivity.
Qed.
Example c101_example : exists d s, dc_new Ordered 5 2 3 true = Ok d /\ dc_calculate d [0%Qc; qz 2; 1%Qc; 1%Qc] 4 2 (Some [qz 2; 1%Qc; 1%Qc; qz 3]) 0 = Ok s /\
  s_counts s = [qz 2; qz 4; 1%Qc] /\ s_params s = 3 /\ dc_calculate d [0%Qc; qz 2; qz 2; 0%Qc] 4 2 None 3 = Throw.
Proof.
  eexists. eexists. split; [vm_compute; reflexivity|]. split; [vm_compute; reflexivity|]. split; [|split; vm_compute; reflexivity].
  vm_compute; repeat first [apply Qc_is_canon; reflexivity | f_equal].
Qed.
Print Assumptions c101_accepts.
Print Assumptions c101_buffers.
