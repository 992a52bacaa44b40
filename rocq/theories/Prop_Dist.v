(** Distances of columns (C89). *)
From Verif Require Import DistModel DistSpec MatProofs MatDotProofs MatProofs5 DataProofs DescProofs ColProofs ColProofs2 ColProofs3 CorProofs CorProofs2 CorProofs3 CorRealProofs CorRealProofs2 CorRealProofs3 CorRealProofs4 DistProofs DistProofs2 DistProofs3 DistProofs4.
From Coq Require Import Lra.
Local Open Scope Z_scope.

(** Euclidean and Manhattan: NaN if there is one and NaNs are not left out, otherwise the distance over the common rows. *)
Theorem c89_sums m check sp r0 c0 M st w : mat_ok M -> room r0 c0 M st w -> m = Euclidean \/ m = Manhattan ->
  exists S, distance m check sp r0 c0 M st w = Ok S /\ forall i j, 0 <= i < ncols M -> 0 <= j < ncols M -> i < j ->
    exists d, sym_get0 false S i j = Ok d /\ sym_get0 false S j i = Ok d /\ (if negb check && has_nans M i j then d = RNaN else distance_is m M i j d).
Proof.
  intros W (H1 & H2 & H3 & _) HM. assert (IM : is_cor_method m = false) by (destruct HM as [-> | ->]; reflexivity).
  destruct (plain_distance_ok m check sp r0 c0 M st w W IM H1 H2 H3) as (S & E & _ & V). exists S. split; auto. intros i j Hi Hj L. destruct (V i j Hi Hj L) as [V1 V2]. eexists. split; [exact V1|]. split; [congruence|]. apply column_sum_ok. auto.
Qed.
Print Assumptions c89_sums.
(** Maximum: over the common rows, of which there must be one. *)
Theorem c89_maximum check sp r0 c0 M st w : mat_ok M -> room r0 c0 M st w ->
  exists S, distance Maximum check sp r0 c0 M st w = Ok S /\ forall i j, 0 <= i < ncols M -> 0 <= j < ncols M -> i < j -> complete_pairs M i j <> [] ->
    exists v, sym_get0 false S i j = Ok (RNum (real v)) /\ sym_get0 false S j i = Ok (RNum (real v)) /\ largest (complete_pairs M i j) v.
Proof.
  intros W (H1 & H2 & H3 & _). destruct (plain_distance_ok Maximum check sp r0 c0 M st w W eq_refl H1 H2 H3) as (S & E & _ & V). exists S. split; auto. intros i j Hi Hj L N. destruct (V i j Hi Hj L) as [V1 V2].
  destruct (max_loop_ok (map (fun k => (opel M k i, opel M k j)) (upto (nrows M)))) as [_ H]. rewrite pairs_of_columns in H. destruct (H N) as (v & Q & G). exists v. cbn [column_distance] in V1. rewrite Q in V1. split; auto. split; [congruence|auto].
Qed.
Print Assumptions c89_maximum.
(** The distances made from correlations. *)
Theorem c89_correlation m check sp r0 c0 M st w : mat_ok M -> room r0 c0 M st w -> 2 <= nrows M -> 0 < ncols M -> is_cor_method m = true ->
  (check = false -> sp = true -> no_nan M) -> (check = true -> sp = true -> forall i j, 0 <= i < ncols M -> 0 <= j < ncols M -> (2 <= length (complete_pairs M i j))%nat) ->
  exists S, distance m check sp r0 c0 M st w = Ok S /\ forall i j, 0 <= i < ncols M -> 0 <= j < ncols M -> i < j ->
    exists d, sym_get0 false S i j = Ok d /\ sym_get0 false S j i = Ok d /\ from_correlation m (correlation_of check sp M i j) d.
Proof. intros W (H1 & H2 & H3 & H4) HR HC HM HN HE. destruct (cor_distance_ok m check sp r0 c0 M st w) as (S & E & _ & V); auto. exists S. auto. Qed.
Print Assumptions c89_correlation.
(** An object made for fewer columns stops with an exception. *)
Theorem c89_too_small m check sp r0 c0 M st w : 2 <= ncols M -> Z.of_nat c0 < ncols M -> distance m check sp r0 c0 M st w = Throw.
Proof.
  intros H1 H2. unfold distance. assert (L : dist_storage (Z.of_nat c0) < dist_storage (ncols M)).
  { pose proof (sym_length_val false (Z.of_nat c0)) as A. pose proof (sym_length_val false (ncols M)) as B. unfold dist_storage. unfold sym_length in A, B. nia. }
  destruct (Z.ltb_spec (dist_storage (Z.of_nat c0)) (dist_storage (ncols M))); [reflexivity|lia].
Qed.
Print Assumptions c89_too_small.

(** ** The laws of a distance, for data without NaN *)
Definition result_number (S : symmat rval) (i j : Z) (d : R) : Prop := sym_get0 false S i j = Ok (RNum d).
(** What a zero distance says: equal columns; for correlations, of the values or the ranks, a line (increasing). *)
Definition same_columns (m : dmethod) (sp : bool) (M : mat (option Qc)) (i j : Z) : Prop :=
  let P := if sp && is_cor_method m then rank_pairs (complete_pairs M i j) else complete_pairs M i j in
  match m with
  | CorrelationD => exists a b, (0 < b)%Qc /\ forall p, In p P -> snd p = (a + b * fst p)%Qc
  | AbsCorrelation => exists a b, b <> 0%Qc /\ forall p, In p P -> snd p = (a + b * fst p)%Qc
  | _ => forall p, In p P -> fst p = snd p
  end.
Lemma all_numbers m check sp r0 c0 M st w : good_data m M -> room r0 c0 M st w -> 2 <= ncols M ->
  exists S, distance m check sp r0 c0 M st w = Ok S /\
    forall i j, 0 <= i < ncols M -> 0 <= j < ncols M -> i <> j ->
    let u := cval M i in let v := cval M j in let l := upto (nrows M) in let r := rho (duo (rval_of sp M i) (rval_of sp M j) l) in
    exists d, result_number S i j d /\ match m with
      | Euclidean => d = euclid (duo u v l)
      | Manhattan => d = manhattan (duo u v l)
      | Maximum => exists q, largest (duo u v l) q /\ d = real q
      | CorrelationD => d = sqrt ((1 - r) / 2) /\ varies (map (rval_of sp M i) l) /\ varies (map (rval_of sp M j) l)
      | AbsCorrelation => d = sqrt (1 - r * r) /\ varies (map (rval_of sp M i) l) /\ varies (map (rval_of sp M j) l)
      end%R.
Proof.
  intros (W & N & HR & HV) RM HC. pose proof RM as (R1 & R2 & R3 & R4).
  assert (NH : forall i j, 0 <= i < ncols M -> 0 <= j < ncols M -> has_nans M i j = false) by (intros i j Hi Hj; unfold has_nans; rewrite !col_nan by auto; reflexivity).
  assert (D : forall u v : Z -> Qc, euclid (duo u v (upto (nrows M))) = euclid (duo v u (upto (nrows M))) /\ manhattan (duo u v (upto (nrows M))) = manhattan (duo v u (upto (nrows M)))).
  { intros u v. split; [rewrite !euclid_norm; unfold norm; f_equal; apply RS_ext; intros; ring|rewrite !manhattan_sum; apply RS_ext; intros; apply Rabs_minus_sym]. }
  assert (Q : forall (u v : Z -> Qc) q, largest (duo u v (upto (nrows M))) q -> largest (duo v u (upto (nrows M))) q).
  { intros u v q. assert (AB : forall x y : Qc, qabs (x - y) = qabs (y - x)) by (intros; apply real_inj; rewrite !real_abs, !real_minus; apply Rabs_minus_sym). unfold largest, duo. intros [(p & Hp & E) H]. apply in_map_iff in Hp. destruct Hp as (k & <- & Hk). cbn [fst snd] in E. split.
    - exists (v k, u k). split; [apply (in_map (fun a => (v a, u a))); auto|]. cbn [fst snd]. rewrite AB. auto.
    - intros p Hp. apply in_map_iff in Hp. destruct Hp as (k' & <- & Hk'). cbn [fst snd]. rewrite AB. apply (H (u k', v k')). apply (in_map (fun a => (u a, v a))); auto. }
  assert (RW : forall i j : Z, rho (duo (rval_of sp M i) (rval_of sp M j) (upto (nrows M))) = rho (duo (rval_of sp M j) (rval_of sp M i) (upto (nrows M)))).
  { intros i j. rewrite <- rho_swap. unfold duo. rewrite map_map. reflexivity. }
  assert (NE : complete_pairs M 0 1 <> []) by (rewrite complete_duo by (auto; lia); unfold duo; intros E; apply (f_equal (@length _)) in E; rewrite map_length, upto_length in E; cbn in E; unfold nrows in *; lia).
  destruct (is_cor_method m) eqn:IM.
  - assert (H2R : 2 <= nrows M). { destruct (HV eq_refl 0 ltac:(lia)) as (x & y & Hx & Hy & NXY). rewrite present_cval in Hx, Hy by (auto; lia). destruct (Z.leb_spec 2 (nrows M)); auto. exfalso. assert (NR : nrows M = 1) by lia. rewrite NR in *. cbn in Hx, Hy. destruct Hx as [<-|[]], Hy as [<-|[]]. contradiction. }
    destruct (cor_distance_ok m check sp r0 c0 M st w) as (S & E & _ & V); auto; [lia| |].
    { intros _ _ i j Hi Hj. rewrite complete_duo by auto. unfold duo. rewrite map_length, upto_length. lia. }
    exists S. split; auto. intros i j Hi Hj NIJ. cbv zeta.
    assert (K : forall i j, 0 <= i < ncols M -> 0 <= j < ncols M -> i < j -> exists d, result_number S i j d /\ result_number S j i d /\ from_correlation m (Some (rho (duo (rval_of sp M i) (rval_of sp M j) (upto (nrows M))))) (RNum d)).
    { clear i j Hi Hj NIJ. intros i j Hi Hj L. destruct (V i j Hi Hj L) as (d & V1 & V2 & F). destruct (correlation_rho check sp M i j N Hi Hj) as (CR & _ & _); [apply HV; auto|apply HV; auto|]. rewrite CR in F. cbn [from_correlation] in F. subst d. eexists. split; [exact V1|]. split; [exact V2|]. reflexivity. }
    destruct (correlation_rho check sp M i j N Hi Hj) as (_ & VI & VJ); [apply HV; auto|apply HV; auto|].
    destruct (Z.lt_total i j) as [L|[L|L]]; [|contradiction|].
    + destruct (K i j Hi Hj L) as (d & K1 & _ & K3). exists d. split; auto. cbn [from_correlation] in K3. injection K3 as K3. destruct m; try discriminate; auto.
    + destruct (K j i Hj Hi L) as (d & _ & K2 & K3). exists d. split; auto. cbn [from_correlation] in K3. rewrite (RW j i) in K3. injection K3 as K3. destruct m; try discriminate; auto.
  - destruct (plain_distance_ok m check sp r0 c0 M st w W IM R1 R2 R3) as (S & E & _ & V). exists S. split; auto. intros i j Hi Hj NIJ. cbv zeta.
    assert (K : forall i j, 0 <= i < ncols M -> 0 <= j < ncols M -> i < j -> exists d, result_number S i j d /\ result_number S j i d /\ distance_is m M i j (RNum d)).
    { clear i j Hi Hj NIJ. intros i j Hi Hj L. destruct (V i j Hi Hj L) as (V1 & V2). rewrite V1 in V2. assert (NEP : complete_pairs M i j <> []) by (rewrite complete_duo by auto; unfold duo; intros X; apply (f_equal (@length _)) in X; rewrite map_length, upto_length in X; cbn in X; unfold nrows in *; lia).
      assert (DI : distance_is m M i j (column_distance m check (map (fun k => (opel M k i, opel M k j)) (upto (nrows M))))).
      { destruct m; try discriminate IM; try (apply column_distance_ok; auto; fail).
        - pose proof (column_sum_ok Euclidean check M i j (or_introl eq_refl)) as C. cbv zeta in C. rewrite NH, andb_false_r in C by auto. exact C.
        - pose proof (column_sum_ok Manhattan check M i j (or_intror eq_refl)) as C. cbv zeta in C. rewrite NH, andb_false_r in C by auto. exact C. }
      destruct m; try discriminate IM; cbn [distance_is] in DI.
      - rewrite DI in V1, V2. eexists. split; [exact V1|]. split; [exact V2|reflexivity].
      - rewrite DI in V1, V2. eexists. split; [exact V1|]. split; [exact V2|reflexivity].
      - destruct DI as (q & LQ & DI). rewrite DI in V1, V2. eexists. split; [exact V1|]. split; [exact V2|]. exists q. auto. }
    destruct (Z.lt_total i j) as [L|[L|L]]; [|contradiction|].
    + destruct (K i j Hi Hj L) as (d & K1 & _ & K3). exists d. split; auto. destruct m; try discriminate IM; cbn [distance_is] in K3; rewrite complete_duo in K3 by auto; try (injection K3 as K3; auto; fail). destruct K3 as (q & LQ & K3). injection K3 as K3. exists q. auto.
    + destruct (K j i Hj Hi L) as (d & _ & K2 & K3). exists d. split; auto. destruct m; try discriminate IM; cbn [distance_is] in K3; rewrite complete_duo in K3 by auto; try (injection K3 as K3; rewrite K3; apply D; fail). destruct K3 as (q & LQ & K3). injection K3 as K3. exists q. auto.
Qed.
Theorem c89_triangle m check sp r0 c0 M st w : good_data m M -> room r0 c0 M st w -> 2 <= ncols M ->
  exists S, distance m check sp r0 c0 M st w = Ok S /\
    forall i j k, 0 <= i < ncols M -> 0 <= j < ncols M -> 0 <= k < ncols M -> i <> j -> j <> k -> i <> k ->
    exists a b c, result_number S i k a /\ result_number S i j b /\ result_number S j k c /\ (a <= b + c)%R.
Proof.
  intros G RM HC. destruct (all_numbers m check sp r0 c0 M st w G RM HC) as (S & E & V). exists S. split; auto. intros i j k Hi Hj Hk N1 N2 N3.
  destruct (V i k Hi Hk N3) as (a & A1 & A2). destruct (V i j Hi Hj N1) as (b & B1 & B2). destruct (V j k Hj Hk N2) as (c & C1 & C2). exists a, b, c. repeat split; auto. destruct m.
  - subst. apply euclid_triangle.
  - subst. apply manhattan_triangle.
  - destruct A2 as (p & P1 & ->). destruct B2 as (q & Q1 & ->). destruct C2 as (r & R1 & ->). eapply maximum_triangle; eauto.
  - destruct A2 as (-> & X1 & X2). destruct B2 as (-> & X3 & X4). destruct C2 as (-> & X5 & X6). apply cor_triangle; auto.
  - destruct A2 as (-> & X1 & X2). destruct B2 as (-> & X3 & X4). destruct C2 as (-> & X5 & X6). apply abs_cor_triangle; auto.
Qed.
Print Assumptions c89_triangle.
(** Never negative, at most 1 for correlations, and zero exactly when the columns are the same in the sense of the method. *)
Theorem c89_zero m check sp r0 c0 M st w : good_data m M -> room r0 c0 M st w -> 2 <= ncols M ->
  exists S, distance m check sp r0 c0 M st w = Ok S /\
    forall i j, 0 <= i < ncols M -> 0 <= j < ncols M -> i <> j ->
    exists d, result_number S i j d /\ (0 <= d)%R /\ (is_cor_method m = true -> (d <= 1)%R) /\ (d = 0%R <-> same_columns m sp M i j).
Proof.
  intros G RM HC. destruct (all_numbers m check sp r0 c0 M st w G RM HC) as (S & E & V). exists S. split; auto. intros i j Hi Hj N1.
  destruct (V i j Hi Hj N1) as (d & A1 & A2). exists d. split; auto. pose proof G as (W & N & HR & HV). unfold same_columns.
  assert (EQ : forall u v : Z -> Qc, (forall a, In a (upto (nrows M)) -> u a = v a) <-> (forall p, In p (duo u v (upto (nrows M))) -> fst p = snd p)).
  { intros u v. unfold duo. split; [intros H p Hp; apply in_map_iff in Hp; destruct Hp as (k & <- & Hk); cbn; auto|intros H a Ha; apply (H (u a, v a)); apply (in_map (fun a => (u a, v a))); auto]. }
  assert (RP : forall P : list (Qc * Qc), P = (if sp && true then rank_pairs (complete_pairs M i j) else complete_pairs M i j) -> P = duo (rval_of sp M i) (rval_of sp M j) (upto (nrows M))).
  { intros P ->. rewrite complete_duo by auto. destruct sp; cbn [andb]; auto. apply rank_duo. }
  destruct m; cbn [is_cor_method] in *.
  - rewrite andb_false_r. subst d. split; [apply sqrt_pos|]. split; [discriminate|]. rewrite euclid_zero, complete_duo by auto. apply EQ.
  - rewrite andb_false_r. subst d. split; [rewrite manhattan_sum; apply RS_nonneg; intros; apply Rabs_pos|]. split; [discriminate|]. rewrite manhattan_zero, complete_duo by auto. apply EQ.
  - rewrite andb_false_r. destruct A2 as (q & Q1 & ->). destruct (maximum_zero _ _ _ _ Q1) as [Z1 Z2]. split; [rewrite <- real_0; apply real_le; auto|]. split; [discriminate|]. rewrite complete_duo by auto. rewrite <- EQ, <- Z2. split; [intros X; apply real_inj; rewrite X, real_0; auto|intros ->; apply real_0].
  - destruct A2 as (-> & X1 & X2). set (P := if sp && true then _ else _). rewrite (RP P eq_refl). clear P. set (P := duo _ _ _). pose proof (rho_range P) as RR. pose proof (rho_extreme P) as RX. unfold P in RR, RX. rewrite xs_duo, ys_duo in RR, RX. fold P in RR, RX. specialize (RR X1 X2). specialize (RX X1 X2).
    split; [apply sqrt_pos|]. split; [intros _; apply Rle_trans with (sqrt 1); [apply sqrt_le_1_alt; lra|rewrite sqrt_1; lra]|]. rewrite <- (proj1 RX). split; intros X.
    + apply sqrt_eq_0 in X; lra.
    + rewrite X. replace ((1 - 1) / 2)%R with 0%R by field. apply sqrt_0.
  - destruct A2 as (-> & X1 & X2). set (P := if sp && true then _ else _). rewrite (RP P eq_refl). clear P. set (P := duo _ _ _). pose proof (rho_range P) as RR. pose proof (rho_extreme P) as RX. unfold P in RR, RX. rewrite xs_duo, ys_duo in RR, RX. fold P in RR, RX. specialize (RR X1 X2). specialize (RX X1 X2). destruct RX as [RX1 RX2].
    assert (SQ := sq_pos (rho P)). assert (S1 : (rho P * rho P <= 1)%R) by (assert (S0 : (0 <= (1 - rho P) * (1 + rho P))%R) by (apply Rmult_le_pos; lra); lra).
    split; [apply sqrt_pos|]. split; [intros _; apply Rle_trans with (sqrt 1); [apply sqrt_le_1_alt; lra|rewrite sqrt_1; lra]|]. split.
    + intros X. apply sqrt_eq_0 in X; [|lra]. assert (HH : (rho P = 1 \/ rho P = -1)%R). { assert (Z : ((rho P - 1) * (rho P + 1) = 0)%R) by lra. apply Rmult_integral in Z. destruct Z; [left|right]; lra. }
      destruct HH as [HH|HH]; [apply RX1 in HH|apply RX2 in HH]; destruct HH as (a & b & B & H); exists a, b; split; auto; intros ->; qlra.
    + intros (a & b & B & H). assert (HH : (rho P = 1 \/ rho P = -1)%R). { destruct (Qc_dec b 0) as [[L|L]|]; [right; apply RX2; exists a, b; auto|left; apply RX1; exists a, b; auto|contradiction]. }
      replace (1 - rho P * rho P)%R with 0%R by (destruct HH as [-> | ->]; ring). apply sqrt_0.
Qed.
Print Assumptions c89_zero.
(** Data and sizes which meet the conditions, for every method. *)
Definition ex_matrix : mat (option Qc) := Mat 3 3 [Some (qz 1); Some (qz 3); Some (qz 4); Some (qz 2); Some (qz 1); Some (qz 5); Some (qz 0); Some (qz 2); Some (qz 2)].
Definition ex_parts : parts := Parts (repeat None 9) (repeat None 3) (repeat None 3) (repeat 0 6) (repeat 0%Qc 18).
Lemma ex_inside i j : inside ex_matrix i j -> (i = 0 \/ i = 1 \/ i = 2) /\ (j = 0 \/ j = 1 \/ j = 2).
Proof. intros [Hi Hj]. change (nrows ex_matrix) with 3 in Hi. change (ncols ex_matrix) with 3 in Hj. lia. Qed.
Example c89_ex m : good_data m ex_matrix /\ room 4 5 ex_matrix (repeat RNaN 10) ex_parts /\ 2 <= ncols ex_matrix.
Proof.
  split; [|split].
  - split; [vm_compute; lia|]. split; [|split; [vm_compute; reflexivity|]].
    + intros i j H. destruct (ex_inside i j H) as [Hi Hj]. destruct Hi as [-> |[-> | ->]], Hj as [-> |[-> | ->]]; vm_compute; discriminate.
    + intros _ j Hj. change (ncols ex_matrix) with 3 in Hj. assert (HJ : j = 0 \/ j = 1 \/ j = 2) by lia. apply varies_b. destruct HJ as [-> |[-> | ->]]; vm_compute; reflexivity.
  - split; [vm_compute; discriminate|]. split; [vm_compute; discriminate|]. split; [vm_compute; discriminate|]. unfold parts_ok. vm_compute. lia.
  - vm_compute. discriminate.
Qed.

(** ** What does not hold *)
(** Two columns without a common observation: with NaNs left out the Euclidean, Manhattan and correlation distances are 0, as for
    equal columns, and the maximum is -INFINITY. *)
Definition disjoint_matrix : mat (option Qc) := Mat 2 2 [Some (qz 1); None; None; Some (qz 7)].
Theorem c89_disjoint_refuted : complete_pairs disjoint_matrix 0 1 = [] /\
  (forall m, m = Euclidean \/ m = Manhattan \/ m = CorrelationD \/ m = AbsCorrelation -> exists S, distance m true false 2 2 disjoint_matrix [RNaN] ex_parts = Ok S /\ result_number S 0 1 0) /\
  exists S, distance Maximum true false 2 2 disjoint_matrix [RNaN] ex_parts = Ok S /\ sym_get0 false S 0 1 = Ok RNegInf.
Proof.
  split; [reflexivity|]. split.
  - intros m [-> |[-> |HM]].
    + destruct (plain_distance_ok Euclidean true false 2 2 disjoint_matrix [RNaN] ex_parts) as (S & E & _ & V); [vm_compute; lia|reflexivity|vm_compute; discriminate|vm_compute; discriminate|vm_compute; discriminate|].
      exists S. split; auto. destruct (V 0 1 ltac:(vm_compute; intuition discriminate) ltac:(vm_compute; intuition discriminate) ltac:(lia)) as [V1 _]. unfold result_number. rewrite V1. cbn [column_distance]. rewrite sum_loop_ok. cbn [negb andb]. do 2 f_equal. rewrite pairs_of_columns. change (complete_pairs disjoint_matrix 0 1) with (@nil (Qc * Qc)). cbn [map]. change (qsum []) with 0%Qc. rewrite real_0. apply sqrt_0.
    + destruct (plain_distance_ok Manhattan true false 2 2 disjoint_matrix [RNaN] ex_parts) as (S & E & _ & V); [vm_compute; lia|reflexivity|vm_compute; discriminate|vm_compute; discriminate|vm_compute; discriminate|].
      exists S. split; auto. destruct (V 0 1 ltac:(vm_compute; intuition discriminate) ltac:(vm_compute; intuition discriminate) ltac:(lia)) as [V1 _]. unfold result_number. rewrite V1. cbn [column_distance]. rewrite sum_loop_ok. cbn [negb andb]. do 2 f_equal. rewrite pairs_of_columns. change (complete_pairs disjoint_matrix 0 1) with (@nil (Qc * Qc)). cbn [map]. change (qsum []) with 0%Qc. apply real_0.
    + assert (IM : is_cor_method m = true) by (destruct HM as [-> | ->]; reflexivity).
      destruct (cor_distance_ok m true false 2 2 disjoint_matrix [RNaN] ex_parts) as (S & E & _ & V); auto; try (vm_compute; intuition discriminate); try (unfold mat_ok, parts_ok; vm_compute; lia); try discriminate.
      exists S. split; auto. destruct (V 0 1 ltac:(vm_compute; intuition discriminate) ltac:(vm_compute; intuition discriminate) ltac:(lia)) as (d & V1 & _ & F). unfold result_number. rewrite V1. change (correlation_of true false disjoint_matrix 0 1) with (Some 1%R) in F. cbn [from_correlation] in F. rewrite F. do 2 f_equal.
      destruct HM as [-> | ->]; [replace ((1 - 1) / 2)%R with 0%R by field|replace (1 - 1 * 1)%R with 0%R by ring]; apply sqrt_0.
  - eexists. split; reflexivity.
Qed.
Print Assumptions c89_disjoint_refuted.
(** With NaNs left out the triangle inequality fails, although every two columns have a common row. *)
Definition gap_matrix : mat (option Qc) := Mat 2 3 [Some (qz 0); Some (qz 0); Some (qz 0); None; Some (qz 0); Some (qz 5)].
Theorem c89_triangle_refuted : (forall i j, 0 <= i < 3 -> 0 <= j < 3 -> complete_pairs gap_matrix i j <> []) /\
  exists S, distance Manhattan true false 2 3 gap_matrix (repeat RNaN 3) ex_parts = Ok S /\ result_number S 0 2 5 /\ result_number S 0 1 0 /\ result_number S 1 2 0.
Proof.
  split.
  - intros i j Hi Hj. assert (I3 : i = 0 \/ i = 1 \/ i = 2) by lia. assert (J3 : j = 0 \/ j = 1 \/ j = 2) by lia. destruct I3 as [-> |[-> | ->]], J3 as [-> |[-> | ->]]; vm_compute; discriminate.
  - destruct (plain_distance_ok Manhattan true false 2 3 gap_matrix (repeat RNaN 3) ex_parts) as (S & E & _ & V); [vm_compute; lia|reflexivity|vm_compute; discriminate|vm_compute; discriminate|vm_compute; discriminate|].
    exists S. split; auto. unfold result_number. change (ncols gap_matrix) with 3 in V.
    destruct (V 0 2 ltac:(lia) ltac:(lia) ltac:(lia)) as [V1 _]. destruct (V 0 1 ltac:(lia) ltac:(lia) ltac:(lia)) as [V2 _]. destruct (V 1 2 ltac:(lia) ltac:(lia) ltac:(lia)) as [V3 _]. rewrite V1, V2, V3. clear.
    cbn [column_distance]. rewrite !sum_loop_ok, !pairs_of_columns. cbn [negb andb].
    repeat match goal with |- context [qsum ?x] => let q := eval vm_compute in (qsum x) in replace (qsum x) with (qz (Qnum (this q))) by (vm_compute; apply Qc_is_canon; reflexivity) end.
    rewrite !real_z. cbn. auto.
Qed.
Print Assumptions c89_triangle_refuted.
(** Without the check a NaN makes the other distances NaN, but the maximum ignores it. *)
Theorem c89_maximum_nan_refuted : exists (M : mat (option Qc)) S1 S2, has_nans M 0 1 = true /\
  distance Euclidean false false 2 2 M [RNaN] ex_parts = Ok S1 /\ sym_get0 false S1 0 1 = Ok RNaN /\
  distance Maximum false false 2 2 M [RNaN] ex_parts = Ok S2 /\ exists v, sym_get0 false S2 0 1 = Ok (RNum v).
Proof. exists (Mat 2 2 [Some (qz 1); None; Some (qz 4); Some (qz 7)]). do 2 eexists. split; [reflexivity|]. split; [reflexivity|]. split; [reflexivity|]. split; [reflexivity|]. eexists. reflexivity. Qed.
Print Assumptions c89_maximum_nan_refuted.
