(** C96: the out-of-sample simulation of systems of equations. *)
From Verif Require Import SurSimSpec SurSimProofs.
From Coq Require Import Lia ZifyBool Permutation.
Local Open Scope Z_scope.

Lemma grid_b n m (p : nat -> nat -> bool) : forallb (fun j => forallb (fun i => p i j) (seq 0 n)) (seq 0 m) = true <-> forall i j, (i < n)%nat -> (j < m)%nat -> p i j = true.
Proof.
  rewrite forallb_forall. split.
  - intros K i j Hi Hj. specialize (K j). rewrite forallb_forall in K. apply K; apply in_seq; lia.
  - intros K j Hj. apply in_seq in Hj. apply forallb_forall. intros i Hi. apply in_seq in Hi. apply K; lia.
Qed.
Lemma needs_b c : existsb requires_variance (ss_metrics c) = true <-> needs_variance c.
Proof.
  unfold needs_variance. rewrite existsb_exists. split; intros (k & Hk & K); exists k; split; auto.
  - intros H. destruct k; cbn in K; try discriminate; cbn in H; intuition discriminate.
  - destruct k; cbn in *; auto; exfalso; apply K; auto.
Qed.
Lemma not_none (a : fl) : negb (is_none a) = true <-> a <> None.
Proof. destruct a; cbn; split; congruence. Qed.

(** A draw is left out exactly if it is not usable. *)
Theorem c96_usable binv c n d : why binv c n d = None <-> usable binv c n d.
Proof.
  assert (U := usable_why binv c n d). assert (B : usable_b binv c n d = true <-> usable binv c n d).
  { destruct d as [|cn y f v]; cbn; [split; [discriminate|tauto]|]. rewrite !Bool.andb_true_iff, Bool.orb_true_iff, !grid_b, !Bool.negb_true_iff.
    split.
    - intros ((K1 & K2) & K3). repeat split; auto.
      + intros Hn i j Hi Hj. apply not_none. destruct K2 as [K2|K2]; [|apply (K2 i j); auto]. apply needs_b in Hn. congruence.
      + intros i j Hi Hj. apply not_none. apply (K3 i j); auto.
    - intros (K1 & K2 & K3). repeat split; auto.
      + destruct (existsb requires_variance (ss_metrics c)) eqn:E; [right|left; auto]. intros i j Hi Hj. apply not_none. apply K2; auto. apply needs_b. auto.
      + intros i j Hi Hj. apply not_none. apply K3; auto. }
  rewrite <- B, U. destruct (why binv c n d); split; congruence.
Qed.
Print Assumptions c96_usable.
(** Every reported value is the root, the percentage or the value itself of the mean score over all test observations of all usable draws. *)
Theorem c96_results root binv crps c n ds r i j k : enough_lambdas c -> Forall implemented (ss_metrics c) -> Forall (well_shaped c n) ds -> ss_n1 c = Z.of_nat n ->
  sim_calculate root binv crps c ds = Ok r -> nth_error (ss_metrics c) i = Some k -> (j < ss_m c)%nat ->
  nth j (nth i (st_res r) []) None = summary root k (mean_score crps k (points root binv c n j ds)).
Proof.
  intros En Im W Hn E Hk Hj. rewrite (calc_ok root binv crps c n ds En Im W Hn) in E. destruct (_ || _); [discriminate|]. injection E as <-. cbn [st_res]. unfold acc.
  assert (Li : (i < List.length (ss_metrics c))%nat) by (apply nth_error_Some; congruence).
  set (G := fun k => map _ _). rewrite (nth_indep _ [] (G SMae)) by (rewrite map_length; auto). rewrite map_nth. rewrite (nth_error_nth _ _ _ Hk). unfold G.
  set (H := fun j => summary _ _ _). rewrite (nth_indep _ None (H 0%nat)) by (rewrite map_length, seq_length; auto). rewrite map_nth, seq_nth by auto. reflexivity.
Qed.
Print Assumptions c96_results.
(** One row for each metric, one column for each equation; the counts are those of the usable draws and of their test observations. *)
Theorem c96_counts root binv crps c n ds r : enough_lambdas c -> Forall implemented (ss_metrics c) -> Forall (well_shaped c n) ds -> ss_n1 c = Z.of_nat n ->
  sim_calculate root binv crps c ds = Ok r ->
  List.length (st_res r) = List.length (ss_metrics c) /\ (forall row, In row (st_res r) -> List.length row = ss_m c) /\
  st_iters r = count_b (usable_b binv c n) ds /\ st_counts r = Z.of_nat n * st_iters r /\ st_inv r = Z.of_nat (List.length ds) - st_iters r.
Proof.
  intros En Im W Hn E. rewrite (calc_ok root binv crps c n ds En Im W Hn) in E. destruct (_ || _); [discriminate|]. injection E as <-. cbn. repeat split.
  - unfold acc. apply map_length.
  - unfold acc. intros row Hr. apply in_map_iff in Hr. destruct Hr as (k & <- & _). rewrite map_length, seq_length. reflexivity.
Qed.
Print Assumptions c96_counts.
(** It fails exactly if there are no iterations or more unusable draws than allowed. *)
Theorem c96_throws root binv crps c n ds : enough_lambdas c -> Forall implemented (ss_metrics c) -> Forall (well_shaped c n) ds -> ss_n1 c = Z.of_nat n ->
  (sim_calculate root binv crps c ds = Throw <-> ds = [] \/ ss_maxinv c < Z.of_nat (List.length ds) - count_b (usable_b binv c n) ds)
  /\ sim_calculate root binv crps c ds <> UB.
Proof.
  intros En Im W Hn. rewrite (calc_ok root binv crps c n ds En Im W Hn). unfold unusable_count, usable_count.
  destruct (_ || _) eqn:E; split; try discriminate.
  - split; [|auto]. intros _. destruct ds; [left; auto|right]. cbn [List.length] in *. lia.
  - split; [discriminate|]. intros [-> | K]; cbn [List.length] in *; lia.
Qed.
Print Assumptions c96_throws.
Lemma errors_count_up r x l : errors_of r (count_up x l) = errors_of r l + (if reason_eqb x r then 1 else 0).
Proof.
  assert (Eq : forall a b, reason_eqb a b = true <-> a = b).
  { intros [s| | |] [t| | |]; cbn; split; try congruence. - intros K. apply String.eqb_eq in K. congruence. - intros [= ->]. apply String.eqb_refl. }
  unfold errors_of. induction l as [|(k, z) l IH]; cbn [count_up filter map fold_right fst].
  - destruct (reason_eqb x r); cbn; lia.
  - destruct (reason_eqb k x) eqn:E.
    + apply Eq in E. subst. cbn [filter fst]. destruct (reason_eqb x r); cbn [map fold_right snd]; lia.
    + cbn [filter fst]. destruct (reason_eqb k r); cbn [map fold_right snd]; lia.
Qed.
(** If errors are kept, each reason is counted as often as it occurs, and an empty message is not counted; otherwise nothing is. *)
Theorem c96_errors root binv crps c n ds r : enough_lambdas c -> Forall implemented (ss_metrics c) -> Forall (well_shaped c n) ds -> ss_n1 c = Z.of_nat n ->
  sim_calculate root binv crps c ds = Ok r ->
  (ss_keep c = false -> st_errors r = []) /\
  (ss_keep c = true -> forall x, errors_of x (st_errors r) = if reason_eqb x (RModel String.EmptyString) then 0 else count_b (fun d => match why binv c n d with Some y => reason_eqb y x | None => false end) ds).
Proof.
  intros En Im W Hn E. rewrite (calc_ok root binv crps c n ds En Im W Hn) in E. destruct (_ || _); [discriminate|]. injection E as <-. cbn [st_errors]. unfold add_all. split.
  - intros ->. cbn [add_error]. induction (reasons binv c n ds); cbn; auto.
  - intros -> x. cbn [add_error].
    assert (G : forall l0, errors_of x (fold_left (fun l r => if reason_eqb r (RModel String.EmptyString) then l else count_up r l) (reasons binv c n ds) l0) =
      errors_of x l0 + (if reason_eqb x (RModel String.EmptyString) then 0 else count_b (fun d => match why binv c n d with Some y => reason_eqb y x | None => false end) ds)).
    { assert (Eq : forall a b, reason_eqb a b = true <-> a = b).
      { intros [s| | |] [t| | |]; cbn; split; try congruence. - intros K. apply String.eqb_eq in K. congruence. - intros [= ->]. apply String.eqb_refl. }
      clear. assert (Eq : forall a b, reason_eqb a b = true <-> a = b).
      { intros [s| | |] [t| | |]; cbn; split; try congruence. - intros K. apply String.eqb_eq in K. congruence. - intros [= ->]. apply String.eqb_refl. }
      unfold reasons, count_b. induction ds as [|d ds IH]; intros l0; cbn [flat_map fold_left filter List.length]; [destruct (reason_eqb _ _); cbn; lia|].
      destruct (why binv c n d) as [y|]; cbn [app fold_left]; [|apply IH].
      rewrite IH. destruct (reason_eqb y (RModel String.EmptyString)) eqn:E1.
      - apply Eq in E1. subst y. destruct (reason_eqb x (RModel String.EmptyString)) eqn:E2; [lia|]. destruct (reason_eqb (RModel String.EmptyString) x) eqn:E3; [|lia]. apply Eq in E3. subst x. exfalso. assert (E4 : reason_eqb (RModel String.EmptyString) (RModel String.EmptyString) = true) by reflexivity. congruence.
      - rewrite errors_count_up. destruct (reason_eqb x (RModel String.EmptyString)) eqn:E2.
        + apply Eq in E2. subst x. rewrite E1. lia.
        + destruct (reason_eqb y x); cbn [List.length]; lia. }
    rewrite G. reflexivity.
Qed.
Print Assumptions c96_errors.
(** The order of the draws does not matter for whether it succeeds, nor for the values and the counts. *)
Theorem c96_order root binv crps c n ds ds' : enough_lambdas c -> Forall implemented (ss_metrics c) -> Forall (well_shaped c n) ds -> ss_n1 c = Z.of_nat n -> Permutation ds ds' ->
  match sim_calculate root binv crps c ds, sim_calculate root binv crps c ds' with
  | Ok r, Ok r' => st_res r = st_res r' /\ st_counts r = st_counts r' /\ st_iters r = st_iters r'
  | Throw, Throw => True
  | _, _ => False
  end.
Proof.
  intros En Im W Hn P. assert (W' : Forall (well_shaped c n) ds') by (eapply Permutation_Forall; eauto).
  rewrite (calc_ok root binv crps c n ds En Im W Hn), (calc_ok root binv crps c n ds' En Im W' Hn).
  assert (Lp := Permutation_length P). assert (Pf : forall p, Permutation (filter p ds) (filter p ds')).
  { clear - P. intros p. induction P; cbn; auto; [destruct (p x); auto|destruct (p x), (p y); auto; apply perm_swap|eapply perm_trans; eauto]. }
  assert (Uc : usable_count binv c n ds = usable_count binv c n ds') by (unfold usable_count, count_b; rewrite (Permutation_length (Pf _)); auto).
  unfold unusable_count. rewrite <- Uc, <- Lp. destruct (_ || _); [auto|]. cbn. repeat split. unfold acc. apply map_ext. intros k. apply map_ext. intros j. f_equal. unfold mean_score.
  assert (Pp : Permutation (points root binv c n j ds) (points root binv c n j ds')) by (unfold points; apply Permutation_flat_map; auto).
  rewrite (Permutation_length Pp), (fsum_perm _ _ (Permutation_map (score crps k) Pp)). reflexivity.
Qed.
Print Assumptions c96_order.
(** The sign metric is the share of test observations whose forecast has the sign of the actual value: it is in [0, 1] if there is a usable draw. *)
Theorem c96_sign_range root binv crps c n ds r i j : enough_lambdas c -> Forall implemented (ss_metrics c) -> Forall (well_shaped c n) ds -> ss_n1 c = Z.of_nat n -> (0 < n)%nat ->
  sim_calculate root binv crps c ds = Ok r -> nth_error (ss_metrics c) i = Some SSign -> (j < ss_m c)%nat -> 0 < st_iters r ->
  exists v, nth j (nth i (st_res r) []) None = Some v /\ (0 <= v)%Qc /\ (v <= 1)%Qc.
Proof.
  intros En Im W Hn P E Hk Hj Hv. rewrite (c96_results root binv crps c n ds r i j SSign En Im W Hn E Hk Hj). cbn [summary].
  destruct (c96_counts root binv crps c n ds r En Im W Hn E) as (_ & _ & C1 & _ & _).
  unfold mean_score. rewrite points_length. unfold usable_count. rewrite <- C1. set (N := Z.of_nat n * st_iters r).
  assert (PL := points_length root binv c n j ds). unfold usable_count in PL. rewrite <- C1 in PL. fold N in PL.
  assert (G : forall l, exists v, fsum (map (score crps SSign) l) = Some v /\ (0 <= v)%Qc /\ (v <= qz (Z.of_nat (List.length l)))%Qc).
  { clear. induction l as [|((a, f), s) l (v & E & B1 & B2)]; [exists 0%Qc; cbn; repeat split; unfold Qcle; cbn; discriminate|].
    cbn [map]. rewrite fsum_cons, E. replace (qz (Z.of_nat (List.length ((a, f, s) :: l)))) with (qz (Z.of_nat (List.length l)) + 1)%Qc by (cbn [List.length]; rewrite Nat2Z.inj_succ; unfold Z.succ; rewrite qz_add; reflexivity).
    cbn [score]. destruct a as [a|], f as [f|]; [destruct (qltb 0 (a * f))|..]; cbn; eexists; (split; [reflexivity|]); split; generalize dependent (qz (Z.of_nat (List.length l))); intros; qlra. }
  destruct (G (points root binv c n j ds)) as (v & -> & B1 & B2). rewrite PL in B2.
  assert (Np : (0 < qz N)%Qc) by (apply (qz_lt 0); unfold N; nia). cbn [fdiv]. destruct (qeqb_spec (qz N) 0) as [Z0|Ne]; [rewrite Z0 in Np; discriminate Np|].
  exists (v / qz N)%Qc. split; [reflexivity|]. assert (Ip : (0 <= / qz N)%Qc).
  { apply Qcnot_lt_le. intros K. assert (Q1 : (qz N * / qz N = 1)%Qc) by (apply Qcmult_inv_r; auto). assert (Q2 : (qz N * / qz N <= 0)%Qc).
    { rewrite <- (Qcmult_0_r (qz N)). rewrite !(Qcmult_comm (qz N)). apply Qcmult_le_compat_r; apply Qclt_le_weak; auto. } rewrite Q1 in Q2. apply Q2. reflexivity. }
  split.
  - unfold Qcdiv. rewrite <- (Qcmult_0_l (/ qz N)). apply Qcmult_le_compat_r; auto.
  - replace 1%Qc with (qz N / qz N)%Qc by (field; auto). unfold Qcdiv. apply Qcmult_le_compat_r; auto.
Qed.
Print Assumptions c96_sign_range.
(** A transformation parameter is missing for some equation: a usable draw makes the calculation fail. *)
Theorem c96_missing_lambda root binv crps c n s cn y f v ls : ss_lambdas c = Some ls -> (List.length ls < ss_m c)%nat -> shape (ss_m c) n y -> less (ss_maxcn c) cn = false ->
  (needs_variance c -> forall i j, (i < n)%nat -> (j < ss_m c)%nat -> at_ v i j <> None) -> shape (ss_m c) n v ->
  sim_step root binv crps c s (Fitted cn y f v) = Throw.
Proof.
  intros El Ll Sy Ec Hv Sv. unfold sim_step. rewrite Ec.
  assert (V : do_var c && existsb is_none (concat v) = false).
  { unfold do_var. destruct (existsb requires_variance (ss_metrics c)) eqn:E; [|reflexivity]. cbn [andb]. rewrite (shape_grd _ _ _ Sv), grd_none. apply Bool.negb_false_iff. apply (grid_b n (ss_m c) (fun i j => negb (is_none (at_ v i j)))). intros i j Hi Hj. apply not_none. apply Hv; auto. apply needs_b. auto. }
  rewrite V. rewrite El. cbn [box_all].
  assert (T : forall cs l, (List.length l < List.length cs)%nat -> box_cols binv l cs = Throw).
  { induction cs as [|x cs IH]; intros [|z l] L; cbn in *; try lia; auto. rewrite IH by lia. reflexivity. }
  rewrite T; [reflexivity|]. destruct Sy as [-> _]. auto.
Qed.
Print Assumptions c96_missing_lambda.

(** ** What does not hold *)
(** If no draw is usable and this is allowed, the call succeeds and every value is NaN. *)
Theorem c96_none_valid_refuted root binv crps c n ds : enough_lambdas c -> Forall implemented (ss_metrics c) -> Forall (well_shaped c n) ds -> ss_n1 c = Z.of_nat n ->
  (forall d, In d ds -> ~ usable binv c n d) -> ds <> [] -> Z.of_nat (List.length ds) <= ss_maxinv c ->
  exists r, sim_calculate root binv crps c ds = Ok r /\
  forall i j k, nth_error (ss_metrics c) i = Some k -> (j < ss_m c)%nat -> nth j (nth i (st_res r) []) None = None.
Proof.
  intros En Im W Hn Nu Ne Lm. assert (F0 : filter (usable_b binv c n) ds = []).
  { clear - Nu. induction ds as [|d ds IH]; [reflexivity|]. cbn. assert (U := usable_why binv c n d). destruct (why binv c n d) eqn:E; [rewrite U; apply IH; intros; apply Nu; right; auto|]. exfalso. apply (Nu d); [left; auto|]. apply c96_usable. auto. }
  destruct (sim_calculate root binv crps c ds) as [x| |] eqn:E.
  - exists x. split; [reflexivity|]. intros i j k Hk Hj. rewrite (c96_results root binv crps c n ds x i j k En Im W Hn E Hk Hj). unfold points. rewrite F0. destruct k; reflexivity.
  - exfalso. destruct (c96_throws root binv crps c n ds En Im W Hn) as ((K & _) & _). destruct (K E) as [|B]; [congruence|]. unfold count_b in B. rewrite F0 in B. cbn in B. lia.
  - exfalso. destruct (c96_throws root binv crps c n ds En Im W Hn) as (_ & K). congruence.
Qed.
Print Assumptions c96_none_valid_refuted.
(** The direction metric, and those of discrete choice, are accepted but make the calculation fail at the first usable draw. *)
Theorem c96_direction_refuted root binv crps c n s d : enough_lambdas c -> In SDirection (ss_metrics c) -> (0 < ss_m c)%nat -> well_shaped c n d -> usable binv c n d ->
  List.length (st_res s) = List.length (ss_metrics c) -> (forall row, In row (st_res s) -> List.length row = ss_m c) ->
  sim_step root binv crps c s d = Throw.
Proof.
  intros En Dr Pm W U L1 L2. destruct d as [|cn y f v]; [destruct U|]. destruct U as (U1 & U2 & U3). destruct W as (Wy & Wf & Wv). unfold sim_step. rewrite U1.
  assert (V : do_var c && existsb is_none (concat v) = false).
  { unfold do_var. destruct (existsb requires_variance (ss_metrics c)) eqn:E; [|reflexivity]. cbn [andb]. rewrite (shape_grd _ _ _ Wv), grd_none. apply Bool.negb_false_iff. apply (grid_b n (ss_m c) (fun i j => negb (is_none (at_ v i j)))). intros i j Hi Hj. apply not_none. apply U2; auto. apply needs_b. auto. }
  rewrite V. rewrite (box_all_ok binv c n y En Wy), (box_all_ok binv c n f En Wf). cbn [bind].
  assert (Dv : do_var c = true) by (unfold do_var; apply existsb_exists; exists SDirection; auto). rewrite Dv.
  assert (Ws : shape (ss_m c) n (map (map (fbind root)) v)).
  { destruct Wv as (L & R). split; [rewrite map_length; auto|]. intros j Hj. change (@nil fl) with (map (fbind root) []). rewrite map_nth, map_length. auto. }
  rewrite (box_all_ok binv c n _ En Ws). cbn [bind]. rewrite grd_map2, grd_none.
  match goal with |- context [if negb ?p then _ else _] => assert (Ep : p = true) end.
  { apply (grid_b n (ss_m c) (fun i j => negb (is_none (_ -f _)))). intros i j Hi Hj. apply not_none. apply U3; auto. }
  rewrite Ep. cbn [negb]. destruct (_ <? _); [reflexivity|].
  match goal with |- context [add_rows crps _ _ ?a ?e ?f ?s] => assert (K : forall ks acc0, In SDirection ks -> List.length acc0 = List.length ks -> (forall row, In row acc0 -> List.length row = ss_m c) -> add_rows crps ks acc0 a e f s = Throw) end.
  { assert (M : exists m', ss_m c = S m') by (destruct (ss_m c); [lia|eauto]). destruct M as (m' & M).
    induction ks as [|k ks IH]; intros [|r0 acc0] Hk Hl Hr; cbn [In List.length] in *; try lia; try tauto. cbn [add_rows].
    assert (Hr0 := Hr r0 (or_introl eq_refl)). assert (R : forall k0 z e f s, add_row crps k0 (z : list fl) (grd (seq 0 (ss_m c)) n (fun i j => original binv (ss_lambdas c) j (at_ y i j))) e f s <> UB).
    { intros k0 z. generalize (grd (seq 0 (ss_m c)) n (fun i j => original binv (ss_lambdas c) j (at_ y i j))). induction z as [|z0 z IHz]; intros [|a0 a] [|e0 e] [|f0 f0'] [|s0 s0']; cbn; try discriminate. destruct k0; cbn; try discriminate; specialize (IHz a e f0' s0'); destruct (add_row crps _ z a e f0' s0'); cbn; congruence. }
    match goal with |- context [add_row crps k r0 ?a ?e ?f ?s] => specialize (R k r0 e f s); destruct (add_row crps k r0 a e f s) eqn:Er end; [|reflexivity|congruence].
    cbn [bind]. destruct Hk as [-> | Hk].
    - exfalso. destruct r0; [cbn in Hr0; lia|]. rewrite M in Er. cbn in Er. discriminate.
    - rewrite IH; auto. }
  rewrite K; auto.
Qed.
Print Assumptions c96_direction_refuted.
(** The standard deviation of the errors is itself transformed: with the parameter 1, which only shifts values by one and so
    changes no error, one is added to it and the reported CRPS is another one. Here, the CRPS of a zero error is proportional to the deviation, as it is for the normal distribution. *)
Theorem c96_boxcox_refuted crps kf : kf <> 0%Qc -> (forall s, crps 0%Qc s = Some (kf * s)%Qc) ->
  let root := fun x => Some x in let binv := fun (l x : Qc) => Some (l * x + 1)%Qc in
  exists ds r1 r2,
  sim_calculate root binv crps (SSet [SCrps] 1 1 DPInf 0 None false) ds = Ok r1 /\ sim_calculate root binv crps (SSet [SCrps] 1 1 DPInf 0 (Some [Some 1%Qc]) false) ds = Ok r2 /\
  st_res r1 <> st_res r2.
Proof.
  intros Nk Hc root binv. set (ds := [Fitted (DFin 1%Qc) [[Some 1%Qc]] [[Some 1%Qc]] [[Some 1%Qc]]]).
  assert (Sh : shape 1 1 [[Some 1%Qc : fl]]) by (split; [reflexivity|intros [|[]]; [reflexivity|lia..]]).
  set (c1 := SSet [SCrps] 1 1 DPInf 0 None false). set (c2 := SSet [SCrps] 1 1 DPInf 0 (Some [Some 1%Qc]) false).
  assert (W1 : Forall (well_shaped c1 1) ds) by (repeat constructor; apply Sh). assert (W2 : Forall (well_shaped c2 1) ds) by (repeat constructor; apply Sh).
  assert (I1 : Forall implemented (ss_metrics c1)) by (repeat constructor). assert (I2 : Forall implemented (ss_metrics c2)) by (repeat constructor).
  assert (C1 := calc_ok root binv crps c1 1 ds Logic.I I1 W1 eq_refl). assert (C2 := calc_ok root binv crps c2 1 ds (le_n 1) I2 W2 eq_refl).
  exists ds. do 2 eexists. split; [exact C1|]. split; [exact C2|]. cbn [st_res]. intros K. apply Nk.
  apply (f_equal (fun l => nth 0 (nth 0 l []) None)) in K. cbn [acc c1 c2 ss_metrics ss_m seq map nth summary] in K.
  assert (P1 : points root binv c1 1 0 ds = [(Some 1, Some 1, Some 1)]%Qc) by reflexivity.
  assert (P2 : points root binv c2 1 0 ds = [(Some (1 * 1 + 1), Some (1 * 1 + 1), Some (1 * 1 + 1))]%Qc) by reflexivity.
  fold c1 c2 in K. rewrite P1, P2 in K. unfold mean_score in K. cbn [map score List.length fsub fl2] in K.
  replace (1 - 1)%Qc with 0%Qc in K by ring. replace (1 * 1 + 1 - (1 * 1 + 1))%Qc with 0%Qc in K by ring. unfold fsub, fl2 in K.
  replace (1 - 1)%Qc with 0%Qc in K by ring. replace (1 * 1 + 1 - (1 * 1 + 1))%Qc with 0%Qc in K by ring.
  rewrite !Hc in K. rewrite !fsum_cons in K. change (fsum []) with (Some 0%Qc) in K. rewrite !fadd_0_r in K. change (qz (Z.of_nat 1)) with 1%Qc in K.
  unfold fdiv in K. change (qeqb 1 0) with false in K. assert (K2 : (kf * 1 / 1 = kf * (1 * 1 + 1) / 1)%Qc) by (apply (f_equal (fun o : option Qc => match o with Some q => q | None => 0%Qc end)) in K; exact K). clear K.
  transitivity (kf * (1 * 1 + 1) / 1 - kf * 1 / 1)%Qc; [field; discriminate|]. rewrite K2. ring.
Qed.
Print Assumptions c96_boxcox_refuted.

(** ** A case which meets the hypotheses: two equations, two test observations, a failed draw, a draw with a NaN forecast and two usable ones. *)
Ltac qeq := vm_compute; repeat first [apply Qc_is_canon; reflexivity | f_equal].
Definition d96 : list draw :=
  [Fitted (DFin 1%Qc) [[Some (qz 2); Some (qz 4)]; [Some (qz (-1)); Some (qz 3)]] [[Some (qz 1); Some (qz 6)]; [Some (qz (-2)); Some (qz (-3))]] [[Some 1%Qc; Some 1%Qc]; [Some 1%Qc; Some 1%Qc]];
   Failed (String.String "a"%char String.EmptyString);
   Fitted (DFin 1%Qc) [[Some (qz 2); Some (qz 4)]; [Some (qz (-1)); Some (qz 3)]] [[None; Some (qz 6)]; [Some (qz (-2)); Some (qz (-3))]] [[Some 1%Qc; Some 1%Qc]; [Some 1%Qc; Some 1%Qc]];
   Fitted (DFin 1%Qc) [[Some (qz 8); Some (qz (-2))]; [Some (qz (-1)); Some (qz 3)]] [[Some (qz 8); Some (qz (-2))]; [Some (qz 0); Some (qz 3)]] [[Some 1%Qc; Some 1%Qc]; [Some 1%Qc; Some 1%Qc]]].
Definition c96 := SSet [SMae; SSign; SMape] 2 2 (DFin (qz 5)) 2 None true.
Example c96_case : enough_lambdas c96 /\ Forall implemented (ss_metrics c96) /\ Forall (well_shaped c96 2) d96 /\ ss_n1 c96 = Z.of_nat 2.
Proof.
  split; [exact Logic.I|]. split; [repeat constructor|]. split; [|reflexivity].
  repeat constructor; cbn; try (intros [|[|]] L; cbn; auto; lia).
Qed.
Example c96_case_result : exists r, sim_calculate (fun x => Some x) (fun _ x => Some x) (fun e _ => Some e) c96 d96 = Ok r /\
  st_res r = [[Some (qz 3 / qz 4); Some (qz 8 / qz 4)]; [Some 1; Some (qz 2 / qz 4)]; [Some (qz 25); Some (qz 100)]]%Qc /\
  st_iters r = 2 /\ st_counts r = 4 /\ errors_of RErrors (st_errors r) = 1 /\ errors_of (RModel (String.String "a"%char String.EmptyString)) (st_errors r) = 1.
Proof. eexists. split; [vm_compute; reflexivity|]. split; [qeq|]. repeat split. Qed.
Example c96_case_throws : sim_calculate (fun x => Some x) (fun _ x => Some x) (fun e _ => Some e) (SSet [SMae; SSign] 2 2 (DFin (qz 5)) 1 None true) d96 = Throw.
Proof. vm_compute. reflexivity. Qed.
Example c96_case_none_valid : exists r, sim_calculate (fun x => Some x) (fun _ x => Some x) (fun e _ => Some e) (SSet [SMae] 1 2 (DFin (qz 5)) 1 None true) [Failed String.EmptyString] = Ok r /\ st_res r = [[None]].
Proof. eexists. split; vm_compute; reflexivity. Qed.
Example c96_case_lambda : needs_variance c96 /\ sim_step (fun x => Some x) (fun _ x => Some x) (fun e _ => Some e) (SSet [SMae; SSign] 2 2 (DFin (qz 5)) 1 (Some [None]) true) (SSt [] 0 0 0 []) (hd (Failed String.EmptyString) d96) = Throw.
Proof. split; [exists SSign; cbn; intuition discriminate|vm_compute; reflexivity]. Qed.
Example c96_case_direction : sim_calculate (fun x => Some x) (fun _ x => Some x) (fun e _ => Some e) (SSet [SMae; SDirection] 2 2 (DFin (qz 5)) 9 None true) d96 = Throw.
Proof. vm_compute. reflexivity. Qed.
