(** C97: the out-of-sample simulation of VARMA models. *)
From Verif Require Import VarmaSimSpec SurSimSpec SurSimProofs VarmaSimProofs VarmaSimProofs2.
From Coq Require Import Lia ZifyBool.
Local Open Scope Z_scope.

(** Every reported value is the root, the percentage or the value itself of the mean score over all comparisons of all successful estimations. *)
Theorem c97_results root binv crps c y est v0 e0 d0 r i k b : call_v c y est -> v_calculate root binv crps c y est v0 e0 d0 = Ok r ->
  nth_error (vs_metrics c) i = Some k -> (b < vs_yy c)%nat ->
  nth b (nth i (v_res r) []) None = cmp_summary root k (cmp_mean crps k (comparisons root binv c y b (runs c est))).
Proof.
  intros C E Hk Hb. destruct (calc_ok root binv crps c y est v0 e0 d0 C) as (_ & _ & K). destruct (K r E) as (dets & -> & _). cbn [v_res]. unfold vacc.
  assert (Li : (i < List.length (vs_metrics c))%nat) by (apply nth_error_Some; congruence).
  set (G := fun k => map _ _). rewrite (nth_indep _ [] (G SMae)) by (rewrite map_length; auto). rewrite map_nth. rewrite (nth_error_nth _ _ _ Hk). unfold G.
  set (H := fun b => cmp_summary _ _ _). rewrite (nth_indep _ None (H 0%nat)) by (rewrite map_length, seq_length; auto). rewrite map_nth, seq_nth by auto. reflexivity.
Qed.
Print Assumptions c97_results.
(** A comparison is that of an h-step forecast, made without the last se observations, with the observation h steps after the last one
    which was used; this observation exists. *)
Theorem c97_out_of_sample root binv c y est b q : call_v c y est -> In q (comparisons root binv c y b (runs c est)) ->
  exists se h prev f v, 1 <= se <= vs_count c /\ In h (vs_horizons c) /\ 1 <= h <= se /\ est se prev = VFit f v /\ q = compare_at root binv c y f v se h b /\
  0 <= vs_last c - se < vs_last c - se + h /\ vs_last c - se + h < Z.of_nat (List.length y) /\ h <= Z.of_nat (List.length f).
Proof.
  intros C Hq. unfold comparisons in Hq. apply in_flat_map in Hq. destruct Hq as ((se, o) & Hr & Hq). destruct o as [|f v]; [destruct Hq|]. apply in_map_iff in Hq. destruct Hq as (h & <- & Hh). unfold within in Hh. apply filter_In in Hh. destruct Hh as (Hh & Lh).
  assert (G : forall ses s, In (se, VFit f v) (estimations (vs_prev c) est ses s) -> exists p, est se p = VFit f v /\ In se ses).
  { induction ses as [|x ses IH]; intros s Hi; [destruct Hi|]. cbn [estimations] in Hi. destruct Hi as [Hi|Hi]; [injection Hi as -> Hi; eexists; split; [exact Hi|left; auto]|]. destruct (IH _ Hi) as (p & P1 & P2). exists p. split; [auto|right; auto]. }
  destruct (G _ _ Hr) as (p & P1 & P2). apply filter_In in P2. destruct P2 as (P2 & _). assert (Cp := cv_pos _ _ _ C). assert (P3 : 1 <= se <= vs_count c). { replace (vs_count c) with (Z.of_nat (Z.to_nat (vs_count c))) in P2 by lia. rewrite origins_down in P2. apply in_down in P2. lia. }
  destruct (cv_hs _ _ _ C) as (_ & As & H1). rewrite Forall_forall in H1. specialize (H1 h Hh). exists se, h, p, f, v. assert (L := cv_last _ _ _ C). assert (LT := cv_T _ _ _ C). assert (LC := cv_count _ _ _ C).
  destruct (cv_fit _ _ _ C se p f v P3 P1) as (_ & _ & Lf & _). assert (Lm : h <= last (vs_horizons c) 0) by (destruct (vs_horizons c); [destruct Hh|apply asc_last; auto]).
  repeat split; auto; lia.
Qed.
Print Assumptions c97_out_of_sample.
(** The sizes of the results and the counts: of comparisons, and of successful estimations. *)
Theorem c97_counts root binv crps c y est v0 e0 d0 r b : call_v c y est -> v_calculate root binv crps c y est v0 e0 d0 = Ok r ->
  List.length (v_res r) = List.length (vs_metrics c) /\ (forall row, In row (v_res r) -> List.length row = vs_yy c) /\
  v_counter r = Z.of_nat (List.length (comparisons root binv c y b (runs c est))) /\ v_valid r = (if vs_ext c then v0 else 0) + successes (runs c est).
Proof.
  intros C E. destruct (calc_ok root binv crps c y est v0 e0 d0 C) as (_ & _ & K). destruct (K r E) as (dets & -> & _). cbn [v_res v_counter v_valid]. rewrite comparisons_length. repeat split.
  - unfold vacc. apply map_length.
  - unfold vacc. intros row Hr. apply in_map_iff in Hr. destruct Hr as (k & <- & _). rewrite map_length, seq_length. reflexivity.
Qed.
Print Assumptions c97_counts.
(** The normal simulation fails exactly if there is nothing to compare or there are too many failures, where the end of the loop before
    the last observation counts as one more failure; the extended one never fails. No element outside an array is read. *)
Theorem c97_throws root binv crps c y est v0 e0 d0 : call_v c y est ->
  (v_calculate root binv crps c y est v0 e0 d0 = Throw <-> vs_ext c = false /\
    ((forall b, comparisons root binv c y b (runs c est) = []) \/ vs_maxinv c < failures (runs c est) + (if existsb (fun h => h <=? 1) (vs_horizons c) then 0 else 1)))
  /\ v_calculate root binv crps c y est v0 e0 d0 <> UB.
Proof.
  intros C. destruct (calc_ok root binv crps c y est v0 e0 d0 C) as (K1 & K2 & _). split; [|exact K2]. rewrite K1. unfold tried.
  assert (G : pairs (vs_horizons c) (runs c est) = 0 <-> forall b, comparisons root binv c y b (runs c est) = []).
  { split; [intros P b|intros P; rewrite <- (comparisons_length root binv c y 0), P; reflexivity]. rewrite <- (comparisons_length root binv c y b) in P. destruct (comparisons root binv c y b (runs c est)); [auto|cbn in P; lia]. }
  rewrite G. tauto.
Qed.
Print Assumptions c97_throws.
(** Arguments which are refused. *)
Theorem c97_arguments root binv crps c y est v0 e0 d0 : vs_count c = 0 \/ vs_sizes_T c <= vs_count c \/ vs_T c <= vs_count c \/ vs_horizons c = [] ->
  v_calculate root binv crps c y est v0 e0 d0 = Throw.
Proof.
  intros K. unfold v_calculate. destruct ((vs_count c =? 0) || (vs_sizes_T c <=? vs_count c)) eqn:E; [reflexivity|]. destruct (vs_horizons c); [reflexivity|]. destruct K as [K|[K|[K|K]]]; try lia; [|discriminate]. replace (vs_T c - vs_count c <=? 0) with true by lia. reflexivity.
Qed.
Print Assumptions c97_arguments.
(** The extended simulation counts each message as often as it occurs (an empty one is not counted), added to what was there before. *)
Theorem c97_errors root binv crps c y est v0 e0 d0 r m : call_v c y est -> v_calculate root binv crps c y est v0 e0 d0 = Ok r ->
  errors_of (RModel m) (v_errors r) = errors_of (RModel m) e0 + (if vs_ext c && negb (String.eqb m String.EmptyString) then Z.of_nat (List.length (filter (String.eqb m) (messages (runs c est)))) else 0).
Proof.
  intros C E. destruct (calc_ok root binv crps c y est v0 e0 d0 C) as (_ & _ & K). destruct (K r E) as (dets & -> & _). cbn [v_errors]. destruct (vs_ext c); cbn [andb]; [|lia].
  assert (Cu : forall l r x, errors_of r (count_up x l) = errors_of r l + (if reason_eqb x r then 1 else 0)).
  { clear. intros l r x. assert (Eq : forall a b, reason_eqb a b = true <-> a = b).
    { intros [s| | |] [t| | |]; cbn; split; try congruence. - intros K. apply String.eqb_eq in K. congruence. - intros [= ->]. apply String.eqb_refl. }
    unfold errors_of. induction l as [|(k, z) l IH]; cbn [count_up filter map fold_right fst].
    - destruct (reason_eqb x r); cbn; lia.
    - destruct (reason_eqb k x) eqn:E.
      + apply Eq in E. subst. cbn [filter fst]. destruct (reason_eqb x r); cbn [map fold_right snd]; lia.
      + cbn [filter fst]. destruct (reason_eqb k r); cbn [map fold_right snd]; lia. }
  clear - Cu. generalize (messages (runs c est)) as ms. intros ms. revert e0. induction ms as [|x ms IH]; intros e0; cbn [fold_left filter List.length]; [destruct (String.eqb m String.EmptyString); cbn; lia|].
  rewrite IH. cbn [add_error reason_eqb]. destruct (String.eqb x String.EmptyString) eqn:E1.
  - apply String.eqb_eq in E1. subst x. destruct (String.eqb m String.EmptyString) eqn:E2; cbn [negb]; [lia|]. lia.
  - rewrite Cu. cbn [reason_eqb]. rewrite (String.eqb_sym m x). destruct (String.eqb m String.EmptyString) eqn:E2; cbn [negb].
    + apply String.eqb_eq in E2. subst m. rewrite E1. lia.
    + destruct (String.eqb x m); cbn [List.length]; lia.
Qed.
Print Assumptions c97_errors.
(** If details are kept and variances are calculated, they are those of the comparisons, one for each metric. *)
Theorem c97_details root binv crps c y est v0 e0 d0 r : call_v c y est -> v_calculate root binv crps c y est v0 e0 d0 = Ok r -> needs_variance (SSet (vs_metrics c) 0 0 DPInf 0 None false) ->
  v_details r = d0 ++ if vs_ext c && vs_keep c then details root binv c y (runs c est) else [].
Proof.
  intros C E Nv. destruct (calc_ok root binv crps c y est v0 e0 d0 C) as (_ & _ & K). destruct (K r E) as (dets & -> & D). cbn [v_details]. rewrite D; [reflexivity|].
  destruct Nv as (k & Hk & N). apply existsb_exists. exists k. split; [exact Hk|]. destruct k; cbn in *; auto; exfalso; apply N; auto.
Qed.
Print Assumptions c97_details.
(** The direction and sign metrics are in [0, 1] or NaN; they are not NaN if no forecast is and there is a comparison. *)
Theorem c97_range root binv crps c y est v0 e0 d0 r i b k : call_v c y est -> v_calculate root binv crps c y est v0 e0 d0 = Ok r ->
  nth_error (vs_metrics c) i = Some k -> k = SDirection \/ k = SSign -> (b < vs_yy c)%nat ->
  (forall v, nth b (nth i (v_res r) []) None = Some v -> (0 <= v)%Qc /\ (v <= 1)%Qc) /\
  (0 < v_counter r -> (forall q, In q (comparisons root binv c y b (runs c est)) -> q_forc q <> None) -> nth b (nth i (v_res r) []) None <> None).
Proof.
  intros C E Hk Kk Hb. rewrite (c97_results root binv crps c y est v0 e0 d0 r i k b C E Hk Hb). destruct (c97_counts root binv crps c y est v0 e0 d0 r b C E) as (_ & _ & -> & _).
  set (qs := comparisons root binv c y b (runs c est)). replace (cmp_summary root k (cmp_mean crps k qs)) with (cmp_mean crps k qs) by (destruct Kk as [-> | ->]; reflexivity). unfold cmp_mean.
  assert (U : forall q v, cmp_score crps k q = Some v -> (0 <= v)%Qc /\ (v <= 1)%Qc).
  { assert (H0 : (0 <= 0)%Qc /\ (0 <= 1)%Qc /\ (1 <= 1)%Qc /\ (0 <= half)%Qc /\ (half <= 1)%Qc) by (repeat split; unfold Qcle; cbn; discriminate).
    intros [a f s l] v. destruct Kk as [-> | ->]; cbn [cmp_score q_act q_forc q_std q_last].
    - destruct a, f, l; try (destruct (same_side _ _ _)); intros [= <-]; tauto.
    - destruct a, f; try (destruct (qeqb _ _)); try (destruct (qltb _ _)); intros [= <-]; tauto. }
  assert (G : forall l v, fsum (map (cmp_score crps k) l) = Some v -> (0 <= v)%Qc /\ (v <= qz (Z.of_nat (List.length l)))%Qc).
  { induction l as [|q l IH]; intros v; [cbn; intros [= <-]; split; unfold Qcle; cbn; discriminate|]. cbn [map]. rewrite fsum_cons. destruct (cmp_score crps k q) as [x|] eqn:Ex; [|discriminate]. destruct (fsum (map (cmp_score crps k) l)) as [z|]; [|discriminate].
    intros [= <-]. destruct (U q x Ex) as (U1 & U2). destruct (IH z eq_refl) as (I1 & I2). replace (qz (Z.of_nat (List.length (q :: l)))) with (qz (Z.of_nat (List.length l)) + 1)%Qc by (cbn [List.length]; rewrite Nat2Z.inj_succ; unfold Z.succ; rewrite qz_add; reflexivity).
    generalize dependent (qz (Z.of_nat (List.length l))). intros. split; qlra. }
  split.
  - intros v. destruct (fsum (map (cmp_score crps k) qs)) as [z|] eqn:Ez; [|discriminate]. cbn [fdiv]. destruct (qeqb_spec (qz (Z.of_nat (List.length qs))) 0) as [|Ne]; [discriminate|]. intros K.
    assert (Kv : v = (z / qz (Z.of_nat (List.length qs)))%Qc) by (apply (f_equal (fun o : option Qc => match o with Some z => z | None => 0%Qc end)) in K; symmetry; exact K). subst v. clear K.
    destruct (G qs z Ez) as (G1 & G2). set (N := qz (Z.of_nat (List.length qs))) in *.
    assert (Np : (0 < N)%Qc). { apply (qz_lt 0). destruct qs; [exfalso; apply Ne; reflexivity|cbn [List.length]; lia]. }
    assert (Ip : (0 <= / N)%Qc).
    { apply Qcnot_lt_le. intros K. assert (Q1 : (N * / N = 1)%Qc) by (apply Qcmult_inv_r; auto). assert (Q2 : (N * / N <= 0)%Qc).
      { rewrite <- (Qcmult_0_r N). rewrite !(Qcmult_comm N). apply Qcmult_le_compat_r; apply Qclt_le_weak; auto. } rewrite Q1 in Q2. apply Q2. reflexivity. }
    split.
    + unfold Qcdiv. rewrite <- (Qcmult_0_l (/ N)). apply Qcmult_le_compat_r; auto.
    + replace 1%Qc with (N / N)%Qc by (field; auto). unfold Qcdiv. apply Qcmult_le_compat_r; auto.
  - intros Hn Hf. assert (Fs : exists z, fsum (map (cmp_score crps k) qs) = Some z).
    { clear - Kk Hf. induction qs as [|q qs IH]; [eexists; reflexivity|]. cbn [map]. rewrite fsum_cons. destruct IH as (z & ->); [intros; apply Hf; right; auto|]. assert (F := Hf q (or_introl eq_refl)). destruct q as [a f s l]. cbn in F. destruct f; [|congruence].
      destruct Kk as [-> | ->]; cbn [cmp_score q_act q_forc q_last]; destruct a; try destruct l; cbn; eexists; reflexivity. }
    destruct Fs as (z & ->). cbn [fdiv]. destruct (qeqb_spec (qz (Z.of_nat (List.length qs))) 0) as [Z0|]; [|discriminate]. exfalso. change 0%Qc with (qz 0) in Z0. apply qz_inj in Z0. lia.
Qed.
Print Assumptions c97_range.

(** ** What does not hold *)
(** If the smallest horizon is larger than one, the end of the loop counts as a failed simulation: with no failures allowed, the call fails although every estimation succeeds. *)
Theorem c97_break_refuted root binv crps c y est v0 e0 d0 : call_v c y est -> vs_ext c = false -> vs_maxinv c = 0 -> (forall h, In h (vs_horizons c) -> 2 <= h) ->
  v_calculate root binv crps c y est v0 e0 d0 = Throw.
Proof.
  intros C X Mx H2. apply (c97_throws root binv crps c y est v0 e0 d0 C). split; [auto|]. right. replace (existsb (fun h => h <=? 1) (vs_horizons c)) with false.
  - unfold failures. lia.
  - symmetry. clear - H2. induction (vs_horizons c) as [|h hs IH]; [reflexivity|]. cbn. assert (K := H2 h (or_introl eq_refl)). replace (h <=? 1) with false by lia. apply IH. intros x Hx. apply H2. right; auto.
Qed.
Print Assumptions c97_break_refuted.
(** The extended simulation succeeds with NaN if every estimation fails. *)
Theorem c97_ext_none_refuted root binv crps c y est v0 e0 d0 : call_v c y est -> vs_ext c = true -> (forall se p, vfit_ok (est se p) = false) ->
  exists r, v_calculate root binv crps c y est v0 e0 d0 = Ok r /\ forall i k b, nth_error (vs_metrics c) i = Some k -> (b < vs_yy c)%nat -> nth b (nth i (v_res r) []) None = None.
Proof.
  intros C X Hf. destruct (v_calculate root binv crps c y est v0 e0 d0) as [r| |] eqn:E.
  - exists r. split; [reflexivity|]. intros i k b Hk Hb. rewrite (c97_results root binv crps c y est v0 e0 d0 r i k b C E Hk Hb).
    assert (Em : comparisons root binv c y b (runs c est) = []).
    { unfold runs. generalize (filter (tried (vs_horizons c)) (origins (vs_count c))) false. induction l as [|se l IH]; intros s; [reflexivity|]. cbn [estimations]. unfold comparisons in *. cbn [flat_map]. assert (K := Hf se (vs_prev c && s)). destruct (est se (vs_prev c && s)); [|discriminate]. cbn [app]. apply IH. }
    rewrite Em. destruct k; reflexivity.
  - exfalso. apply (c97_throws root binv crps c y est v0 e0 d0 C) in E. destruct E. congruence.
  - exfalso. apply (proj2 (c97_throws root binv crps c y est v0 e0 d0 C)). exact E.
Qed.
Print Assumptions c97_ext_none_refuted.
(** It adds to the count of valid simulations and to the details of an earlier call instead of starting again. *)
Theorem c97_repeat_refuted root binv crps c y est v0 e0 d0 r1 r2 : call_v c y est -> vs_ext c = true -> v_calculate root binv crps c y est v0 e0 d0 = Ok r1 ->
  v_calculate root binv crps c y est (v_valid r1) (v_errors r1) (v_details r1) = Ok r2 -> v_valid r2 = v0 + 2 * successes (runs c est).
Proof.
  intros C X E1 E2. destruct (c97_counts _ _ _ _ _ _ _ _ _ _ 0%nat C E1) as (_ & _ & _ & V1). destruct (c97_counts _ _ _ _ _ _ _ _ _ _ 0%nat C E2) as (_ & _ & _ & V2). rewrite X in *. lia.
Qed.
Print Assumptions c97_repeat_refuted.
(** A metric which is not for time series makes the calculation fail when the first estimation succeeds. *)
Theorem c97_metric root binv crps c y est v0 e0 d0 f v : call_v (VSet (vs_ext c) (vs_count c) (vs_horizons c) [] (vs_yy c) (vs_T c) (vs_sizes_T c) (vs_last c) (vs_prev c) (vs_maxinv c) (vs_lambdas c) (vs_keep c)) y est ->
  (0 < vs_yy c)%nat -> In SAuc (vs_metrics c) \/ In SBrier (vs_metrics c) \/ In SFrequencyCost (vs_metrics c) -> existsb (fun h => h <=? vs_count c) (vs_horizons c) = true ->
  est (vs_count c) (vs_prev c && false) = VFit f v -> v_calculate root binv crps c y est v0 e0 d0 = Throw.
Proof.
  intros C Py Hm Tr Ef. set (c0 := VSet _ _ _ _ _ _ _ _ _ _ _ _) in C. unfold v_calculate.
  assert (P := cv_pos _ _ _ C). assert (S1 := cv_size _ _ _ C). assert (S2 := cv_count _ _ _ C). assert (L := cv_last _ _ _ C). assert (LT := cv_T _ _ _ C). cbn [c0 vs_count vs_sizes_T vs_T vs_last] in P, S1, S2, L, LT.
  destruct ((vs_count c =? 0) || (vs_sizes_T c <=? vs_count c)); [reflexivity|]. destruct (cv_hs _ _ _ C) as (Hn & As & H1). cbn [c0 vs_horizons] in Hn, As, H1.
  destruct (vs_horizons c) as [|h0 hs0] eqn:Eh; [reflexivity|]. destruct (vs_T c - vs_count c <=? 0); [reflexivity|].
  destruct (Z.to_nat (vs_count c)) as [|n] eqn:En; [lia|]. cbn [v_loop]. replace (Z.of_nat (S n)) with (vs_count c) by lia.
  set (st := VSt _ _ _ _ _ _ _). assert (Rd : v_round root binv crps c y est (vs_count c) st = Throw); [|rewrite Rd; reflexivity].
  unfold v_round. rewrite Eh. change (tried (h0 :: hs0) (vs_count c) = true) in Tr. rewrite tried_hd in Tr by auto. replace (vs_last c - vs_count c <? 0) with false by lia.
  set (hMax := last (h0 :: hs0) 0). assert (M0 : h0 <= hMax) by (apply asc_last; [auto|left; auto]). set (eff := Z.min (vs_count c) hMax). cbn [hd]. replace (eff <? h0) with false by lia.
  assert (F1 : 0 < Z.of_nat (List.length (filter (fun h => h <=? eff) (h0 :: hs0)))) by (cbn [filter]; replace (h0 <=? eff) with true by lia; cbn [List.length]; lia).
  replace (Z.of_nat (List.length (filter (fun h => h <=? eff) (h0 :: hs0))) <=? 0) with false by lia. cbn [st v_success]. rewrite Ef. destruct (negb (vs_ext c) && _); [reflexivity|].
  destruct (cv_fit _ _ _ C (vs_count c) (vs_prev c && false) f v ltac:(cbn [c0 vs_count]; lia) Ef) as (Rf & Rv & Lf & Lv). cbn [c0 vs_yy vs_horizons] in Rf, Rv, Lf, Lv. try rewrite Eh in Lf, Lv. assert (Ry := cv_y _ _ _ C). cbn [c0 vs_yy] in Ry.
  rewrite (at_index_ok (vs_yy c) y (vs_last c - vs_count c) Ry) by lia. cbn [bind].
  rewrite (columns_ok (vs_yy c) y f v (vs_last c - vs_count c) eff (h0 :: hs0)); auto; try (unfold eff; lia). cbn [bind k_act k_forc k_std k_count].
  destruct (lambdas_ok binv c (cv_lam _ _ _ C)) as (Lm & El & Hl). rewrite El. cbn [bind]. cbv zeta.
  assert (Vb : forall g, map (v_box binv (map Lm (seq 0 (vs_yy c)))) (vgrd (h0 :: hs0) (vs_yy c) g) = vgrd (h0 :: hs0) (vs_yy c) (fun h b => unbox binv (vs_lambdas c) b (g h b))).
  { intros g. unfold vgrd. rewrite map_map. apply map_ext. intros h. apply (box_map binv c Lm (g h) Hl). }
  rewrite !Vb. rewrite (box_map binv c Lm _ Hl). rewrite vgrd_map2.
  assert (Nv : existsb requires_variance (vs_metrics c) = true) by (apply existsb_exists; destruct Hm as [Hm|[Hm|Hm]]; eexists; (split; [exact Hm|reflexivity])).
  rewrite Nv, vgrd_map, Vb. cbn [v_res].
  match goal with |- context [v_adds crps eff _ _ _ ?a ?f ?e ?s ?l] => assert (K : forall ks acc, In SAuc ks \/ In SBrier ks \/ In SFrequencyCost ks -> List.length acc = List.length ks -> v_adds crps eff (h0 :: hs0) ks acc a f e s l = Throw) end.
  { destruct (vs_yy c) as [|yy]; [lia|]. induction ks as [|k ks IH]; intros acc Hk Hl2; [cbn in Hk; tauto|]. destruct acc as [|r acc]; [discriminate|]. cbn [v_adds]. unfold v_add.
    destruct (match k with SAuc | SBrier | SFrequencyCost => true | _ => false end) eqn:Ek.
    - destruct k; try discriminate; reflexivity.
    - assert (Im : implemented_v k) by (destruct k; try discriminate; exact Logic.I). rewrite (score_cols_ok crps k) by auto. cbn [bind]. rewrite IH; [reflexivity| |cbn in Hl2; lia].
      cbn [In] in Hk. destruct Hk as [[-> |]|[[-> |]|[-> |]]]; try discriminate; tauto. }
  rewrite K; [reflexivity|exact Hm|]. cbn [st v_res]. apply repeat_length.
Qed.
Print Assumptions c97_metric.
(** The scores of the two simulations disagree: an actual value of zero gives 0 for systems and 1/2 here; a negative actual value gives NaN here for the percentage. *)
Theorem c97_scores_refuted crps : 
  (exists a f, score crps SSign (Some a, Some f, None) <> cmp_score crps SSign (Cmp (Some a) (Some f) None None)) /\
  (exists a f v, score crps SMape (Some a, Some f, None) = Some v /\ cmp_score crps SMape (Cmp (Some a) (Some f) None None) = None).
Proof.
  split.
  - exists 0%Qc, 1%Qc. vm_compute. intros K. discriminate.
  - exists (qz (-1)), (qz 1). eexists. split; vm_compute; reflexivity.
Qed.
Print Assumptions c97_scores_refuted.

(** ** A case which meets the hypotheses: five observations of one variable, three origins, horizons 1 and 2; the estimation without the last two observations fails. *)
Ltac qeq := vm_compute; repeat first [apply Qc_is_canon; reflexivity | f_equal].
Definition y97 : list (list fl) := map (fun z => [Some (qz z)]) [1; 2; 4; 3; 8].
Definition e97 (se : Z) (p : bool) : vfit :=
  if se =? 2 then VFail (String.String "a"%char String.EmptyString) else VFit (map (fun z => [Some (qz z)]) [3; 5]) (map (fun z => [Some (qz z)]) [1; 1]).
Definition set97 (ext : bool) (hs : list Z) (maxinv : Z) : vset := VSet ext 3 hs [SMae; SDirection] 1 5 5 4 true maxinv None true.
Lemma e97_fits ext hs m : last hs 0 = 2 -> fits_ok (set97 ext hs m) e97.
Proof. intros L se p f v B. unfold e97. destruct (se =? 2); [discriminate|]. intros [= <- <-]. cbn [set97 vs_horizons vs_yy]. rewrite L. repeat split; try (intros r Hr; cbn in Hr; intuition subst; reflexivity); cbn; lia. Qed.
Example c97_case ext m : call_v (set97 ext [1; 2] m) y97 e97.
Proof.
  constructor; try (cbn; lia); try (cbn; auto; fail).
  - split; [discriminate|]. split; [cbn; lia|]. repeat constructor; lia.
  - repeat constructor.
  - intros r Hr. cbn in Hr. intuition subst; reflexivity.
  - apply e97_fits. reflexivity.
Qed.
(** se = 3: 4 is compared with 3 and 3 with 5; se = 1: 8 with 3. *)
Example c97_case_result : exists r, v_calculate (fun x => Some x) (fun _ x => Some x) (fun e _ => Some e) (set97 false [1; 2] 1) y97 e97 0 [] [] = Ok r /\
  v_res r = [[Some (qz 8 / qz 3)]; [Some (qz 2 / qz 3)]]%Qc /\ v_counter r = 3 /\ v_valid r = 2.
Proof. eexists. split; [vm_compute; reflexivity|]. split; [qeq|]. split; reflexivity. Qed.
Example c97_case_throws : v_calculate (fun x => Some x) (fun _ x => Some x) (fun e _ => Some e) (set97 false [1; 2] 0) y97 e97 0 [] [] = Throw.
Proof. vm_compute. reflexivity. Qed.
Example c97_case_ext : exists r, v_calculate (fun x => Some x) (fun _ x => Some x) (fun e _ => Some e) (set97 true [1; 2] 0) y97 e97 7 [] [] = Ok r /\
  v_valid r = 9 /\ errors_of (RModel (String.String "a"%char String.EmptyString)) (v_errors r) = 1 /\ List.length (v_details r) = 6%nat.
Proof. eexists. split; [vm_compute; reflexivity|]. repeat split. Qed.
Example c97_case_break : call_v (set97 false [2] 0) y97 (fun _ _ => e97 1 true) /\ failures (runs (set97 false [2] 0) (fun _ _ => e97 1 true)) = 0.
Proof.
  split; [|reflexivity]. constructor; try (cbn; lia); try (cbn; auto; fail).
  - split; [discriminate|]. split; [cbn; auto|]. repeat constructor; lia.
  - repeat constructor.
  - intros r Hr. cbn in Hr. intuition subst; reflexivity.
  - intros se p f v B [= <- <-]. repeat split; try (intros r Hr; cbn in Hr; intuition subst; reflexivity); cbn; lia.
Qed.
Example c97_case_metric : v_calculate (fun x => Some x) (fun _ x => Some x) (fun e _ => Some e) (VSet true 3 [1; 2] [SMae; SAuc] 1 5 5 4 true 0 None true) y97 e97 0 [] [] = Throw.
Proof. vm_compute. reflexivity. Qed.
(** With horizons which are not sorted, here 1, 3, 2, the column of a skipped horizon is added and the result is NaN although every estimation succeeds. *)
Theorem c97_unsorted_refuted root binv crps : exists c y est r, vs_horizons c = [1; 3; 2] /\ (forall se p, vfit_ok (est se p) = true) /\
  v_calculate root binv crps c y est 0 [] [] = Ok r /\ v_res r = [[None]] /\ forall q, In q (comparisons root binv c y 0%nat (runs c est)) -> cmp_score crps SMae q <> None.
Proof.
  exists (VSet false 3 [1; 3; 2] [SMae] 1 5 5 4 true 1 None true), y97, (fun _ _ => VFit (map (fun z => [Some (qz z)]) [3; 5; 6]) (map (fun z => [Some (qz z)]) [1; 1; 1])). eexists. split; [reflexivity|]. split; [reflexivity|]. split; [vm_compute; reflexivity|]. split; [vm_compute; reflexivity|].
  intros q Hq. vm_compute in Hq.
  repeat (destruct Hq as [<-|Hq]; [vm_compute; discriminate|]). destruct Hq.
Qed.
Print Assumptions c97_unsorted_refuted.
