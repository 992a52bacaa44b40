From Verif Require Import DcSimSpec DcCalcProofs DcExtProofs SurSimProofs DescProofs.
From Coq Require Import Lia ZifyBool Qround.
Local Open Scope Z_scope.

Lemma tenth_b_spec j p : tenth_b j p = true <-> tenth j p.
Proof.
  unfold tenth_b, tenth. rewrite andb_true_iff, orb_true_iff, andb_true_iff.
  destruct (qleb_spec (qz j) (p * qz 10)%Qc), (qltb_spec (p * qz 10)%Qc (qz (j + 1))), (Z.eqb_spec j 9), (qleb_spec p 1); intuition (try discriminate; try contradiction).
Qed.
Lemma floor_bounds q : (qz (qfloor q) <= q)%Qc /\ (q < qz (qfloor q + 1))%Qc.
Proof.
  unfold qfloor, Qcle, Qclt. rewrite !this_qz. split; [apply Qfloor_le|]. assert (K := Qlt_floor (this q)). exact K.
Qed.
Definition bucket (p : Qc) : Z := let j := qfloor (p * qz 10)%Qc in if j =? 10 then 9 else j.
Lemma bucket_range p : (0 <= p)%Qc -> (p <= 1)%Qc -> 0 <= bucket p <= 9.
Proof.
  intros A B. unfold bucket. cbv zeta. set (q := (p * qz 10)%Qc). destruct (floor_bounds q) as [F1 F2].
  assert (Q0 : (0 <= q)%Qc). { unfold q. assert (K := Qcmult_le_compat_r 0 p (qz 10) A ltac:(vm_compute; discriminate)). replace (0 * qz 10)%Qc with 0%Qc in K by ring. exact K. }
  assert (Q1 : (q <= qz 10)%Qc). { unfold q. assert (K := Qcmult_le_compat_r p 1 (qz 10) B ltac:(vm_compute; discriminate)). replace (1 * qz 10)%Qc with (qz 10) in K by ring. exact K. }
  assert (0 < qfloor q + 1) by (apply (qz_lt 0); apply Qcle_lt_trans with q; assumption).
  assert (qfloor q <= 10) by (apply (qz_le _ 10); apply Qcle_trans with q; assumption).
  destruct (Z.eqb_spec (qfloor q) 10); lia.
Qed.
Lemma bucket_tenth p j : (0 <= p)%Qc -> (p <= 1)%Qc -> (bucket p = j <-> 0 <= j <= 9 /\ tenth j p).
Proof.
  intros A B. assert (R := bucket_range p A B). unfold bucket, tenth in *. cbv zeta in *. set (q := (p * qz 10)%Qc) in *. destruct (floor_bounds q) as [F1 F2].
  assert (Q1 : (q <= qz 10)%Qc). { unfold q. assert (K := Qcmult_le_compat_r p 1 (qz 10) B ltac:(vm_compute; discriminate)). replace (1 * qz 10)%Qc with (qz 10) in K by ring. exact K. }
  destruct (Z.eqb_spec (qfloor q) 10) as [E|E]; split.
  - intros <-. split; [lia|]. split; [|right; auto]. rewrite E in F1. apply Qcle_trans with (qz 10); [apply (qz_le 9 10); lia|exact F1].
  - intros [J [J1 J2]]. destruct J2 as [J2|[J2 _]]; [|lia]. rewrite E in F1. assert (10 < j + 1) by (apply (qz_lt 10); apply Qcle_lt_trans with q; assumption). lia.
  - intros <-. split; [lia|]. split; [exact F1|left; exact F2].
  - intros [J [J1 J2]]. assert (j < qfloor q + 1) by (apply (qz_lt j); apply Qcle_lt_trans with q; assumption).
    destruct J2 as [J2|[J2 _]]; [|subst j; lia]. assert (qfloor q < j + 1) by (apply (qz_lt _ (j + 1)); apply Qcle_lt_trans with q; assumption). lia.
Qed.
Lemma counted_bucket c r j ch p : row_ok c r -> own_prob r p -> 0 <= j <= 9 -> counted j ch r = (label r =? ch) && (bucket p =? j).
Proof.
  intros [L [p' [O' [P0 P1]]]] O J. unfold own_prob in *. assert (p' = p) by congruence. subst p'. unfold counted. rewrite O. f_equal.
  destruct (tenth_b j p) eqn:T, (Z.eqb_spec (bucket p) j) as [E|E]; auto.
  - exfalso. apply E. apply bucket_tenth; auto. split; [exact J|apply tenth_b_spec; exact T].
  - apply bucket_tenth in E as [_ E]; auto. apply tenth_b_spec in E. congruence.
Qed.
Lemma count_at_ok t j w : 0 <= j < Z.of_nat (length t) -> count_at t j w = Ok (upd (Z.to_nat j) (nth (Z.to_nat j) t 0%Qc + w)%Qc t).
Proof. intros J. unfold count_at. destruct (Z.leb_spec 0 j); [|lia]. destruct (Z.ltb_spec j (Z.of_nat (length t))); [|lia]. reflexivity. Qed.
Lemma qsum_upd t i v : (i < length t)%nat -> qsum (upd i (nth i t 0 + v)%Qc t) = (qsum t + v)%Qc.
Proof.
  revert i. induction t as [|a t IH]; intros i H; [cbn in H; lia|]. destruct i as [|i]; cbn [upd nth]; rewrite !qs_cons; [ring|].
  rewrite IH by (cbn in H; lia). ring.
Qed.
Lemma table_ok k c rows : (forall r, In r rows -> row_ok c r) -> forall t, length t = Z.to_nat (10 * c) ->
  exists t', table_loop k rows t = Ok t' /\ length t' = length t /\ qsum t' = (qsum t + weight_sum (k_weight k) rows)%Qc /\
    forall j ch, 0 <= j <= 9 -> 0 <= ch < c -> nth (Z.to_nat (j + 10 * ch)) t' 0%Qc = (nth (Z.to_nat (j + 10 * ch)) t 0 + weight_sum (k_weight k) (filter (counted j ch) rows))%Qc.
Proof.
  induction rows as [|r rows IH]; intros G t L.
  - exists t. cbn. repeat split; auto; intros; unfold weight_sum; cbn; ring.
  - assert (RO := G r (or_introl eq_refl)). destruct (RO) as [LB [p [O [P0 P1]]]]. assert (B := bucket_range p P0 P1).
    cbn [table_loop]. cbv zeta. fold (label r). destruct (Z.ltb_spec (label r) 0); [lia|]. unfold own_prob in O. rewrite O. fold (bucket p).
    rewrite count_at_ok by lia. cbn [bind]. set (i := Z.to_nat (bucket p + 10 * label r)). set (t1 := upd i _ t).
    assert (L1 : length t1 = length t) by apply upd_length.
    destruct (IH (fun r H => G r (or_intror H)) t1) as [t' [E [Lt [Sm N]]]]; [lia|]. exists t'. split; [exact E|]. split; [lia|].
    assert (WE : weight_in k r = (if k_weight k then rweight r else 1)%Qc) by reflexivity. split.
    + rewrite Sm. unfold t1. rewrite qsum_upd by (unfold i; lia). rewrite WE. unfold weight_sum. cbn [map]. rewrite qs_cons. ring.
    + intros j ch J C. rewrite N by assumption. cbn [filter]. rewrite (counted_bucket c r j ch p RO O J).
      unfold t1. destruct (Z.eqb_spec (label r) ch) as [E1|E1]; [destruct (Z.eqb_spec (bucket p) j) as [E2|E2]|]; cbn [andb].
      * unfold i. rewrite E1, E2. rewrite nth_upd_same by lia. rewrite WE. unfold weight_sum. cbn [map]. rewrite qs_cons. ring.
      * rewrite nth_upd_other by (unfold i; lia). reflexivity.
      * rewrite nth_upd_other by (unfold i; lia). reflexivity.
Qed.

Section S.
Context (roc : bool -> list trow -> res fl) (cost : bool -> list trow -> res (list Qc * list Qc)) (A : list trow -> fl) (C : list trow -> list Qc * list Qc) (k : dcs).
Notation good_rows := (good_rows roc cost A C k).
Notation loop := (dcs_loop roc cost k).
Definition brier_after (b : option fl) (l : list (list trow)) : option fl := if k_brier k then fold_left (fun _ rows => Some (test_brier k rows)) l b else b.
Definition sums_after (s : list Qc) (l : list (list trow)) : list Qc := if 0 <? k_costs k then fold_left (fun a rows => map2 Qcplus a (fst (C rows))) l s else s.
Definition counts_after (s : list Qc) (l : list (list trow)) : list Qc := if 0 <? k_costs k then fold_left (fun a rows => map2 Qcplus a (snd (C rows))) l s else s.
Definition auc_after (a : fl) (l : list (list trow)) : fl := if k_auc k then a +f fsum (map A l) else a.
Lemma loop_ok max ds : (forall rows, In rows (fitted ds) -> good_rows rows) -> forall s, length (a_table s) = Z.to_nat (10 * k_choices k) ->
  (loop max s ds = Throw /\ max < a_inv s + failures ds) \/
  exists t, loop max s ds = Ok (Dcst (brier_after (a_brier s) (fitted ds)) (sums_after (a_sums s) (fitted ds)) (counts_after (a_counts s) (fitted ds))
      (auc_after (a_auc s) (fitted ds)) t (a_inv s + failures ds) (a_valid s + Z.of_nat (length (fitted ds)))) /\
    length t = length (a_table s) /\ (k_table k = false -> t = a_table s) /\
    (k_table k = true -> qsum t = (qsum (a_table s) + weight_sum (k_weight k) (concat (fitted ds)))%Qc) /\
    (k_table k = true -> forall j ch, 0 <= j <= 9 -> 0 <= ch < k_choices k -> nth (Z.to_nat (j + 10 * ch)) t 0%Qc =
       (nth (Z.to_nat (j + 10 * ch)) (a_table s) 0 + weight_sum (k_weight k) (filter (counted j ch) (concat (fitted ds))))%Qc).
Proof.
  induction ds as [|d ds IH]; intros G s L.
  - right. exists (a_table s). cbn [dcs_loop fitted flat_map failures filter length]. destruct s as [b su co a t inv va]. cbn [a_brier a_sums a_counts a_auc a_table a_inv a_valid].
    unfold brier_after, sums_after, counts_after, auc_after. cbn [fold_left map concat filter].
    split; [f_equal; f_equal; try lia; destruct (k_brier k), (0 <? k_costs k), (k_auc k); auto; change (@fsum) with fsum; unfold fsum; cbn [fold_left]; rewrite ?fadd_0_r; auto; cbn; lia|].
    repeat split; auto; intros; unfold weight_sum; cbn; ring.
  - cbn [dcs_loop]. destruct d as [|rows].
    + cbn [dcs_step bind]. change (fitted (DFailed :: ds)) with (fitted ds) in *.
      destruct (IH G (Dcst (a_brier s) (a_sums s) (a_counts s) (a_auc s) (a_table s) (a_inv s + 1) (a_valid s)) L) as [[E M]|[t [E R]]]; cbn [a_brier a_sums a_counts a_auc a_table a_inv a_valid] in *.
      * left. split; [exact E|]. unfold failures in *. cbn [filter length]. lia.
      * right. exists t. split; [|exact R]. rewrite E. f_equal. f_equal. unfold failures. cbn [filter length]. lia.
    + change (fitted (DFitted rows :: ds)) with (rows :: fitted ds) in *. destruct (G rows (or_introl eq_refl)) as (GA & GC & GT).
      assert (G' : forall r, In r (fitted ds) -> good_rows r) by (intros; apply G; right; assumption).
      cbn [dcs_step]. cbv zeta.
      assert (E1 : (if 0 <? k_costs k then do v <- cost (k_weight k && k_weval k) rows; Ok (map2 Qcplus (a_sums s) (fst v), map2 Qcplus (a_counts s) (snd v)) else Ok (a_sums s, a_counts s))
        = Ok (if 0 <? k_costs k then (map2 Qcplus (a_sums s) (fst (C rows)), map2 Qcplus (a_counts s) (snd (C rows))) else (a_sums s, a_counts s))).
      { destruct (Z.ltb_spec 0 (k_costs k)) as [P|P]; [|reflexivity]. rewrite (proj1 (GC P)). reflexivity. }
      rewrite E1. cbn [bind]. clear E1.
      assert (E2 : (if k_auc k then do v <- roc (k_weight k && k_weval k) rows; Ok (a_auc s +f v) else Ok (a_auc s)) = Ok (if k_auc k then a_auc s +f A rows else a_auc s)).
      { destruct (k_auc k); [|reflexivity]. rewrite (GA eq_refl). reflexivity. }
      rewrite E2. cbn [bind]. clear E2.
      assert (T : exists t1, (if k_table k then table_loop k rows (a_table s) else Ok (a_table s)) = Ok t1 /\ length t1 = length (a_table s) /\ (k_table k = false -> t1 = a_table s) /\
        (k_table k = true -> qsum t1 = (qsum (a_table s) + weight_sum (k_weight k) rows)%Qc /\ forall j ch, 0 <= j <= 9 -> 0 <= ch < k_choices k -> nth (Z.to_nat (j + 10 * ch)) t1 0%Qc = (nth (Z.to_nat (j + 10 * ch)) (a_table s) 0 + weight_sum (k_weight k) (filter (counted j ch) rows))%Qc)).
      { destruct (k_table k).
        - destruct (table_ok k (k_choices k) rows (GT eq_refl) (a_table s) L) as [t1 [E [Lt [Sm N]]]]. exists t1. repeat split; auto. discriminate.
        - exists (a_table s). repeat split; auto; discriminate. }
      destruct T as [t1 [ET [LT [TF TT]]]]. rewrite ET. cbn [bind]. clear ET.
      destruct (Z.ltb_spec max (a_inv s + 1 - 1)) as [M|M].
      * left. split; [reflexivity|]. assert (0 <= failures (DFitted rows :: ds)) by (unfold failures; lia). lia.
      * cbn [bind].
        set (s1 := Dcst _ _ _ _ _ _ _). destruct (IH G' s1) as [[E MM]|[t [E [LL [RF [RS RN]]]]]]; [cbn [a_table s1]; lia| |].
        -- left. split; [exact E|]. unfold failures in *. cbn [filter length s1 a_inv] in *. lia.
        -- right. exists t. cbn [a_brier a_sums a_counts a_auc a_table a_inv a_valid s1] in *. split; [|split; [lia|split; [|split]]].
           ++ rewrite E. f_equal. f_equal; cbn [length]; try lia.
              ** unfold brier_after. cbn [fold_left]. destruct (k_brier k); reflexivity.
              ** unfold sums_after. cbn [fold_left]. destruct (0 <? k_costs k); reflexivity.
              ** unfold counts_after. cbn [fold_left]. destruct (0 <? k_costs k); reflexivity.
              ** unfold auc_after. cbn [map]. destruct (k_auc k); [|reflexivity]. rewrite fsum_cons, fadd_assoc. reflexivity.
              ** unfold failures. cbn [filter length]. lia.
           ++ intros F. rewrite (RF F). apply TF, F.
           ++ intros F. rewrite (RS F). destruct (TT F) as [-> _]. cbn [concat]. unfold weight_sum. rewrite map_app, qsum_app. ring.
           ++ intros F j ch J CH. rewrite (RN F j ch J CH). destruct (TT F) as [_ N1]. rewrite (N1 j ch J CH). cbn [concat]. rewrite filter_app. unfold weight_sum. rewrite map_app, qsum_app. ring.
Qed.
Lemma fold_plus (f : list trow -> list Qc) m l : (forall rows, In rows l -> length (f rows) = m) -> forall s, length s = m ->
  length (fold_left (fun a rows => map2 Qcplus a (f rows)) l s) = m /\
  forall i, (i < m)%nat -> nth i (fold_left (fun a rows => map2 Qcplus a (f rows)) l s) 0%Qc = (nth i s 0 + qsum (map (fun rows => nth i (f rows) 0) l))%Qc.
Proof.
  assert (M2 : forall (a b : list Qc), length a = length b -> length (map2 Qcplus a b) = length a /\ forall i, (i < length a)%nat -> nth i (map2 Qcplus a b) 0%Qc = (nth i a 0 + nth i b 0)%Qc).
  { clear. induction a as [|x a IH]; intros [|y b] L; try discriminate L; [split; [reflexivity|cbn; lia]|]. destruct (IH b ltac:(cbn in L; lia)) as [I1 I2]. cbn [map2 length]. split; [lia|].
    intros [|i] Hi; cbn [nth]; [reflexivity|]. apply I2. lia. }
  induction l as [|rows l IH]; intros G s L; cbn [fold_left map].
  - split; [exact L|]. intros i Hi. change (qsum []) with 0%Qc. ring.
  - destruct (M2 s (f rows)) as [L2 N2]; [rewrite (G rows (or_introl eq_refl)); exact L|].
    destruct (IH (fun r H => G r (or_intror H)) (map2 Qcplus s (f rows))) as [LL NN]; [lia|]. split; [exact LL|]. intros i Hi. rewrite NN by exact Hi. rewrite N2 by lia. rewrite qs_cons. ring.
Qed.
End S.
Lemma calculate_all roc cost A C k max ds : k_model k = Binary -> 0 <= k_costs k -> (forall rows, In rows (fitted ds) -> good_rows roc cost A C k rows) ->
  (failures ds <= max -> fitted ds <> [] -> exists R, dcs_calculate roc cost k max ds = Ok R /\ o_valid R = Z.of_nat (length (fitted ds)) /\
     o_brier R = (if k_brier k then match rev (fitted ds) with rows :: _ => Some (test_brier k rows) | [] => None end else None) /\
     (k_auc k = true -> o_auc R = fsum (map A (fitted ds)) /f Some (qz (Z.of_nat (length (fitted ds))))) /\
     length (o_ratios R) = Z.to_nat (k_costs k) /\
     (forall i, (i < Z.to_nat (k_costs k))%nat -> nth i (o_ratios R) None = Some (qsum (map (fun rows => nth i (fst (C rows)) 0%Qc) (fitted ds))) /f Some (qsum (map (fun rows => nth i (snd (C rows)) 0%Qc) (fitted ds)))) /\
     length (o_table R) = Z.to_nat (10 * k_choices k) /\
     (k_table k = true -> qsum (o_table R) = weight_sum (k_weight k) (concat (fitted ds)) /\
        forall j ch, 0 <= j <= 9 -> 0 <= ch < k_choices k -> nth (Z.to_nat (j + 10 * ch)) (o_table R) 0%Qc = weight_sum (k_weight k) (filter (counted j ch) (concat (fitted ds))))) /\
  (max < failures ds \/ fitted ds = [] -> dcs_calculate roc cost k max ds = Throw).
Proof.
  intros B K G. unfold dcs_calculate. rewrite B. cbv zeta. set (z := repeat 0%Qc (Z.to_nat (k_costs k))). set (t0 := repeat 0%Qc (Z.to_nat (10 * k_choices k))).
  assert (Z0 : forall n, qsum (repeat 0%Qc n) = 0%Qc) by (clear; induction n; [reflexivity|]; cbn [repeat]; rewrite qs_cons, IHn; ring).
  destruct (loop_ok roc cost A C k max ds G (Dcst None z z (Some 0%Qc) t0 0 0)) as [[E M]|[t [E [L [TF [TS TN]]]]]];
    cbn [a_brier a_sums a_counts a_auc a_table a_inv a_valid] in *; [unfold t0; apply repeat_length| |].
  - rewrite E. cbn [bind]. split; [intros; lia|reflexivity].
  - rewrite E. cbn [bind]. cbn [a_brier a_sums a_counts a_auc a_table a_inv a_valid].
    split.
    + intros F NE. destruct (Z.ltb_spec max (0 + failures ds)); [lia|]. assert (LN : (0 < length (fitted ds))%nat) by (destruct (fitted ds); [contradiction|cbn; lia]).
      destruct (Z.eqb_spec (0 + Z.of_nat (length (fitted ds))) 0); [lia|]. eexists. split; [reflexivity|]. cbn [o_valid o_brier o_ratios o_auc o_table].
      assert (LZ : length z = Z.to_nat (k_costs k)) by apply repeat_length.
      assert (RT : length (sums_after C k z (fitted ds)) = Z.to_nat (k_costs k) /\ length (counts_after C k z (fitted ds)) = Z.to_nat (k_costs k) /\
        forall i, (i < Z.to_nat (k_costs k))%nat -> nth i (sums_after C k z (fitted ds)) 0%Qc = qsum (map (fun rows => nth i (fst (C rows)) 0%Qc) (fitted ds)) /\ nth i (counts_after C k z (fitted ds)) 0%Qc = qsum (map (fun rows => nth i (snd (C rows)) 0%Qc) (fitted ds))).
      { unfold sums_after, counts_after. destruct (Z.ltb_spec 0 (k_costs k)) as [P|P]; [|split; [exact LZ|split; [exact LZ|intros; lia]]].
        destruct (fold_plus (fun rows => fst (C rows)) (Z.to_nat (k_costs k)) (fitted ds)) with (s := z) as [L1 N1]; [intros rows Hr; apply (proj1 (proj2 (G rows Hr)) P)|exact LZ|].
        destruct (fold_plus (fun rows => snd (C rows)) (Z.to_nat (k_costs k)) (fitted ds)) with (s := z) as [L2 N2]; [intros rows Hr; apply (proj1 (proj2 (G rows Hr)) P)|exact LZ|].
        split; [exact L1|]. split; [exact L2|]. intros i Hi. rewrite N1, N2 by exact Hi. unfold z. rewrite nth_repeat. split; ring. }
      destruct RT as [L1 [L2 NN]].
      assert (M2 : forall (a b : list Qc), length a = length b -> length (map2 (fun a b => Some a /f Some b) a b) = length a /\ forall i, (i < length a)%nat -> nth i (map2 (fun a b => Some a /f Some b) a b) None = Some (nth i a 0%Qc) /f Some (nth i b 0%Qc)).
      { clear. induction a as [|x a IH]; intros [|y b] L; try discriminate L; [split; [reflexivity|cbn; lia]|]. destruct (IH b ltac:(cbn in L; lia)) as [I1 I2]. cbn [map2 length]. split; [lia|].
        intros [|i] Hi; cbn [nth]; [reflexivity|]. apply I2. lia. }
      destruct (M2 (sums_after C k z (fitted ds)) (counts_after C k z (fitted ds)) ltac:(lia)) as [L3 N3].
      split; [lia|]. split; [|split; [|split; [lia|split; [|split; [unfold t0 in L; rewrite repeat_length in L; exact L|]]]]].
      * unfold brier_after. destruct (k_brier k); [|reflexivity]. destruct (fitted ds) as [|x l] using rev_ind; [contradiction|]. rewrite fold_left_app, rev_app_distr. reflexivity.
      * intros HA. unfold auc_after. rewrite HA, fadd_0_l. f_equal.
      * intros i Hi. rewrite N3 by lia. destruct (NN i Hi) as [-> ->]. reflexivity.
      * intros HT. split.
        -- rewrite (TS HT). unfold t0. rewrite Z0. ring.
        -- intros j ch J CH. rewrite (TN HT j ch J CH). unfold t0. rewrite nth_repeat. ring.
    + intros F. destruct (Z.ltb_spec max (0 + failures ds)); [reflexivity|]. destruct F as [F|F]; [lia|]. rewrite F. reflexivity.
Qed.
Lemma dcs_sizes t weight rows cols c pct fx costs brier auc table weval k : dcs_new t weight rows cols c pct fx costs brier auc table weval = Ok k ->
  let n0 := SplitModel.train_size rows pct fx in exists m, ext_new t n0 cols weight false c false (rows - n0) None false = Ok m /\ n0 <> 0 /\ n0 <> rows /\
  k_model k = t /\ k_choices k = c /\ k_weight k = weight /\ k_weval k = (weight && weval)%bool /\ k_brier k = brier /\ k_auc k = auc /\ k_table k = table /\ k_costs k = costs /\ k_n1 k = rows - n0 /\
  (costs <> 0 \/ table = true \/ auc = true) /\ 0 <= fx /\ (fx = 0 -> (0 < pct)%Qc /\ (pct < 1)%Qc) /\
  k_storage k = (if 0 <? costs then costs else 0) + (if table then 10 * c else 0) /\ k_work k = costs + 2 * costs + rows * cols + x_storage m + x_work m.
Proof.
  unfold dcs_new. cbv zeta. destruct (c <? 1); [discriminate|]. destruct ((c =? 2) && _)%bool; [discriminate|]. destruct ((2 <? c) && _)%bool; [discriminate|].
  destruct ((costs =? 0) && negb table && negb auc)%bool eqn:GO; [discriminate|]. destruct (Z.ltb_spec fx 0); [discriminate|].
  destruct ((fx =? 0) && (qleb 1 pct || qleb pct 0))%bool eqn:PC; [discriminate|]. set (n0 := SplitModel.train_size rows pct fx).
  destruct (Z.eqb_spec n0 0); [discriminate|]. destruct (Z.eqb_spec n0 rows); [discriminate|]. cbn [orb].
  destruct (ext_new _ _ _ _ _ _ _ _ _ _) as [m| |]; cbn [bind]; try discriminate. intros E. apply (f_equal (fun r => match r with Ok x => x | _ => k end)) in E. cbv beta iota in E. subst k.
  exists m. cbn [k_model k_choices k_weight k_weval k_brier k_auc k_table k_costs k_n1 k_storage k_work].
  assert (PP : fx = 0 -> (0 < pct)%Qc /\ (pct < 1)%Qc).
  { intros ->. cbn [Z.eqb andb] in PC. apply orb_false_iff in PC as [P1 P2].
    destruct (qleb_spec 1 pct); [discriminate|]. destruct (qleb_spec pct 0); [discriminate|]. split; apply Qcnot_le_lt; assumption. }
  assert (GG : costs <> 0 \/ table = true \/ auc = true) by (destruct (Z.eqb_spec costs 0), table, auc; cbn in GO; auto; discriminate).
  repeat (split; [first [assumption|reflexivity]|]); reflexivity.
Qed.
