From Verif Require Import RocSpec RocModel RocProofs RocProofs2.
From Coq Require Import Lia Field Qcanon.
Local Open Scope Qc_scope.

Fixpoint chain (p : Qc * Qc) (ps : list (Qc * Qc)) : Prop := match ps with [] => True | q :: t => fst p <= fst q /\ snd p <= snd q /\ chain q t end.
Ltac qd a b := let L := fresh "L" in destruct (qltb_spec a b) as [L|L]; [|apply Qcnot_lt_le in L].
Ltac qe a b := let L := fresh "L" in destruct (qleb_spec a b) as [L|L]; [|apply Qcnot_le_lt in L].
Lemma qmax_l a b : b <= a -> qmax a b = a. Proof. intros H. unfold qmax. qd a b; auto. destruct (Qclt_not_le _ _ L H). Qed.
Lemma qmax_r a b : a <= b -> qmax a b = b. Proof. intros H. unfold qmax. qd a b; auto. apply Qcle_antisym; auto. Qed.
Lemma qmin_l a b : a <= b -> qmin a b = a. Proof. intros H. unfold qmin. qd a b; auto. apply Qcle_antisym; auto. Qed.
Lemma qmin_r a b : b <= a -> qmin a b = b. Proof. intros H. unfold qmin. qd a b; auto. destruct (Qclt_not_le _ _ L H). Qed.

Section Clip.
Variables lo up : Qc.
Hypothesis HLU : lo <= up.
Definition J (acc : list point) (p0 : point) : Prop := (fst p0 < lo -> acc = []) /\ (lo <= fst p0 -> fst p0 <= up -> ends acc p0).

Lemma line_start p q : line p q (fst p) = snd p. Proof. unfold line. ring. Qed.
Lemma line_end p q : fst p < fst q -> line p q (fst q) = snd q.
Proof. intros H. unfold line. assert (fst q - fst p <> 0) by (intros E; qlra). field. auto. Qed.
Lemma line_back p q x : fst p < fst q -> snd q - (fst q - x) * ((snd q - snd p) / (fst q - fst p)) = line p q x.
Proof. intros H. unfold line. assert (fst q - fst p <> 0) by (intros E; qlra). field. auto. Qed.
Lemma trap_alt p q : trap p q = (fst q - fst p) * (snd p + snd q) / qz 2.
Proof. unfold trap. rewrite !half2. assert (E : half + half = 1) by (apply Qc_is_canon; reflexivity). transitivity ((fst q - fst p) * (snd p * (half + half) + (snd q - snd p) * half)); [rewrite E; ring|ring]. Qed.
Lemma ends_snoc ps q : ends (ps ++ [q]) q. Proof. exists ps. auto. Qed.

Lemma clip_one acc p q : J acc p -> fst p <= fst q ->
  J (acc ++ clip_step lo up p q) q /\ auc_points false 0 (acc ++ clip_step lo up p q) = auc_points false 0 acc + segment_area lo up p q.
Proof.
  intros (J1 & J2) H. destruct p as (x0, y0), q as (x, y). cbn [fst snd] in *. unfold clip_step, segment_area. cbn [fst snd].
  assert (Z0 : forall a b, b <= a -> (if qltb a b then (b - a) * (line (x0, y0) (x, y) a + line (x0, y0) (x, y) b) / qz 2 else 0) = 0). { intros a b Hab. qd a b; auto. destruct (Qclt_not_le _ _ L Hab). }
  qe lo x.
  - qe x0 up.
    + cbn [andb]. qd x0 lo.
      * (* the first point *)
        specialize (J1 L1). subst acc. cbn [app]. rewrite qmax_r by (apply Qclt_le_weak; auto). assert (X0U : x0 < up) by qlra.
        qd lo x.
        -- cbn [andb]. assert (X01 : x0 < x) by qlra. qe x up.
           ++ (* L < x <= U *) qd up x; [destruct (Qclt_not_le _ _ L4 L3)|]. cbn [andb app]. rewrite qmin_l by auto. qd lo x; [|destruct (Qclt_not_le _ _ L2 L5)]. split.
              ** split; cbn [fst]; [intros Q; destruct (Qclt_not_le _ _ L2); apply Qclt_le_weak; auto|]. intros _ _. exists [(lo, y0 + (lo - x0) * ((y - y0) / (x - x0)))]. auto.
              ** change [(lo, y0 + (lo - x0) * ((y - y0) / (x - x0))); (x, y)] with ([(lo, y0 + (lo - x0) * ((y - y0) / (x - x0)))] ++ [(x, y)]).
                 rewrite (auc_snoc _ (lo, y0 + (lo - x0) * ((y - y0) / (x - x0)))) by (exists []; auto). cbn [auc_points]. rewrite trap_alt. cbn [fst snd]. pose proof (line_end (x0, y0) (x, y) X01) as LE. cbn [fst snd] in LE. rewrite LE. unfold line at 1. cbn [fst snd]. ring.
           ++ (* x > U *) qd up x; [|destruct (Qclt_not_le _ _ L3 L4)]. qd x0 up; [|destruct (Qclt_not_le _ _ X0U L5)]. cbn [andb app]. rewrite qmin_r by (apply Qclt_le_weak; auto).
              pose proof (line_back (x0, y0) (x, y) up X01) as LB. cbn [fst snd] in LB. rewrite LB.
              split; [split; cbn [fst]; [intros Q; destruct (Qclt_not_le _ _ L2); apply Qclt_le_weak; auto|intros _ Q; destruct (Qclt_not_le _ _ L3 Q)]|].
              change [(lo, y0 + (lo - x0) * ((y - y0) / (x - x0))); (up, line (x0, y0) (x, y) up)] with ([(lo, y0 + (lo - x0) * ((y - y0) / (x - x0)))] ++ [(up, line (x0, y0) (x, y) up)]).
              rewrite (auc_snoc _ (lo, y0 + (lo - x0) * ((y - y0) / (x - x0)))) by (exists []; auto). cbn [auc_points]. rewrite trap_alt. cbn [fst snd]. fold (line (x0, y0) (x, y) lo). qd lo up.
              ** unfold line. cbn [fst snd]. ring.
              ** assert (lo = up) by (apply Qcle_antisym; auto). subst up. unfold Qcdiv. ring.
        -- (* x = L *) assert (x = lo) by (apply Qcle_antisym; auto). subst x. cbn [andb app]. qe lo up; [|destruct (Qclt_not_le _ _ L3 HLU)]. qd up lo; [destruct (Qclt_not_le _ _ L4 HLU)|]. cbn [andb app]. split.
           ++ split; cbn [fst]; [intros Q; destruct (Qclt_irrefl _ Q)|]. intros _ _. exists []. auto.
           ++ cbn [auc_points]. rewrite Z0; [ring|]. rewrite qmin_l by auto. apply Qcle_refl.
      * (* L <= x0 <= U *) pose proof (J2 L1 L0) as E. rewrite Bool.andb_false_r. cbn [app]. rewrite qmax_l by auto. qe x up.
        -- qd up x; [destruct (Qclt_not_le _ _ L3 L2)|]. cbn [andb app]. rewrite qmin_l by auto. split.
           ++ split; cbn [fst]; [intros Q; destruct (Qclt_not_le _ _ Q L)|]. intros _ _. apply ends_snoc.
           ++ rewrite (auc_snoc _ _ _ E). f_equal. rewrite trap_alt. cbn [fst snd]. qd x0 x.
              ** pose proof (line_start (x0, y0) (x, y)) as LS. cbn [fst snd] in LS. rewrite LS. pose proof (line_end (x0, y0) (x, y) L4) as LE. cbn [fst snd] in LE. rewrite LE. auto.
              ** assert (x = x0) by (apply Qcle_antisym; auto). subst x. unfold Qcdiv. ring.
        -- qd up x; [|destruct (Qclt_not_le _ _ L2 L3)]. cbn [andb app]. rewrite qmin_r by (apply Qclt_le_weak; auto). qd x0 up.
           ++ split; [split; cbn [fst]; [intros Q; destruct (Qclt_not_le _ _ Q L)|intros _ Q; destruct (Qclt_not_le _ _ L2 Q)]|].
              rewrite (auc_snoc _ _ _ E). f_equal. rewrite trap_alt. cbn [fst snd]. pose proof (line_start (x0, y0) (x, y)) as LS. cbn [fst snd] in LS. rewrite LS.
              pose proof (line_back (x0, y0) (x, y) up (Qclt_trans _ _ _ L4 L2)) as LB. cbn [fst snd] in LB. rewrite LB. auto.
           ++ rewrite app_nil_r. split; [split; cbn [fst]; [intros Q; destruct (Qclt_not_le _ _ Q L)|intros _ Q; destruct (Qclt_not_le _ _ L2 Q)]|]. ring.
    + cbn [andb]. rewrite app_nil_r. split.
      * split; cbn [fst]; [intros Q; destruct (Qclt_not_le _ _ Q L)|]. intros _ Q. exfalso. apply (Qclt_not_le _ _ L0). eapply Qcle_trans; eauto.
      * rewrite Z0; [ring|]. apply (Qcle_trans _ up); [unfold qmin; qd x up; [apply Qclt_le_weak; auto|apply Qcle_refl]|]. apply (Qcle_trans _ x0); [apply Qclt_le_weak; auto|]. unfold qmax. qd x0 lo; [apply Qclt_le_weak; auto|apply Qcle_refl].
  - cbn [andb]. rewrite app_nil_r. assert (X0L : x0 < lo) by qlra. split.
    + split; cbn [fst]; auto. intros Q. destruct (Qclt_not_le _ _ L Q).
    + rewrite Z0; [ring|]. apply (Qcle_trans _ x); [unfold qmin; qd x up; [apply Qcle_refl|auto]|]. apply (Qcle_trans _ lo); [apply Qclt_le_weak; auto|]. rewrite qmax_r by (apply Qclt_le_weak; auto). apply Qcle_refl.
Qed.
Lemma clip_all : forall ps p acc, J acc p -> chain p ps -> auc_points false 0 (acc ++ clip_loop lo up p ps) = auc_points false 0 acc + area_between lo up (p :: ps).
Proof.
  induction ps as [|q ps IH]; intros p acc HJ C; [cbn [clip_loop area_between]; rewrite app_nil_r; ring|]. destruct C as (C1 & C2 & C). cbn [clip_loop]. destruct (clip_one acc p q HJ C1) as (J' & E). rewrite app_assoc, IH by auto. rewrite E.
  change (area_between lo up (p :: q :: ps)) with (segment_area lo up p q + area_between lo up (q :: ps)). ring.
Qed.
Lemma clip_area ps : 0 <= lo -> chain (0, 0) ps -> auc_points false 0 (clip_loop lo up (0, 0) ((0, 0) :: ps)) = area_between lo up ((0, 0) :: ps).
Proof.
  intros H0 C. cbn [clip_loop]. set (acc := clip_step lo up (0, 0) (0, 0)).
  assert (JJ : J acc (0, 0) /\ auc_points false 0 acc = 0).
  { unfold acc, clip_step. qe lo 0.
    - assert (E : lo = 0) by (apply Qcle_antisym; auto). qe 0 up; [|exfalso; qlra]. cbn [andb]. qd lo 0; [exfalso; qlra|]. qd up 0; [exfalso; qlra|]. cbn [andb app]. split; auto.
      split; cbn [fst]; [intros Q; exfalso; qlra|]. intros _ _. exists []. auto.
    - cbn [andb]. split; auto. split; cbn [fst]; auto. intros Q. destruct (Qclt_not_le _ _ L Q). }
  destruct JJ as (JJ & E0). rewrite clip_all by auto. rewrite E0. ring.
Qed.

(** ** Bounds *)
Lemma line_mono p q x : fst p < fst q -> snd p <= snd q -> fst p <= x -> x <= fst q -> snd p <= line p q x <= snd q.
Proof.
  intros H1 H2 H3 H4. pose proof (line_end p q H1) as LE. unfold line in *. set (s := (snd q - snd p) / (fst q - fst p)) in *.
  assert (D : 0 < fst q - fst p) by qlra. assert (S0 : 0 <= s). { unfold s. apply Qcnot_lt_le. intros N. assert (E : (snd q - snd p) = s * (fst q - fst p)) by (unfold s; field; intros Z; rewrite Z in D; destruct (Qclt_irrefl _ D)).
    assert (s * (fst q - fst p) < 0 * (fst q - fst p)) by (apply Qcmult_lt_compat_r; auto). rewrite <- E in H. qlra. }
  assert (A : 0 <= (x - fst p) * s). { replace 0 with (0 * s) by ring. apply Qcmult_le_compat_r; auto. qlra. }
  assert (B : (x - fst p) * s <= (fst q - fst p) * s). { apply Qcmult_le_compat_r; auto. qlra. }
  split; qlra.
Qed.
Definition cl (x : Qc) : Qc := qmin (qmax x lo) up.
Lemma cl_mono x y : x <= y -> cl x <= cl y.
Proof. intros H. unfold cl, qmax. qd x lo; qd y lo; unfold qmin; repeat match goal with |- context [qltb ?a ?b] => qd a b end; qlra. Qed.
Lemma cl_range x : lo <= cl x <= up.
Proof. unfold cl, qmax. qd x lo; unfold qmin; repeat match goal with |- context [qltb ?a ?b] => qd a b end; split; qlra. Qed.
Lemma segment_range p q : fst p <= fst q -> snd p <= snd q -> 0 <= snd p -> snd q <= 1 -> 0 <= segment_area lo up p q <= cl (fst q) - cl (fst p).
Proof.
  intros H1 H2 H3 H4. unfold segment_area. set (a := qmax (fst p) lo). set (b := qmin (fst q) up). pose proof (cl_mono _ _ H1). qd a b; [|split; qlra].
  assert (A1 : fst p <= a /\ lo <= a) by (unfold a, qmax; qd (fst p) lo; split; qlra). assert (B1 : b <= fst q /\ b <= up) by (unfold b, qmin; qd (fst q) up; split; qlra). destruct A1 as (A1 & A2). destruct B1 as (B1 & B2).
  assert (LT : fst p < fst q) by qlra. pose proof (line_mono p q a LT H2 A1 ltac:(qlra)) as (LA1 & LA2). pose proof (line_mono p q b LT H2 ltac:(qlra) B1) as (LB1 & LB2).
  assert (CE : cl (fst q) - cl (fst p) = b - a).
  { unfold cl. assert (E1 : qmin (qmax (fst p) lo) up = a) by (fold a; apply qmin_l; qlra). rewrite E1. f_equal. rewrite qmax_l by qlra. reflexivity. }
  rewrite CE. rewrite half2. set (m := (line p q a + line p q b) * half). replace ((b - a) * (line p q a + line p q b) * half) with (m * (b - a)) by (unfold m; ring).
  assert (HH : 0 <= half) by (unfold half, Qcle; cbn; discriminate). clearbody a b. set (u := line p q a) in *. set (v := line p q b) in *. clearbody u v.
  assert (M0 : 0 <= m). { unfold m. replace 0 with (0 * half) by ring. apply Qcmult_le_compat_r; [|auto]. clear - LA1 LB1 H3. qlra. }
  assert (M1 : m <= 1). { unfold m. replace 1 with ((1 + 1) * half) by (apply Qc_is_canon; reflexivity). apply Qcmult_le_compat_r; [|auto]. clear - LA2 LB2 H4. qlra. }
  assert (D : 0 <= b - a) by (clear - L; qlra). split.
  - replace 0 with (0 * (b - a)) by ring. apply Qcmult_le_compat_r; auto.
  - replace (b - a) with (1 * (b - a)) at 2 by ring. apply Qcmult_le_compat_r; auto.
Qed.
Lemma area_range : forall ps p, chain p ps -> 0 <= snd p -> Forall (fun q => snd q <= 1) ps -> 0 <= area_between lo up (p :: ps) <= cl (fst (last ps p)) - cl (fst p).
Proof.
  induction ps as [|q ps IH]; intros p C H F; [cbn; split; qlra|]. destruct C as (C1 & C2 & C). apply Forall_cons_iff in F. destruct F as (F1 & F).
  change (area_between lo up (p :: q :: ps)) with (segment_area lo up p q + area_between lo up (q :: ps)). destruct (IH q C ltac:(qlra) F) as (I1 & I2). destruct (segment_range p q C1 C2 H F1) as (S1 & S2).
  assert (LQ : last (q :: ps) p = last ps q). { clear. revert p q. induction ps as [|a ps IH]; intros p q; auto. change (last (q :: a :: ps) p) with (last (a :: ps) p). change (last (a :: ps) q) with (last (a :: ps) q). rewrite IH. symmetry. apply IH. }
  rewrite LQ. split; qlra.
Qed.
Lemma area_bounds ps p : chain p ps -> 0 <= snd p -> Forall (fun q => snd q <= 1) ps -> 0 <= area_between lo up (p :: ps) <= up - lo.
Proof. intros C H F. destruct (area_range ps p C H F) as (A & B). destruct (cl_range (fst (last ps p))) as (C1 & C2), (cl_range (fst p)) as (C3 & C4). split; qlra. Qed.
End Clip.

(** Bounds of the full area. *)
Lemma concordance_range p n : 0 <= concordance p n <= 1.
Proof. unfold concordance. destruct (qltb (score p) (score n)); [split; qlra|]. destruct (qeqb (score p) (score n)); split; unfold Qcle; cbn; discriminate. Qed.
Lemma qsum_le {A} (f g : A -> Qc) l : (forall x, In x l -> f x <= g x) -> qsum (map f l) <= qsum (map g l).
Proof. induction l as [|a l IH]; intros H; [apply Qcle_refl|]. cbn [map qsum fold_right]. apply Qcplus_le_compat; [apply H; left; auto|apply IH; intros; apply H; right; auto]. Qed.
Lemma Qc_mul_nonneg a b : 0 <= a -> 0 <= b -> 0 <= a * b.
Proof. intros H1 H2. replace 0 with (0 * b) by ring. apply Qcmult_le_compat_r; auto. Qed.
Lemma correct_range l : Forall (fun o => 0 <= weight o) l -> 0 <= correct_pairs l <= all_pairs l.
Proof.
  intros F. rewrite Forall_forall in F. unfold correct_pairs, all_pairs, pair_sum. split.
  - apply qsum_nonneg. rewrite Forall_forall. intros x Hx. apply in_map_iff in Hx. destruct Hx as (p & <- & Hp). apply qsum_nonneg. rewrite Forall_forall. intros y Hy. apply in_map_iff in Hy. destruct Hy as (n & <- & Hn).
    apply Qc_mul_nonneg; [apply Qc_mul_nonneg; apply F, pn_in; auto|apply concordance_range].
  - apply qsum_le. intros p Hp. apply qsum_le. intros n Hn. replace (weight p * weight n) with (1 * (weight p * weight n)) at 2 by ring. rewrite (Qcmult_comm _ (concordance p n)).
    apply Qcmult_le_compat_r; [apply concordance_range|]. apply Qc_mul_nonneg; apply F, pn_in; auto.
Qed.
(** The points form a rising path. *)
Lemma filter_le l t t' : Forall (fun o => 0 <= weight o) l -> t <= t' ->
  qsum (map weight (filter (fun o => qleb (score o) t) l)) <= qsum (map weight (filter (fun o => qleb (score o) t') l)).
Proof.
  intros F H. induction F as [|a l Ha F IH]; [apply Qcle_refl|]. cbn [filter]. qe (score a) t; qe (score a) t'; cbn [map qsum fold_right]; fold (qsum (map weight (filter (fun o => qleb (score o) t) l))) (qsum (map weight (filter (fun o => qleb (score o) t') l))).
  - qlra.
  - exfalso. qlra.
  - qlra.
  - auto.
Qed.
Lemma Forall_filter {A} (P : A -> Prop) f l : Forall P l -> Forall P (filter f l).
Proof. rewrite !Forall_forall. intros H x Hx. apply filter_In in Hx. apply H. tauto. Qed.
Lemma points_chain l ts : Forall (fun o => 0 <= weight o) l -> StronglySorted Qclt ts -> chain (0, 0) (map (roc_point l) ts).
Proof.
  intros F S. assert (NN : forall t, 0 <= fst (roc_point l t) /\ 0 <= snd (roc_point l t)).
  { intros t. unfold roc_point. cbn [fst snd]. split; apply qsum_nonneg; rewrite Forall_forall; intros x Hx; apply in_map_iff in Hx; destruct Hx as (o & <- & Ho); apply filter_In in Ho; rewrite Forall_forall in F; apply F, pn_in; tauto. }
  assert (G : forall ts t, StronglySorted Qclt (t :: ts) -> chain (roc_point l t) (map (roc_point l) ts)).
  { induction ts0 as [|u us IH]; intros t St; cbn [map chain]; auto. apply StronglySorted_inv in St. destruct St as (St & Ft). apply Forall_cons_iff in Ft. destruct Ft as (Ft & _). apply Qclt_le_weak in Ft.
    split; [|split; [|apply IH; auto]]; unfold roc_point; cbn [fst snd]; apply filter_le; auto; apply Forall_filter; auto. }
  destruct ts as [|t ts]; cbn [map chain]; auto. destruct (NN t) as (N1 & N2). split; auto.
Qed.
Lemma chain_scale f g : 0 < f -> 0 < g -> forall ps p, chain p ps -> chain (fst p / f, snd p / g) (map (fun p => (fst p / f, snd p / g)) ps).
Proof.
  intros Hf Hg. assert (I : forall a, 0 < a -> 0 <= / a). { intros a Ha. apply Qcnot_lt_le. intros N. assert (H : (/ a) * a < 0 * a) by (apply Qcmult_lt_compat_r; auto). rewrite Qcmult_inv_l in H by (apply Qc_lt_ne; auto). qlra. }
  induction ps as [|q ps IH]; intros p C; cbn [map chain]; auto. destruct C as (C1 & C2 & C). cbn [fst snd]. split; [|split; [|apply IH; auto]]; unfold Qcdiv; apply Qcmult_le_compat_r; auto.
Qed.
