From Verif Require Import Num DescModel DescSpec MomentsSpec MomentsProofs MatProofs.
From Coq Require Import Qround.
Local Open Scope Qc_scope.

(** ** Minimum and maximum *)
Lemma min_loop_ok : forall l m, match m with DFin _ | DPInf => True | _ => False end ->
  match m with
  | DFin q => exists r, min_loop l m = DFin r /\ least r (q :: present l)
  | _ => match present l with [] => min_loop l m = DPInf | _ => exists r, min_loop l m = DFin r /\ least r (present l) end
  end.
Proof.
  induction l as [|[x|] l IH]; intros m Hm.
  - destruct m; try contradiction; cbn; auto. exists q. split; auto. split; [left; auto|]. intros x [->|[]]. apply Qcle_refl.
  - cbn [min_loop dbl_of present flat_map app]. fold (present l).
    destruct m as [ | | |q]; try contradiction; cbn [less].
    + apply (IH (DFin x) I).
    + destruct (qltb_spec x q) as [L|L].
      * destruct (IH (DFin x) I) as (r & E & Hi & Hl). exists r. split; auto. split; [cbn in *; tauto|].
        intros y [<-|Hy]; [|apply Hl; cbn in *; tauto]. specialize (Hl x (or_introl eq_refl)). qlra.
      * destruct (IH (DFin q) I) as (r & E & Hi & Hl). exists r. split; auto. split; [cbn in *; tauto|].
        intros y [<-|[<-|Hy]]; [apply Hl; cbn; auto| |apply Hl; cbn in *; tauto].
        specialize (Hl q (or_introl eq_refl)). qlra.
  - cbn [min_loop dbl_of present flat_map app]. fold (present l). cbn [less]. apply IH; auto.
Qed.
Lemma max_loop_ok : forall l m, match m with DFin _ | DNInf => True | _ => False end ->
  match m with
  | DFin q => exists r, max_loop l m = DFin r /\ greatest r (q :: present l)
  | _ => match present l with [] => max_loop l m = DNInf | _ => exists r, max_loop l m = DFin r /\ greatest r (present l) end
  end.
Proof.
  induction l as [|[x|] l IH]; intros m Hm.
  - destruct m; try contradiction; cbn; auto. exists q. split; auto. split; [left; auto|]. intros x [->|[]]. apply Qcle_refl.
  - cbn [max_loop dbl_of present flat_map app]. fold (present l).
    destruct m as [ | | |q]; try contradiction; cbn [less].
    + apply (IH (DFin x) I).
    + destruct (qltb_spec q x) as [L|L].
      * destruct (IH (DFin x) I) as (r & E & Hi & Hl). exists r. split; auto. split; [cbn in *; tauto|].
        intros y [<-|Hy]; [|apply Hl; cbn in *; tauto]. specialize (Hl x (or_introl eq_refl)). qlra.
      * destruct (IH (DFin q) I) as (r & E & Hi & Hl). exists r. split; auto. split; [cbn in *; tauto|].
        intros y [<-|[<-|Hy]]; [apply Hl; cbn; auto| |apply Hl; cbn in *; tauto].
        specialize (Hl q (or_introl eq_refl)). qlra.
  - cbn [max_loop dbl_of present flat_map app]. fold (present l).
    assert (E : less m DNan = false) by (destruct m; auto). rewrite E. apply IH; auto.
Qed.

(** ** Moments: central sums with unit weights. *)
Definition ones (l : list Qc) : list (Qc * Qc) := map (fun x => (x, 1)) l.
Lemma ones_app a b : ones (a ++ b) = ones a ++ ones b. Proof. apply map_app. Qed.
Lemma total_ones l : total (ones l) = qn (length l).
Proof. unfold total, ones. rewrite map_map. cbn [snd]. induction l; [reflexivity|]. cbn [map length]. change (qsum (1 :: ?x)) with (1 + qsum x). rewrite IHl, qn_S. ring. Qed.
Lemma wmean_ones l : wmean (ones l) = avg l.
Proof. unfold wmean, avg. rewrite total_ones. f_equal. f_equal. unfold ones. rewrite map_map. cbn [fst snd]. rewrite <- (map_id l) at 2. apply map_ext. intros. ring. Qed.
Lemma central_ones k l : central k (ones l) = dev k l.
Proof. unfold central, dev. rewrite wmean_ones. unfold ones. rewrite map_map. f_equal. apply map_ext. intros. cbn [fst snd]. change (qpow ?a k) with (power a k). ring. Qed.
Lemma avg1 x : avg [x] = x. Proof. unfold avg. cbn. change (qn 1) with 1. field. discriminate. Qed.
Lemma dev1 k x : (0 < k)%nat -> dev k [x] = 0.
Proof. intros H. destruct k; [lia|]. unfold dev. rewrite avg1. cbn. ring. Qed.

Section Step.
  Variables (l : list Qc) (x : Qc).
  Hypothesis Hl : l <> [].
  Let n := qn (length l).
  Lemma n_ne : n <> 0. Proof. unfold n. apply Qc_lt_ne, qn_pos. destruct l; [congruence|cbn; lia]. Qed.
  Lemma n1_ne : n + 1 <> 0. Proof. unfold n. rewrite <- qn_S. apply Qc_lt_ne, qn_pos. lia. Qed.
  Lemma T1 : total (ones [x]) = 1. Proof. rewrite total_ones. reflexivity. Qed.
  Lemma avg_snoc : avg (l ++ [x]) = avg l + (x - avg l) / (n + 1).
  Proof.
    rewrite <- !wmean_ones, ones_app, join_mean; rewrite ?T1, ?total_ones; fold n; auto using n_ne, n1_ne; [|discriminate].
    unfold pmean. rewrite !wmean_ones, avg1. field. apply n1_ne.
  Qed.
  Lemma dev2_snoc : dev 2 (l ++ [x]) = dev 2 l + (x - avg l) * ((x - avg l) / (n + 1)) * n.
  Proof.
    rewrite <- !central_ones, ones_app, join2; rewrite ?T1, ?total_ones; fold n; auto using n_ne, n1_ne; [|discriminate].
    unfold p2. rewrite !wmean_ones, !central_ones, avg1, dev1 by lia. field. apply n1_ne.
  Qed.
  Lemma dev3_snoc : dev 3 (l ++ [x]) = dev 3 l + ((x - avg l) * ((x - avg l) / (n + 1)) * n * ((x - avg l) / (n + 1)) * (n - 1) - qz 3 * ((x - avg l) / (n + 1)) * dev 2 l).
  Proof.
    rewrite <- !central_ones, ones_app, join3; rewrite ?T1, ?total_ones; fold n; auto using n_ne, n1_ne; [|discriminate].
    unfold p3. rewrite !wmean_ones, !central_ones, avg1, !dev1 by lia. field. apply n1_ne.
  Qed.
  Lemma dev4_snoc : dev 4 (l ++ [x]) = dev 4 l + ((x - avg l) * ((x - avg l) / (n + 1)) * n * (((x - avg l) / (n + 1)) * ((x - avg l) / (n + 1))) * (n * n - n + 1)
     + qz 6 * (((x - avg l) / (n + 1)) * ((x - avg l) / (n + 1))) * dev 2 l - qz 4 * ((x - avg l) / (n + 1)) * dev 3 l).
  Proof.
    rewrite <- !central_ones, ones_app, join4; rewrite ?T1, ?total_ones; fold n; auto using n_ne, n1_ne; [|discriminate].
    unfold p4. rewrite !wmean_ones, !central_ones, avg1, !dev1 by lia. field. apply n1_ne.
  Qed.
End Step.
Lemma step_ok l x : let s := (x - avg l) / qz (Z.of_nat (length l) + 1) in let n := qn (length l) in
  avg (l ++ [x]) = avg l + s /\ dev 2 (l ++ [x]) = dev 2 l + (x - avg l) * s * n
  /\ dev 3 (l ++ [x]) = dev 3 l + ((x - avg l) * s * n * s * (n - 1) - qz 3 * s * dev 2 l)
  /\ dev 4 (l ++ [x]) = dev 4 l + ((x - avg l) * s * n * (s * s) * (n * n - n + 1) + qz 6 * (s * s) * dev 2 l - qz 4 * s * dev 3 l).
Proof.
  intros s n. destruct l as [|y t].
  - cbn [app]. rewrite avg1, !dev1 by lia. unfold s, n. change (avg []) with 0. change (dev ?k []) with 0. cbn [length].
    change (qz (Z.of_nat 0 + 1)) with 1. change (qn 0) with 0. repeat split; field; discriminate.
  - assert (E : qz (Z.of_nat (length (y :: t)) + 1) = n + 1) by (rewrite qz_add; reflexivity).
    unfold s. rewrite E. unfold n. repeat split; [apply avg_snoc|apply dev2_snoc|apply dev3_snoc|apply dev4_snoc]; discriminate.
Qed.
Lemma mv_ok : forall l p, mv_loop l (Z.of_nat (length p)) (avg p) (dev 2 p) = (avg (p ++ l), dev 2 (p ++ l)).
Proof.
  induction l as [|d t IH]; intros p; [rewrite app_nil_r; auto|]. cbn [mv_loop].
  destruct (step_ok p d) as (A & B & _). rewrite <- A. change (qz (Z.of_nat (length p))) with (qn (length p)). rewrite <- B.
  replace (Z.of_nat (length p) + 1)%Z with (Z.of_nat (length (p ++ [d]))) by (rewrite app_length; cbn; lia).
  rewrite IH, <- app_assoc. reflexivity.
Qed.
Lemma ss_ok : forall l p, ss_loop l (Z.of_nat (length p)) (avg p) (dev 2 p) = dev 2 (p ++ l).
Proof.
  induction l as [|d t IH]; intros p; [rewrite app_nil_r; auto|]. cbn [ss_loop].
  destruct (step_ok p d) as (A & B & _). rewrite <- A. replace (Z.of_nat (length p) + 1 - 1)%Z with (Z.of_nat (length p)) by lia.
  change (qz (Z.of_nat (length p))) with (qn (length p)). rewrite <- B.
  replace (Z.of_nat (length p) + 1)%Z with (Z.of_nat (length (p ++ [d]))) by (rewrite app_length; cbn; lia).
  rewrite IH, <- app_assoc. reflexivity.
Qed.
Lemma sq_ok : forall l s, sq_loop l s = s + qsum (map (fun x => x * x) l).
Proof. induction l as [|d t IH]; intros s; cbn [sq_loop map]; [cbn; ring|]. rewrite IH. change (qsum (?a :: ?b)) with (a + qsum b). ring. Qed.
Lemma qz_sub a b : qz (a - b) = qz a - qz b.
Proof. unfold Z.sub. rewrite qz_add. unfold Qcminus. f_equal. replace (- b)%Z with ((-1) * b)%Z by lia. rewrite qz_mul. change (qz (-1)) with (-(1)). ring. Qed.
Definition sums_of (l : list Qc) : sums := Sums (avg l) (dev 2 l) (dev 3 l) (dev 4 l).
Lemma mvks_ok : forall l p, (Z.of_nat (length (p ++ l)) <= 46340)%Z -> mvks_loop l (Z.of_nat (length p)) (sums_of p) = Ok (sums_of (p ++ l)).
Proof.
  induction l as [|d t IH]; intros p H; [rewrite app_nil_r; auto|]. cbn [mvks_loop].
  rewrite app_length in H. cbn [length] in H.
  destruct (Z.ltb_spec desc_int_max ((Z.of_nat (length p) + 1) * (Z.of_nat (length p) + 1))) as [L|L]; [unfold desc_int_max in L; nia|].
  destruct (step_ok p d) as (A & B & C & D).
  replace (p ++ d :: t) with ((p ++ [d]) ++ t) by (rewrite <- app_assoc; auto).
  rewrite <- IH by (rewrite !app_length; cbn [length]; lia).
  replace (Z.of_nat (length (p ++ [d]))) with (Z.of_nat (length p) + 1)%Z by (rewrite app_length; cbn; lia).
  f_equal. unfold sums_of. cbn [d_mean d_m2 d_m3 d_m4]. rewrite A, B, C, D.
  replace (Z.of_nat (length p) + 1 - 1)%Z with (Z.of_nat (length p)) by lia.
  replace (Z.of_nat (length p) + 1 - 2)%Z with (Z.of_nat (length p) - 1)%Z by lia.
  replace ((Z.of_nat (length p) + 1) * (Z.of_nat (length p) + 1) - 3 * (Z.of_nat (length p) + 1) + 3)%Z with
    (Z.of_nat (length p) * Z.of_nat (length p) - Z.of_nat (length p) + 1)%Z by lia.
  rewrite (qz_sub _ 1), (qz_add (_ - _)), (qz_sub (_ * _)), qz_mul. change (qz 1) with 1.
  change (qz (Z.of_nat (length p))) with (qn (length p)). reflexivity.
Qed.
Lemma mvks_over : forall l c a, (0 <= c)%Z -> (46340 < c + Z.of_nat (length l))%Z -> (c <= 46340)%Z -> mvks_loop l c a = UB.
Proof.
  induction l as [|d t IH]; intros c a H0 H H1; cbn [length] in H; [lia|]. cbn [mvks_loop].
  destruct (Z.ltb_spec desc_int_max ((c + 1) * (c + 1))) as [L|L]; auto. unfold desc_int_max in L. apply IH; nia.
Qed.

(** ** Quantiles *)
Lemma qfloor_ok q : qz (qfloor q) <= q /\ q < qz (qfloor q + 1).
Proof.
  unfold qfloor, Qcle, Qclt. split.
  - rewrite this_qz. apply Qfloor_le.
  - rewrite this_qz. apply Qlt_floor.
Qed.
Lemma third_eq : third = 1 / qz 3. Proof. unfold third. apply Qc_is_canon. reflexivity. Qed.
Lemma rd_nth (l : list Qc) i : (0 <= i < Z.of_nat (length l))%Z -> rd l i = Ok (nth (Z.to_nat i) l 0).
Proof.
  intros H. unfold rd. destruct (Z.ltb_spec i 0); [lia|]. destruct (nth_error l (Z.to_nat i)) eqn:E.
  - f_equal. symmetry. eapply nth_error_nth; eauto.
  - apply nth_error_None in E. lia.
Qed.
Lemma qz_lt_add1 a b q : qz a <= q -> q < qz b -> (a < b)%Z.
Proof. intros A B. apply qz_lt. qlra. Qed.
Lemma obs_low l k : (k <= 1)%Z -> l <> [] -> obs l k = nth 0 l 0.
Proof. intros. unfold obs. f_equal. destruct l; [congruence|cbn [length]; lia]. Qed.
Lemma obs_high l k : (Z.of_nat (length l) <= k)%Z -> l <> [] -> obs l k = nth (length l - 1) l 0.
Proof. intros. unfold obs. f_equal. destruct l; [congruence|cbn [length] in *; lia]. Qed.
Lemma quantile_ok l tau : l <> [] -> exists v, quantile_sorted l tau = Ok v /\ interpolated l (position (length l) tau) v.
Proof.
  intros Hl. assert (Hn : (0 < length l)%nat) by (destruct l; [congruence|cbn; lia]).
  unfold quantile_sorted. fold (qn (length l)).
  assert (Eh : position (length l) tau = (qn (length l) + third) * tau + third) by (rewrite third_eq; reflexivity).
  rewrite Eh. remember ((qn (length l) + third) * tau + third) as h eqn:Hh. clear Eh. destruct (qfloor_ok h) as [F1 F2].
  assert (T0 : 0 < third) by reflexivity. assert (T1 : third < 1) by reflexivity.
  assert (E0 : rd l 0 = Ok (nth 0 l 0)) by (apply rd_nth; lia).
  assert (En : rd l (Z.of_nat (length l) - 1) = Ok (nth (length l - 1) l 0)) by (rewrite rd_nth by lia; do 2 f_equal; lia).
  assert (Low : (qfloor h < 1)%Z -> interpolated l h (nth 0 l 0)).
  { intros L. exists (qfloor h). split; [auto|]. split; auto. rewrite !obs_low by (auto; lia). ring. }
  assert (High : (Z.of_nat (length l) <= qfloor h)%Z -> interpolated l h (nth (length l - 1) l 0)).
  { intros L. exists (qfloor h). split; [auto|]. split; auto. rewrite !obs_high by (auto; lia). ring. }
  assert (Hpos : 0 < qn (length l) + third) by (pose proof (qn_pos _ Hn); qlra).
  destruct (Z.eqb_spec (Z.of_nat (length l)) 1) as [L1|L1]; cbn [orb].
  { rewrite E0. eexists. split; eauto. exists (qfloor h). split; [auto|]. split; auto.
    assert (forall k, obs l k = nth 0 l 0) as -> by (intros; unfold obs; f_equal; lia).
    ring_simplify. assert (forall k, obs l k = nth 0 l 0) as -> by (intros; unfold obs; f_equal; lia). ring. }
  destruct (qleb_spec tau 0) as [Lt|Lt]; cbn [orb].
  { rewrite E0. eexists. split; eauto. apply Low.
    apply (qz_lt_add1 _ _ h F1). apply Qcle_lt_trans with (third); [|exact T1].
    rewrite Hh. assert ((qn (length l) + third) * tau <= 0).
    { rewrite Qcmult_comm. replace 0 with (0 * (qn (length l) + third)) by ring. apply Qcmult_le_compat_r; auto. qlra. }
    qlra. }
  destruct (qleb_spec 1 tau) as [Gt|Gt].
  { rewrite En. eexists. split; eauto. apply High. assert (Z.of_nat (length l) < qfloor h + 1)%Z; [|lia].
    apply (qz_lt_add1 _ _ h); [|auto]. rewrite Hh.
    assert ((qn (length l) + third) <= (qn (length l) + third) * tau).
    { rewrite Qcmult_comm. rewrite <- (Qcmult_1_l (qn (length l) + third)) at 1. apply Qcmult_le_compat_r; auto. qlra. }
    fold (qn (length l)). qlra. }
  destruct (Z.ltb_spec (qfloor h) 1) as [F|F]; [rewrite E0; eauto|].
  destruct (Z.leb_spec (Z.of_nat (length l)) (qfloor h)) as [G|G].
  { destruct (Z.ltb_spec (Z.of_nat (length l) - 1) 0); [lia|]. rewrite En. eauto. }
  rewrite !rd_nth by lia. cbn [bind]. eexists. split; eauto. exists (qfloor h). split; [auto|]. split; auto.
  assert (obs l (qfloor h) = nth (Z.to_nat (qfloor h - 1)) l 0) as -> by (unfold obs; f_equal; lia).
  assert (obs l (qfloor h + 1) = nth (Z.to_nat (qfloor h)) l 0) as -> by (unfold obs; f_equal; lia).
  reflexivity.
Qed.
Lemma obs_mono l a b : nondecreasing l -> l <> [] -> (a <= b)%Z -> obs l a <= obs l b.
Proof. intros H Hl L. unfold obs. apply H. destruct l; [congruence|cbn [length] in *; lia]. Qed.
Lemma inter_bounds l h v k : nondecreasing l -> l <> [] -> qz k <= h -> h < qz (k + 1) -> v = obs l k + (h - qz k) * (obs l (k + 1) - obs l k) ->
  obs l k <= v /\ v <= obs l (k + 1).
Proof.
  intros S Hl A B ->. assert (M := obs_mono l k (k + 1) S Hl ltac:(lia)). rewrite qz_add in B. change (qz 1) with 1 in B.
  remember (obs l (k + 1)) as u. remember (obs l k) as w.
  assert (0 <= (h - qz k) * (u - w)).
  { replace 0 with (0 * (u - w)) by ring. apply Qcmult_le_compat_r; qlra. }
  assert ((h - qz k) * (u - w) <= 1 * (u - w)).
  { apply Qcmult_le_compat_r; qlra. }
  rewrite Qcmult_1_l in H0. split; qlra.
Qed.
Lemma inter_mono l h h' v v' : nondecreasing l -> l <> [] -> h <= h' -> interpolated l h v -> interpolated l h' v' -> v <= v'.
Proof.
  intros S Hl L (k & A & B & E) (k' & A' & B' & E').
  destruct (inter_bounds l h v k S Hl A B E) as [_ U]. destruct (inter_bounds l h' v' k' S Hl A' B' E') as [U' _].
  assert (k <= k')%Z. { assert (k < k' + 1)%Z; [|lia]. apply (qz_lt_add1 _ _ h); auto. qlra. }
  destruct (Z.eq_dec k k') as [<-|N].
  - subst. assert (M := obs_mono l k (k + 1) S Hl ltac:(lia)). remember (obs l (k + 1)) as u. remember (obs l k) as w.
    assert ((h - qz k) * (u - w) <= (h' - qz k) * (u - w)) by (apply Qcmult_le_compat_r; qlra). qlra.
  - assert (M := obs_mono l (k + 1) k' S Hl ltac:(lia)). qlra.
Qed.
Lemma inter_range l h v : nondecreasing l -> l <> [] -> interpolated l h v -> nth 0 l 0 <= v /\ v <= nth (length l - 1) l 0.
Proof.
  intros S Hl (k & A & B & E). destruct (inter_bounds l h v k S Hl A B E) as [U V].
  assert (Hn : (0 < length l)%nat) by (destruct l; [congruence|cbn; lia]).
  assert (nth 0 l 0 <= obs l k) by (apply S; lia). assert (obs l (k + 1) <= nth (length l - 1) l 0) by (apply S; lia). split; qlra.
Qed.
Lemma inter_unique l h v v' : interpolated l h v -> interpolated l h v' -> v = v'.
Proof.
  intros (k & A & B & E) (k' & A' & B' & E').
  assert (k < k' + 1)%Z by (apply (qz_lt_add1 _ _ h); auto). assert (k' < k + 1)%Z by (apply (qz_lt_add1 _ _ h); auto).
  replace k' with k in E' by lia. congruence.
Qed.

(** ** Regression on a trend *)
Lemma sum_over_S n f : sum_over (S n) f = sum_over n f + f (Z.of_nat n).
Proof. unfold sum_over. rewrite seq_S, map_app, qsum_app. cbn. ring. Qed.
Lemma sum_over_ext n f g : (forall i, (0 <= i < Z.of_nat n)%Z -> f i = g i) -> sum_over n f = sum_over n g.
Proof. intros H. unfold sum_over. f_equal. apply map_ext_in. intros k Hk%in_seq. apply H. lia. Qed.
Lemma sum_over_add n f g : sum_over n (fun i => f i + g i) = sum_over n f + sum_over n g.
Proof. induction n; [cbn; ring|]. rewrite !sum_over_S, IHn. ring. Qed.
Lemma sum_over_mul n k f : sum_over n (fun i => k * f i) = k * sum_over n f.
Proof. induction n; [cbn; ring|]. rewrite !sum_over_S, IHn. ring. Qed.
Lemma sum_over_front n f : sum_over (S n) f = f 0%Z + sum_over n (fun i => f (i + 1)%Z).
Proof. induction n; [cbn; ring|]. rewrite sum_over_S, IHn, sum_over_S. replace (Z.of_nat (S n)) with (Z.of_nat n + 1)%Z by lia. ring. Qed.
Lemma xat_cons a l i : (0 <= i)%Z -> xat (a :: l) (i + 1) = xat l i.
Proof. intros H. unfold xat. destruct (Z.ltb_spec (i + 1) 0), (Z.ltb_spec i 0); try lia. replace (Z.to_nat (i + 1)) with (S (Z.to_nat i)) by lia. reflexivity. Qed.
Lemma qsum_xat l : qsum l = sum_over (length l) (xat l).
Proof.
  induction l as [|a l IH]; [reflexivity|]. cbn [length]. rewrite sum_over_front. change (qsum (a :: l)) with (a + qsum l).
  rewrite IH. f_equal. apply sum_over_ext. intros i Hi. symmetry. apply xat_cons. lia.
Qed.
Lemma trend_sum_ok : forall l i b, trend_sum l i b = b + sum_over (length l) (fun j => qz (i + j) * xat l j).
Proof.
  induction l as [|a l IH]; intros i b; [cbn; ring|]. cbn [trend_sum length]. rewrite IH, sum_over_front.
  replace (xat (a :: l) 0) with a by reflexivity. rewrite Z.add_0_r.
  rewrite (sum_over_ext _ (fun j => qz (i + 1 + j) * xat l j) (fun j => qz (i + (j + 1)) * xat (a :: l) (j + 1))); [ring|].
  intros j Hj. rewrite xat_cons by lia. f_equal. f_equal. lia.
Qed.
Lemma fold_qsum : forall l a, fold_left Qcplus l a = a + qsum l.
Proof. induction l as [|x l IH]; intros a; cbn [fold_left]; [cbn; ring|]. rewrite IH. change (qsum (x :: l)) with (x + qsum l). ring. Qed.
Lemma sum_t n : qz 2 * sum_over n (fun i => qz (i + 1)) = qn n * (qn n + 1).
Proof. induction n; [cbn; apply Qc_is_canon; reflexivity|]. rewrite sum_over_S, Qcmult_plus_distr_r, IHn, qn_S, qz_add. change (qz (Z.of_nat n)) with (qn n). change (qz 2) with (1 + 1). change (qz 1) with 1. ring. Qed.
Lemma sum_t2 n : qz 6 * sum_over n (fun i => qz (i + 1) * qz (i + 1)) = qn n * (qn n + 1) * (qz 2 * qn n + 1).
Proof. induction n; [cbn; apply Qc_is_canon; reflexivity|]. rewrite sum_over_S, Qcmult_plus_distr_r, IHn, qn_S, qz_add. change (qz (Z.of_nat n)) with (qn n). change (qz 6) with (1 + 1 + 1 + 1 + 1 + 1). change (qz 2) with (1 + 1). change (qz 1) with 1. ring. Qed.
Lemma sum_over_one n : sum_over n (fun _ => 1) = qn n.
Proof. induction n; [reflexivity|]. rewrite sum_over_S, IHn, qn_S. reflexivity. Qed.
Lemma qz2_ne : qz 2 <> 0. Proof. discriminate. Qed.
Lemma qz3_ne : qz 3 <> 0. Proof. discriminate. Qed.
Lemma qz6_ne : qz 6 <> 0. Proof. discriminate. Qed.

(** The normal equations. *)
Definition normal (x : list Qc) (a b : Qc) : Prop :=
  sum_over (length x) (fun i => xat x i - (a + b * qz (i + 1))) = 0
  /\ sum_over (length x) (fun i => qz (i + 1) * (xat x i - (a + b * qz (i + 1)))) = 0.
Lemma trend_ok l : (2 <= length l)%nat -> exists a b, regression_trend l = Ok (a, b) /\ normal l a b.
Proof.
  intros H. unfold regression_trend. fold (qn (length l)). set (n := qn (length l)).
  assert (S1 : sum_over (length l) (fun i => qz (i + 1)) = n * (n + 1) / qz 2).
  { pose proof (sum_t (length l)) as E. fold n in E. rewrite <- E. field. apply qz2_ne. }
  assert (S2 : sum_over (length l) (fun i => qz (i + 1) * qz (i + 1)) = n * (n + 1) / qz 2 * (qz 2 * n + 1) / qz 3).
  { pose proof (sum_t2 (length l)) as E. fold n in E. replace (qz 6) with (qz 2 * qz 3) in E by (apply Qc_is_canon; reflexivity).
    replace (n * (n + 1) / qz 2 * (qz 2 * n + 1) / qz 3) with (n * (n + 1) * (qz 2 * n + 1) / (qz 2 * qz 3)) by (field; repeat split; discriminate).
    rewrite <- E. field. repeat split; discriminate. }
  set (A := n * (n + 1) / qz 2) in *. set (D := A * (qz 2 * n + 1) / qz 3) in *.
  assert (Hn : qz 2 <= n) by (unfold n, qn; apply qz_le; lia).
  assert (Det : n * D - A * A = n * n * (n + 1) * (n - 1) / (qz 2 * qz 2 * qz 3)).
  { unfold D, A. change (qz 3) with (1 + 1 + 1). change (qz 2) with (1 + 1). field. repeat split; discriminate. }
  assert (Det0 : n * D - A * A <> 0).
  { rewrite Det. assert (P0 : 0 < n) by (apply Qclt_le_trans with (qz 2); [reflexivity|auto]).
    assert (P1 : n - 1 <> 0). { apply Qc_lt_ne. apply Qclt_le_trans with (qz 2 - 1); [reflexivity|]. qlra. }
    assert (P2 : n + 1 <> 0) by (apply Qc_lt_ne; qlra). assert (P3 : n <> 0) by (apply Qc_lt_ne; auto).
    intros E. assert (Z0 : n * n * (n + 1) * (n - 1) = 0).
    { rewrite <- (Qcmult_0_l (qz 2 * qz 2 * qz 3)). rewrite <- E. field. repeat split; discriminate. }
    revert Z0. repeat apply mul_ne; auto. }
  cbn [inv2x2]. destruct (qeqb_spec (n * D - A * A) 0) as [E|_]; [contradiction|].
  rewrite fold_qsum, trend_sum_ok, qsum_xat, !Qcplus_0_l.
  set (b0 := sum_over (length l) (xat l)).
  rewrite (sum_over_ext _ (fun j => qz (1 + j) * xat l j) (fun j => qz (j + 1) * xat l j)) by (intros; do 2 f_equal; lia).
  set (b1 := sum_over (length l) (fun j => qz (j + 1) * xat l j)).
  do 2 eexists. split; [reflexivity|].
  assert (G1 : forall a b, sum_over (length l) (fun i => xat l i - (a + b * qz (i + 1))) = b0 - (a * n + b * A)).
  { intros a b. rewrite (sum_over_ext _ _ (fun i => xat l i + ((- a) * 1 + (- b) * qz (i + 1)))) by (intros; ring).
    rewrite !sum_over_add, !sum_over_mul, sum_over_one, S1. fold n b0. ring. }
  assert (G2 : forall a b, sum_over (length l) (fun i => qz (i + 1) * (xat l i - (a + b * qz (i + 1)))) = b1 - (a * A + b * D)).
  { intros a b. rewrite (sum_over_ext _ _ (fun i => qz (i + 1) * xat l i + ((- a) * qz (i + 1) + (- b) * (qz (i + 1) * qz (i + 1))))) by (intros; ring).
    rewrite !sum_over_add, !sum_over_mul, S1, S2. fold b1. ring. }
  unfold normal. rewrite G1, G2. clearbody A D. split; field; auto.
Qed.
Lemma power2 x : power x 2 = x * x. Proof. cbn. ring. Qed.
Lemma sq_nonneg (x : Qc) : 0 <= x * x.
Proof.
  destruct (Qclt_le_dec x 0) as [L|L].
  - replace (x * x) with ((- x) * (- x)) by ring. replace 0 with (0 * - x) by ring. apply Qcmult_le_compat_r; qlra.
  - replace 0 with (0 * x) by ring. apply Qcmult_le_compat_r; auto.
Qed.
Lemma sse_split x a b a' b' : normal x a b ->
  sse x a' b' = sse x a b + sum_over (length x) (fun i => power ((a - a') + (b - b') * qz (i + 1)) 2).
Proof.
  intros [N1 N2]. unfold sse.
  rewrite (sum_over_ext _ (fun i => power (xat x i - (a' + b' * qz (i + 1))) 2)
    (fun i => power (xat x i - (a + b * qz (i + 1))) 2 + (power ((a - a') + (b - b') * qz (i + 1)) 2
       + ((1 + 1) * (a - a') * (xat x i - (a + b * qz (i + 1))) + (1 + 1) * (b - b') * (qz (i + 1) * (xat x i - (a + b * qz (i + 1)))))))) by (intros; rewrite !power2; ring).
  rewrite !sum_over_add, !sum_over_mul, N1, N2. ring.
Qed.
Lemma sum_over_nonneg n f : (forall i, 0 <= f i) -> 0 <= sum_over n f.
Proof. intros H. induction n; [apply Qcle_refl|]. rewrite sum_over_S. specialize (H (Z.of_nat n)). qlra. Qed.
Lemma sum_over_zero n f : (forall i, 0 <= f i) -> sum_over n f <= 0 -> forall i, (0 <= i < Z.of_nat n)%Z -> f i = 0.
Proof.
  intros H. induction n; intros E i Hi; [lia|]. rewrite sum_over_S in E. pose proof (sum_over_nonneg n f H). pose proof (H (Z.of_nat n)).
  destruct (Z.eq_dec i (Z.of_nat n)) as [->|N]; [apply Qcle_antisym; qlra|]. apply IHn; [qlra|lia].
Qed.
Lemma trend_least l a b : (2 <= length l)%nat -> regression_trend l = Ok (a, b) ->
  forall a' b', sse l a b <= sse l a' b' /\ (sse l a' b' <= sse l a b -> a' = a /\ b' = b).
Proof.
  intros H E a' b'. destruct (trend_ok l H) as (a0 & b0 & E' & N). rewrite E in E'. injection E' as <- <-.
  rewrite (sse_split l a b a' b' N).
  assert (P : forall i, 0 <= power (a - a' + (b - b') * qz (i + 1)) 2) by (intros; rewrite power2; apply sq_nonneg).
  pose proof (sum_over_nonneg (length l) _ P) as Q. split; [qlra|]. intros R.
  assert (Z0 : forall i, (0 <= i < Z.of_nat (length l))%Z -> a - a' + (b - b') * qz (i + 1) = 0).
  { intros i Hi. assert (E0 : sum_over (length l) (fun i => power (a - a' + (b - b') * qz (i + 1)) 2) <= 0) by qlra. apply (sum_over_zero _ _ P) with (i := i) in E0; auto. rewrite power2 in E0. apply Qcmult_integral in E0. tauto. }
  assert (E1 := Z0 0%Z ltac:(lia)). assert (E2 := Z0 1%Z ltac:(lia)). change (qz (0 + 1)) with 1 in E1. change (qz (1 + 1)) with (1 + 1) in E2. split; qlra.
Qed.
Lemma trend_short l : (length l <= 1)%nat -> regression_trend l = Throw.
Proof. intros H. destruct l as [|x [|y l]]; [reflexivity|reflexivity|cbn in H; lia]. Qed.
