From Verif Require Import RocSpec RocModel SortSpec SortProofs.
From Coq Require Import Lia Field Qcanon Sorting.Sorted.
Local Open Scope Qc_scope.

Lemma Qclt_irrefl x : ~ x < x. Proof. intros H. apply (Qclt_not_le _ _ H (Qcle_refl x)). Qed.
(** ** Sums over pairs *)
Definition wsum (l : list obs) : Qc := qsum (map weight l).
Notation Wp l := (wsum (positives l)).
Notation Wn l := (wsum (negatives l)).
Lemma wsum_app a b : wsum (a ++ b) = wsum a + wsum b. Proof. unfold wsum. rewrite map_app. apply qsum_app. Qed.
Lemma positives_app a b : positives (a ++ b) = positives a ++ positives b. Proof. apply filter_app. Qed.
Lemma negatives_app a b : negatives (a ++ b) = negatives a ++ negatives b. Proof. apply filter_app. Qed.
Lemma pair_sum_app_l f a b m : pair_sum f (a ++ b) m = pair_sum f a m + pair_sum f b m.
Proof. unfold pair_sum. rewrite map_app. apply qsum_app. Qed.
Lemma pair_sum_app_r f a m n : pair_sum f a (m ++ n) = pair_sum f a m + pair_sum f a n.
Proof. unfold pair_sum. rewrite <- qsum_map_add. f_equal. apply map_ext. intros p. rewrite map_app. apply qsum_app. Qed.
Lemma pair_sum_const (k : Qc) f l m : (forall p n, In p l -> In n m -> f p n = weight p * weight n * k) -> pair_sum f l m = wsum l * wsum m * k.
Proof.
  intros H. unfold pair_sum, wsum. induction l as [|p l IH]; cbn [map qsum fold_right]; [ring|]. fold (qsum (map (fun p => qsum (map (f p) m)) l)) (qsum (map weight l)).
  rewrite IH by (intros; apply H; auto; right; auto).
  rewrite (map_ext_in (f p) (fun n => (weight p * k) * weight n)) by (intros n Hn; rewrite H by (auto; left; auto); ring).
  rewrite qsum_map_mul. ring.
Qed.
Lemma all_pairs_eq l : all_pairs l = Wp l * Wn l.
Proof. unfold all_pairs. rewrite (pair_sum_const 1) by (intros; ring). ring. Qed.
Lemma pair_sum_perm f l l' m m' : Permutation l l' -> Permutation m m' -> pair_sum f l m = pair_sum f l' m'.
Proof.
  intros P Q. unfold pair_sum. rewrite (qsum_perm _ _ (Permutation_map _ P)). f_equal. apply map_ext. intros p. apply qsum_perm, Permutation_map, Q.
Qed.
Lemma filter_perm {A} (p : A -> bool) a b : Permutation a b -> Permutation (filter p a) (filter p b).
Proof. induction 1; cbn; auto; [destruct (p x); auto|destruct (p x), (p y); auto; constructor|eapply perm_trans; eauto]. Qed.
Lemma correct_pairs_perm a b : Permutation a b -> correct_pairs a = correct_pairs b.
Proof. intros P. apply pair_sum_perm; apply filter_perm; auto. Qed.
Lemma all_pairs_perm a b : Permutation a b -> all_pairs a = all_pairs b.
Proof. intros P. apply pair_sum_perm; apply filter_perm; auto. Qed.

Definition half : Qc := Q2Qc (1 # 2).
Lemma half2 x : x / qz 2 = x * half. Proof. unfold Qcdiv. f_equal. Qed.
Lemma correct_group P G c : Forall (fun o => score o < c) P -> Forall (fun o => score o = c) G ->
  correct_pairs (P ++ G) = correct_pairs P + Wp P * Wn G + Wp G * Wn G * half.
Proof.
  intros FP FG. unfold correct_pairs. rewrite positives_app, negatives_app, pair_sum_app_l, !pair_sum_app_r.
  rewrite Forall_forall in FP, FG.
  assert (PS : forall p l, In p (positives l) -> In p l) by (intros p l H; apply filter_In in H; tauto).
  assert (NS : forall p l, In p (negatives l) -> In p l) by (intros p l H; apply filter_In in H; tauto).
  rewrite (pair_sum_const 1 _ (positives P) (negatives G)), (pair_sum_const 0 _ (positives G) (negatives P)), (pair_sum_const half _ (positives G) (negatives G)).
  - ring.
  - intros p n Hp Hn. unfold concordance. rewrite (FG p), (FG n) by auto. destruct (qltb_spec c c) as [L|L]; [destruct (Qclt_irrefl _ L)|]. destruct (qeqb_spec c c); [auto|congruence].
  - intros p n Hp Hn. unfold concordance. rewrite (FG p) by auto. pose proof (FP n (NS _ _ Hn)) as L. destruct (qltb_spec c (score n)) as [L2|L2]; [destruct (Qclt_irrefl c); eapply Qclt_trans; eauto|].
    destruct (qeqb_spec c (score n)) as [E|E]; [rewrite E in L; destruct (Qclt_irrefl _ L)|auto].
  - intros p n Hp Hn. unfold concordance. rewrite (FG n) by auto. pose proof (FP p (PS _ _ Hp)) as L. destruct (qltb_spec (score p) c) as [L2|L2]; [auto|contradiction].
Qed.

(** ** The area of a polygon *)
Definition trap (p q : point) : Qc := (fst q - fst p) * (snd p + (snd q - snd p) / qz 2).
Lemma auc_loop_app b ps : forall q x0 y0 r, auc_loop false b (ps ++ [q]) x0 y0 r = auc_loop false b ps x0 y0 r + (fst q - fst (last ps (x0, y0))) * (snd (last ps (x0, y0)) - b + (snd q - snd (last ps (x0, y0))) / qz 2).
Proof.
  induction ps as [|(x, y) t IH]; intros (qx, qy) x0 y0 r; [cbn; auto|]. cbn [app auc_loop]. rewrite IH. cbn [fst snd]. f_equal. destruct t; auto. change (last ((x, y) :: p :: t) (x0, y0)) with (last (p :: t) (x0, y0)).
  assert (E : forall d d', last (p :: t) d = last (p :: t) d'). { clear. revert p. induction t as [|a t IH]; intros p d d'; auto. cbn [last]. apply (IH a). }
  rewrite (E (x, y) (x0, y0)). reflexivity.
Qed.
Lemma auc_points_alt v b x y t : auc_points v b ((x, y) :: t) = auc_loop v b ((x, y) :: t) x y 0.
Proof. destruct t; auto. cbn. destruct v; ring. Qed.
Definition ends (ps : list point) (q : point) : Prop := exists ps', ps = ps' ++ [q].
Lemma last_app {A} (l : list A) x d : last (l ++ [x]) d = x.
Proof. induction l as [|a l IH]; auto. cbn [app last]. destruct (l ++ [x]) eqn:E; [destruct l; discriminate|]. auto. Qed.
Lemma auc_snoc ps p q : ends ps p -> auc_points false 0 (ps ++ [q]) = auc_points false 0 ps + trap p q.
Proof.
  intros (ps' & Eps). destruct ps as [|(x, y) t]; [destruct ps'; discriminate|].
  assert (La : last ((x, y) :: t) (x, y) = p) by (rewrite Eps; apply last_app).
  cbn [app]. rewrite !auc_points_alt. change ((x, y) :: t ++ [q]) with (((x, y) :: t) ++ [q]). rewrite auc_loop_app, La. unfold trap. f_equal. ring.
Qed.
Lemma auc_scale (f g : Qc) : f <> 0 -> g <> 0 -> forall ps, auc_points false 0 (map (fun p => (fst p / f, snd p / g)) ps) = auc_points false 0 ps / (f * g).
Proof.
  intros Hf Hg ps. destruct ps as [|(x, y) t]; [cbn; field; auto|]. cbn [map]. rewrite !auc_points_alt. cbn [fst snd].
  change ((x / f, y / g) :: map (fun p => (fst p / f, snd p / g)) t) with (map (fun p => (fst p / f, snd p / g)) ((x, y) :: t)).
  assert (G : forall l x0 y0 r, auc_loop false 0 (map (fun p => (fst p / f, snd p / g)) l) (x0 / f) (y0 / g) (r / (f * g)) = auc_loop false 0 l x0 y0 r / (f * g)).
  { induction l as [|(a, b) l IH]; intros x0 y0 r; auto. cbn [map auc_loop fst snd]. rewrite <- IH. f_equal. rewrite !half2. field. auto. }
  rewrite <- G. f_equal. field. auto.
Qed.

(** ** The loop *)
Fixpoint aloop (o : roc_options) (l : list obs) (s : roc_state) : roc_state :=
  match l with
  | [] => s
  | ob :: t => let s1 := roc_push o (score ob) s in
      aloop o t {| s_pre := s_pre s1; s_fp := s_fp s1; s_tp := s_tp s1; s_pts := s_pts s1;
                   s_h := if negb (is_pos ob) then s_h s1 + weight ob else s_h s1; s_v := if negb (is_pos ob) then s_v s1 else s_v s1 + weight ob |}
  end.
Definition next (eps pre th : Qc) : Qc := if qltb eps (qabs (th - pre)) then th else pre.
Fixpoint annotate (eps pre : Qc) (l : list obs) : list obs :=
  match l with [] => [] | ob :: t => let p := next eps pre (score ob) in Obs (is_pos ob) p (weight ob) :: annotate eps p t end.
Record Inv (s : roc_state) (P G : list obs) : Prop := {
  i_fp : s_fp s = Wn P; i_tp : s_tp s = Wp P; i_h : s_h s = Wn G; i_v : s_v s = Wp G;
  i_P : Forall (fun o => score o < s_pre s) P; i_G : Forall (fun o => score o = s_pre s) G;
  i_end : ends (s_pts s) (s_fp s, s_tp s); i_area : auc_points false 0 (s_pts s) = correct_pairs P }.
Lemma wn_one b s w : Wn [Obs b s w] = if negb b then w else 0.
Proof. unfold negatives, wsum. destruct b; cbn; ring. Qed.
Lemma wp_one b s w : Wp [Obs b s w] = if negb b then 0 else w.
Proof. unfold positives, wsum. destruct b; cbn; ring. Qed.
Lemma qabs_pos x : 0 <= x -> qabs x = x.
Proof. intros H. unfold qabs. destruct (qltb_spec x 0) as [L|L]; auto. destruct (Qclt_not_le _ _ L H). Qed.
Definition le_score (a b : obs) : Prop := score a <= score b.
Lemma close_group s P G : Inv s P G -> auc_points false 0 (s_pts s ++ [(s_fp s + s_h s, s_tp s + s_v s)]) = correct_pairs (P ++ G) /\ s_fp s + s_h s = Wn (P ++ G) /\ s_tp s + s_v s = Wp (P ++ G).
Proof.
  intros I. rewrite positives_app, negatives_app, !wsum_app. rewrite <- (i_fp _ _ _ I), <- (i_tp _ _ _ I), <- (i_h _ _ _ I), <- (i_v _ _ _ I). split; auto.
  rewrite (auc_snoc _ _ _ (i_end _ _ _ I)), (i_area _ _ _ I), (correct_group P G (s_pre s) (i_P _ _ _ I) (i_G _ _ _ I)).
  rewrite <- (i_tp _ _ _ I), <- (i_h _ _ _ I), <- (i_v _ _ _ I). unfold trap. cbn [fst snd]. rewrite half2. ring.
Qed.
(** The grouping of scores. *)
Fixpoint repf (eps pre : Qc) (l : list obs) (x : Qc) : Qc :=
  match l with [] => pre | ob :: t => if qltb x (score ob) then pre else repf eps (next eps pre (score ob)) t x end.
Lemma next_close eps pre th : 0 <= eps -> pre <= th -> pre <= next eps pre th <= th /\ th - next eps pre th <= eps.
Proof. intros HE H. unfold next. rewrite qabs_pos by qlra. destruct (qltb_spec eps (th - pre)) as [L|L]; [split; [split|]; qlra|]. apply Qcnot_lt_le in L. split; [split|]; try qlra. Qed.
Lemma repf_same eps : 0 <= eps -> forall l pre x, StronglySorted le_score l -> Forall (fun o => x <= score o) l -> pre <= x -> x - pre <= eps -> repf eps pre l x = pre.
Proof.
  intros HE. induction l as [|ob l IH]; intros pre x SS F H1 H2; auto. apply StronglySorted_inv in SS. destruct SS as (SS & FS). apply Forall_cons_iff in F. destruct F as (Hx & F). cbn [repf].
  destruct (qltb_spec x (score ob)) as [L|L]; auto. apply Qcnot_lt_le in L. assert (E : score ob = x) by (apply Qcle_antisym; auto).
  assert (N : next eps pre (score ob) = pre). { unfold next. rewrite qabs_pos by qlra. destruct (qltb_spec eps (score ob - pre)) as [Q|Q]; auto. exfalso. rewrite E in Q. qlra. }
  rewrite N. auto.
Qed.
Lemma annotate_repf eps : 0 <= eps -> forall l pre, StronglySorted le_score l -> Forall (fun o => pre <= score o) l -> annotate eps pre l = rescored (repf eps pre l) l.
Proof.
  intros HE. induction l as [|ob l IH]; intros pre SS F; auto. apply StronglySorted_inv in SS. destruct SS as (SS & FS). apply Forall_cons_iff in F. destruct F as (Hx & F).
  cbn [annotate rescored map]. destruct (next_close eps pre (score ob) HE Hx) as ((N1 & N2) & N3). assert (FN : Forall (fun o => next eps pre (score ob) <= score o) l).
  { eapply Forall_impl; [|exact FS]. unfold le_score. intros a Ha. eapply Qcle_trans; eauto. }
  rewrite IH by auto. f_equal.
  - f_equal. cbn [repf]. destruct (qltb_spec (score ob) (score ob)) as [L|L]; [destruct (Qclt_irrefl _ L)|]. symmetry. apply repf_same; auto.
  - unfold rescored. apply map_ext_in. intros a Ha. f_equal. cbn [repf]. rewrite Forall_forall in FS. specialize (FS a Ha). unfold le_score in FS. destruct (qltb_spec (score a) (score ob)) as [L|L]; auto. exfalso. apply (Qclt_not_le _ _ L FS).
Qed.
Lemma repf_range eps : 0 <= eps -> forall l pre x, StronglySorted le_score l -> Forall (fun o => pre <= score o) l -> pre <= x -> pre <= repf eps pre l x <= x.
Proof.
  intros HE. induction l as [|ob l IH]; intros pre x SS F H; [split; auto; apply Qcle_refl|]. apply StronglySorted_inv in SS. destruct SS as (SS & FS). apply Forall_cons_iff in F. destruct F as (Hx & F).
  cbn [repf]. destruct (qltb_spec x (score ob)) as [L|L]; [split; auto; apply Qcle_refl|]. apply Qcnot_lt_le in L. destruct (next_close eps pre (score ob) HE Hx) as ((N1 & N2) & N3).
  destruct (IH (next eps pre (score ob)) x SS) as (A & B). { eapply Forall_impl; [|exact FS]. unfold le_score. intros a Ha. eapply Qcle_trans; eauto. } { eapply Qcle_trans; eauto. }
  split; auto. eapply Qcle_trans; eauto.
Qed.
Lemma repf_close eps : 0 <= eps -> forall l pre x, StronglySorted le_score l -> Forall (fun o => pre <= score o) l -> (exists o, In o l /\ score o = x) -> x - repf eps pre l x <= eps.
Proof.
  intros HE. induction l as [|ob l IH]; intros pre x SS F (o & Ho & Eo); [destruct Ho|]. apply StronglySorted_inv in SS. destruct SS as (SS & FS). apply Forall_cons_iff in F. destruct F as (Hx & F).
  destruct (next_close eps pre (score ob) HE Hx) as ((N1 & N2) & N3). cbn [repf]. destruct Ho as [->|Ho].
  - rewrite Eo in *. destruct (qltb_spec x x) as [L|L]; [destruct (Qclt_irrefl _ L)|]. rewrite repf_same; auto. rewrite <- Eo. exact FS.
  - pose proof FS as FS0. rewrite Forall_forall in FS. specialize (FS o Ho). unfold le_score in FS. rewrite Eo in FS. destruct (qltb_spec x (score ob)) as [L|L]; [exfalso; apply (Qclt_not_le _ _ L FS)|].
    apply IH; auto; [|eauto]. eapply Forall_impl; [|exact FS0]. unfold le_score. intros a Ha. eapply Qcle_trans; eauto.
Qed.
Lemma repf_mono eps : 0 <= eps -> forall l pre x z, StronglySorted le_score l -> Forall (fun o => pre <= score o) l -> pre <= x -> x <= z -> repf eps pre l x <= repf eps pre l z.
Proof.
  intros HE. induction l as [|ob l IH]; intros pre x z SS F H1 H2; [apply Qcle_refl|]. pose proof SS as SS0. pose proof F as F0. apply StronglySorted_inv in SS. destruct SS as (SS & FS). apply Forall_cons_iff in F. destruct F as (Hx & F).
  destruct (next_close eps pre (score ob) HE Hx) as ((N1 & N2) & N3). cbn [repf].
  destruct (qltb_spec x (score ob)) as [L|L].
  - destruct (qltb_spec z (score ob)) as [L2|L2]; [apply Qcle_refl|]. apply (Qcle_trans _ (next eps pre (score ob))); auto. apply Qcnot_lt_le in L2. apply repf_range; auto; [|eapply Qcle_trans; eauto].
    eapply Forall_impl; [|exact FS]. unfold le_score. intros a Ha. eapply Qcle_trans; eauto.
  - apply Qcnot_lt_le in L. destruct (qltb_spec z (score ob)) as [L2|L2]; [exfalso; apply (Qclt_not_le _ _ L2); eapply Qcle_trans; eauto|]. apply IH; auto; [|eapply Qcle_trans; eauto].
    eapply Forall_impl; [|exact FS]. unfold le_score. intros a Ha. eapply Qcle_trans; eauto.
Qed.
