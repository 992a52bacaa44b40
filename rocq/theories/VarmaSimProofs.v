(** Proofs about the simulation of VARMA models. *)
From Verif Require Import VarmaSimSpec SurSimProofs.
From Coq Require Import Lia ZifyBool.
Local Open Scope Z_scope.

(** ** Horizons *)
Lemma asc_cons a l : ascending (a :: l) -> ascending l /\ forall x, In x l -> a <= x.
Proof.
  revert a. induction l as [|b l IH]; intros a H; [split; [exact Logic.I|intros x []]|]. destruct H as (H1 & H2). split; [exact H2|]. destruct (IH b H2) as (_ & K). intros x [<-|Hx]; [auto|]. specialize (K x Hx). lia.
Qed.
Lemma asc_last a l x d : ascending (a :: l) -> In x (a :: l) -> x <= last (a :: l) d.
Proof.
  revert a x. induction l as [|b l IH]; intros a x H Hx; [destruct Hx as [<-|[]]; cbn; lia|]. change (last (a :: b :: l) d) with (last (b :: l) d). destruct H as (H1 & H2). destruct Hx as [<-|Hx]; [|auto]. specialize (IH b b H2 (or_introl eq_refl)). lia.
Qed.
Lemma tried_hd h hs se : ascending (h :: hs) -> tried (h :: hs) se = (h <=? se).
Proof.
  intros A. unfold tried. cbn [existsb]. destruct (Z.leb_spec h se); [reflexivity|]. cbn [orb]. destruct (asc_cons _ _ A) as (_ & K). clear A. induction hs as [|b hs IH]; [reflexivity|]. cbn [existsb]. assert (K1 := K b (or_introl eq_refl)). replace (b <=? se) with false by lia. apply IH. intros x Hx. apply K. right; auto.
Qed.
Lemma used_sorted {A} eff (g : Z -> A) hs : ascending hs -> used eff hs (map g hs) = map (fun h => (h, g h)) (filter (fun h => h <=? eff) hs).
Proof.
  induction hs as [|h hs IH]; intros H; [reflexivity|]. cbn [used map filter]. destruct (asc_cons _ _ H) as (H1 & H2).
  destruct (Z.ltb_spec eff h).
  - replace (h <=? eff) with false by lia. assert (N : forall (cols : list A), used eff hs cols = []).
    { clear - H0 H2. induction hs as [|b hs IH]; intros cols; [reflexivity|]. cbn [used]. assert (K := H2 b (or_introl eq_refl)). replace (eff <? b) with true by lia. apply IH. intros x Hx. apply H2. right; auto. }
    rewrite N. assert (E : filter (fun h0 => h0 <=? eff) hs = []).
    { clear - H0 H2. induction hs as [|b hs IH]; [reflexivity|]. cbn [filter]. assert (K := H2 b (or_introl eq_refl)). replace (b <=? eff) with false by lia. apply IH. intros x Hx. apply H2. right; auto. }
    rewrite E. reflexivity.
  - replace (h <=? eff) with true by lia. cbn [map]. rewrite IH by auto. reflexivity.
Qed.

(** ** Columns *)
Definition vgrd (hs : list Z) (n : nat) (g : Z -> nat -> fl) : list (list fl) := map (fun h => map (g h) (seq 0 n)) hs.
Lemma at_index_ok n y t : rows_ok n y -> 0 <= t < Z.of_nat (List.length y) -> at_index y t = Ok (map (fun b => obs y t b) (seq 0 n)).
Proof.
  intros R B. unfold at_index. replace (t <? 0) with false by lia. destruct (nth_error y (Z.to_nat t)) as [r|] eqn:E; [|apply nth_error_None in E; lia].
  assert (L := R r (nth_error_In _ _ E)). f_equal. rewrite <- L. rewrite (list_seq (None : fl) r) at 1. apply map_ext. intros b. unfold obs. rewrite (nth_error_nth _ _ [] E). reflexivity.
Qed.
Lemma nan_col_map n : nan_col n = map (fun _ => None) (seq 0 n).
Proof. unfold nan_col. rewrite <- (seq_length n 0) at 1. generalize (seq 0 n). induction l; cbn; congruence. Qed.
Definition cell (eff : Z) (M : list (list fl)) (t : Z -> Z) (h : Z) (b : nat) : fl := if h <=? eff then obs M (t h) b else None.
Lemma columns_ok n y f v act eff hs : rows_ok n y -> rows_ok n f -> rows_ok n v -> 0 <= act -> act + eff < Z.of_nat (List.length y) -> eff <= Z.of_nat (List.length f) -> eff <= Z.of_nat (List.length v) -> Forall (fun h => 1 <= h) hs ->
  columns n y f v act eff hs = Ok (VCols (vgrd hs n (cell eff y (fun h => act + h))) (vgrd hs n (cell eff f (fun h => h - 1))) (vgrd hs n (cell eff v (fun h => h - 1))) (Z.of_nat (List.length (filter (fun h => h <=? eff) hs)))).
Proof.
  intros Ry Rf Rv Pa La Lf Lv P. induction P as [|h hs P1 P2 IH]; [reflexivity|]. cbn [columns]. rewrite IH. cbn [bind]. unfold vgrd. cbn [map filter].
  destruct (Z.leb_spec h eff).
  - assert (Ce : forall M t, map (cell eff M t h) (seq 0 n) = map (fun b => obs M (t h) b) (seq 0 n)) by (intros; apply map_ext; intros b; unfold cell; replace (h <=? eff) with true by lia; reflexivity).
    rewrite !Ce. rewrite (at_index_ok n y), (at_index_ok n f), (at_index_ok n v) by (auto; lia). cbn [bind k_act k_forc k_std k_count List.length]. f_equal. f_equal. lia.
  - assert (Ce : forall M t, map (cell eff M t h) (seq 0 n) = nan_col n) by (intros; rewrite nan_col_map; apply map_ext; intros b; unfold cell; replace (h <=? eff) with false by lia; reflexivity).
    rewrite !Ce. reflexivity.
Qed.
Lemma vgrd_map f hs n g : map (map f) (vgrd hs n g) = vgrd hs n (fun h b => f (g h b)).
Proof. unfold vgrd. rewrite map_map. apply map_ext. intros h. rewrite map_map. reflexivity. Qed.
Lemma vgrd_map2 f hs n a b : map2 (map2 f) (vgrd hs n a) (vgrd hs n b) = vgrd hs n (fun h j => f (a h j) (b h j)).
Proof. unfold vgrd. rewrite map2_map. apply map_ext. intros j. rewrite map2_map. reflexivity. Qed.

Lemma combine_map {A B C} (f : A -> B) (g : A -> C) l : combine (map f l) (map g l) = map (fun x => (f x, g x)) l.
Proof. induction l; cbn; congruence. Qed.
Section P.
Context (root : Qc -> fl) (binv : Qc -> Qc -> fl) (crps : Qc -> Qc -> fl).

Lemma lambdas_ok c : match vs_lambdas c with None => True | Some ls => (vs_yy c <= List.length ls)%nat end ->
  exists L, match vs_lambdas c with None => Ok (nan_col (vs_yy c)) | Some ls => v_lambdas ls (vs_yy c) end = Ok (map L (seq 0 (vs_yy c))) /\
  forall b v, (b < vs_yy c)%nat -> (match L b with None => v | Some lam => fbind (binv lam) v end) = unbox binv (vs_lambdas c) b v.
Proof.
  intros E. destruct (vs_lambdas c) as [ls|].
  - exists (fun b => nth b ls None). split.
    + revert ls E. induction (vs_yy c) as [|n IH]; intros [|l ls] E; cbn in E; try lia; [reflexivity..|]. cbn [v_lambdas]. rewrite IH by lia. cbn [bind seq map nth]. rewrite <- seq_shift, map_map. reflexivity.
    + intros b v Hb. cbn. destruct (nth b ls None), v; reflexivity.
  - exists (fun _ => None). split; [rewrite nan_col_map; reflexivity|]. reflexivity.
Qed.
Lemma box_map c L g : (forall b v, (b < vs_yy c)%nat -> (match L b with None => v | Some lam => fbind (binv lam) v end) = unbox binv (vs_lambdas c) b v) ->
  v_box binv (map L (seq 0 (vs_yy c))) (map g (seq 0 (vs_yy c))) = map (fun b => unbox binv (vs_lambdas c) b (g b)) (seq 0 (vs_yy c)).
Proof. intros H. unfold v_box. rewrite map2_map. apply map_ext_in. intros b Hb. apply in_seq in Hb. apply H. lia. Qed.
Lemma unbox_none ls b : unbox binv ls b None = None.
Proof. unfold unbox. destruct ls as [ls|]; [destruct (nth b ls None)|]; reflexivity. Qed.

Definition vscore (k : scoring) (a f e s l : fl) : fl := match v_score crps k a f e s l with Ok v => v | _ => None end.
Lemma v_score_ok k a f e s l : implemented_v k -> v_score crps k a f e s l = Ok (vscore k a f e s l).
Proof. destruct k; cbn; tauto. Qed.
Lemma score_cols_ok k hs n a f e s l : implemented_v k ->
  score_cols crps k (vgrd hs n a) (vgrd hs n f) (vgrd hs n e) (vgrd hs n s) (map l (seq 0 n)) = Ok (vgrd hs n (fun h b => vscore k (a h b) (f h b) (e h b) (s h b) (l b))).
Proof.
  intros Im. induction hs as [|h hs IH]; [reflexivity|]. unfold vgrd in *. cbn [map score_cols].
  assert (K : forall js, score_col crps k (map (a h) js) (map (f h) js) (map (e h) js) (map (s h) js) (map l js) = Ok (map (fun b => vscore k (a h b) (f h b) (e h b) (s h b) (l b)) js)).
  { induction js as [|b js IHj]; [reflexivity|]. cbn [map score_col]. rewrite v_score_ok by auto. cbn [bind]. rewrite IHj. reflexivity. }
  rewrite K. cbn [bind]. rewrite IH. reflexivity.
Qed.
(** The score of the model is that of the specification. *)
Lemma score_same k q s0 : implemented_v k -> (k = SCrps -> s0 = q_std q) -> vscore k (q_act q) (q_forc q) (q_act q -f q_forc q) s0 (q_last q) = cmp_score crps k q.
Proof.
  destruct q as [a f s l]. cbn [q_act q_forc q_std q_last]. intros Im Es. destruct k; try (destruct Im; fail); unfold vscore; cbn [v_score cmp_score q_act q_forc q_std q_last]; auto.
  - (* direction *)
    destruct f as [f|]; cbn [is_none]; [|destruct a, l; reflexivity]. destruct a as [a|], l as [l|]; unfold v_less, v_eq, same_side; cbn [dbl_of less]; try reflexivity.
    assert (Qq : forall x y : Qc, qltb x y = true -> qltb y x = false /\ qeqb x y = false /\ qeqb y x = false).
    { intros x y K. destruct (qltb_spec x y) as [K1|K1]; [|discriminate]. repeat split.
      - destruct (qltb_spec y x) as [K2|K2]; [|reflexivity]. exfalso. apply (Qclt_not_le _ _ K1). apply Qclt_le_weak. auto.
      - destruct (qeqb_spec x y) as [->|]; [|reflexivity]. exfalso. revert K1. apply Qcle_not_lt. apply Qcle_refl.
      - destruct (qeqb_spec y x) as [->|]; [|reflexivity]. exfalso. revert K1. apply Qcle_not_lt. apply Qcle_refl. }
    destruct (qltb l a) eqn:E1; [destruct (Qq _ _ E1) as (E2 & E3 & E4); rewrite E2, E4; destruct (qltb l f); reflexivity|].
    destruct (qltb a l) eqn:E2; [destruct (Qq _ _ E2) as (E3 & E4 & E5); rewrite E4; destruct (qltb f l); reflexivity|].
    destruct (qeqb a l) eqn:E3; [|reflexivity]. destruct (qeqb f l); reflexivity.
  - (* sign *)
    destruct f as [f|]; cbn [is_none]; [|destruct a; reflexivity]. destruct a as [a|].
    2: { unfold v_eq, v_less. cbn. destruct (qeqb f 0); reflexivity. }
    unfold v_eq, v_less. cbn [dbl_of less].
    destruct (qeqb_spec a 0) as [->|Na]; [rewrite Qcmult_0_l; reflexivity|]. destruct (qeqb_spec f 0) as [->|Nf]; [rewrite Qcmult_0_r; reflexivity|]. cbn [orb].
    destruct (qeqb_spec (a * f) 0) as [Z0|Nz]; [exfalso; destruct (Qcmult_integral _ _ Z0); auto|].
    assert (Sg : forall x : Qc, x <> 0%Qc -> (0 < x \/ x < 0)%Qc) by (intros x Nx; destruct (Qc_dec x 0) as [[K|K]|K]; auto; congruence).
    assert (Pm : forall x z : Qc, (0 < x -> 0 < z -> 0 < x * z)%Qc) by (intros x z K1 K2; rewrite <- (Qcmult_0_l z); apply Qcmult_lt_compat_r; auto).
    assert (Qf : forall x z : Qc, (x < z)%Qc -> qltb x z = true) by (intros x z K; destruct (qltb_spec x z); auto; contradiction).
    assert (Qn : forall x z : Qc, (x < z)%Qc -> qltb z x = false) by (intros x z K; destruct (qltb_spec z x) as [K2|]; auto; exfalso; apply (Qclt_not_le _ _ K); apply Qclt_le_weak; auto).
    assert (Ng : forall x : Qc, (x < 0 -> 0 < - x)%Qc) by (intros; qlra). assert (Ng2 : forall x : Qc, (0 < - x -> x < 0)%Qc) by (intros; qlra).
    destruct (Sg a Na) as [A|A], (Sg f Nf) as [Fp|Fp]; rewrite ?(Qf _ _ A), ?(Qn _ _ A), ?(Qf _ _ Fp), ?(Qn _ _ Fp); cbn [andb orb].
    + rewrite (Qn _ _ (Pm _ _ A Fp)). reflexivity.
    + rewrite (Qf (a * f) 0)%Qc; [reflexivity|]. apply Ng2. replace (- (a * f))%Qc with (a * - f)%Qc by ring. auto.
    + rewrite (Qf (a * f) 0)%Qc; [reflexivity|]. apply Ng2. replace (- (a * f))%Qc with (- a * f)%Qc by ring. auto.
    + rewrite (Qn 0 (a * f))%Qc; [reflexivity|]. replace (a * f)%Qc with (- a * - f)%Qc by ring. auto.
  - (* mape *)
    destruct a as [a|]; [|reflexivity]. unfold v_less, v_eq. cbn [dbl_of less]. destruct (qltb_spec 0 a) as [K|K].
    + destruct (qltb_spec a 0) as [K2|_]; [exfalso; apply (Qclt_not_le _ _ K); apply Qclt_le_weak; auto|]. destruct (qeqb_spec a 0) as [->|_]; [exfalso; revert K; apply Qcle_not_lt; apply Qcle_refl|]. reflexivity.
    + destruct (qltb_spec a 0) as [_|K2]; [reflexivity|]. destruct (qeqb_spec a 0) as [_|K3]; [reflexivity|]. exfalso. apply Qcnot_lt_le in K, K2. apply K3. apply Qcle_antisym; auto.
  - (* rmspe *)
    destruct a as [a|]; [|reflexivity]. unfold v_less, v_eq. cbn [dbl_of less]. destruct (qltb_spec 0 a) as [K|K].
    + destruct (qltb_spec a 0) as [K2|_]; [exfalso; apply (Qclt_not_le _ _ K); apply Qclt_le_weak; auto|]. destruct (qeqb_spec a 0) as [->|_]; [exfalso; revert K; apply Qcle_not_lt; apply Qcle_refl|]. reflexivity.
    + destruct (qltb_spec a 0) as [_|K2]; [reflexivity|]. destruct (qeqb_spec a 0) as [_|K3]; [reflexivity|]. exfalso. apply Qcnot_lt_le in K, K2. apply K3. apply Qcle_antisym; auto.
  - rewrite Es by auto. reflexivity.
Qed.
Lemma fold_cols n (V : Z -> nat -> fl) (hs : list Z) : forall F : nat -> fl, fold_left (map2 fadd) (map (fun h => map (V h) (seq 0 n)) hs) (map F (seq 0 n)) = map (fun b => F b +f fsum (map (fun h => V h b) hs)) (seq 0 n).
Proof.
  induction hs as [|h hs IH]; intros F; cbn [map fold_left].
  - apply map_ext. intros b. cbn. rewrite fadd_0_r. reflexivity.
  - rewrite map2_map. rewrite (IH (fun b => F b +f V h b)). apply map_ext. intros b. rewrite fsum_cons, fadd_assoc. reflexivity.
Qed.
Lemma v_adds_ok eff hs ks n F a f s l : ascending hs -> Forall implemented_v ks ->
  v_adds crps eff hs ks (map (fun k => map (F k) (seq 0 n)) ks) (vgrd hs n a) (vgrd hs n f) (vgrd hs n (fun h b => a h b -f f h b)) (vgrd hs n s) (map l (seq 0 n))
  = Ok (map (fun k => map (fun b => F k b +f fsum (map (fun h => vscore k (a h b) (f h b) (a h b -f f h b) (s h b) (l b)) (filter (fun h => h <=? eff) hs))) (seq 0 n)) ks).
Proof.
  intros As Im. induction Im as [|k ks I1 I2 IH]; [reflexivity|]. cbn [map v_adds]. unfold v_add. rewrite score_cols_ok by auto. cbn [bind]. rewrite IH. cbn [bind]. f_equal. f_equal.
  unfold vgrd at 1. rewrite used_sorted by auto. rewrite map_map. cbn [snd]. apply (fold_cols n (fun h b => vscore k (a h b) (f h b) (a h b -f f h b) (s h b) (l b))).
Qed.

Definition vacc c (F : scoring -> nat -> fl) : list (list fl) := map (fun k => map (F k) (seq 0 (vs_yy c))) (vs_metrics c).
(** One estimation. *)
Lemma round_skip c y est se st : call_v c y est -> 1 <= se <= vs_count c -> tried (vs_horizons c) se = false ->
  v_round root binv crps c y est se st = Ok (inl (VSt (v_res st) (v_counter st) (v_valid st) (v_inv st + 1) (v_success st) (v_errors st) (v_details st))).
Proof.
  intros C B T. destruct (cv_hs _ _ _ C) as (H1 & H2 & H3). unfold v_round. destruct (vs_horizons c) as [|h hs]; [congruence|]. rewrite (tried_hd h hs se H2) in T. cbn [hd].
  assert (L := cv_last _ _ _ C). assert (LT := cv_T _ _ _ C). assert (LC := cv_count _ _ _ C). replace (vs_last c - se <? 0) with false by lia. assert (K := Z.le_min_l se (last (h :: hs) 0)). replace (Z.min se (last (h :: hs) 0) <? h) with true by lia. reflexivity.
Qed.
Lemma round_ok c y est se st F : call_v c y est -> 1 <= se <= vs_count c -> tried (vs_horizons c) se = true -> v_res st = vacc c F ->
  exists det,
  v_round root binv crps c y est se st =
  match est se (vs_prev c && v_success st) with
  | VFail msg => Ok (inr (VSt (v_res st) (v_counter st) (v_valid st) (v_inv st + 1) (v_success st) (if vs_ext c then add_error true (RModel msg) (v_errors st) else v_errors st) (v_details st)))
  | VFit f v => if negb (vs_ext c) && (vs_maxinv c <? v_inv st) then Throw else
    Ok (inr (VSt (vacc c (fun k b => F k b +f fsum (map (cmp_score crps k) (map (fun h => compare_at root binv c y f v se h b) (within (vs_horizons c) se)))))
      (v_counter st + Z.of_nat (List.length (within (vs_horizons c) se))) (v_valid st + 1) (v_inv st) true (v_errors st) (v_details st ++ det)))
  end /\
  forall f v, est se (vs_prev c && v_success st) = VFit f v -> existsb requires_variance (vs_metrics c) = true ->
  det = if vs_ext c && vs_keep c then flat_map (fun m => flat_map (fun h => map (fun b => let q := compare_at root binv c y f v se h b in
      VDet se (Z.of_nat m) h (Z.of_nat b) (q_last q) (q_act q) (q_forc q) (q_act q -f q_forc q) (q_std q)) (seq 0 (vs_yy c))) (within (vs_horizons c) se)) (seq 0 (List.length (vs_metrics c))) else [].
Proof.
  intros C B T Er. destruct (cv_hs _ _ _ C) as (H1 & H2 & H3). unfold v_round.
  assert (Hd : exists h hs, vs_horizons c = h :: hs) by (destruct (vs_horizons c) as [|h hs]; [congruence|eauto]). destruct Hd as (h0 & hs0 & Eh).
  assert (L := cv_last _ _ _ C). assert (LT := cv_T _ _ _ C). assert (LC := cv_count _ _ _ C). replace (vs_last c - se <? 0) with false by lia.
  set (hMax := last (vs_horizons c) 0) in *. assert (Lst : forall h, In h (vs_horizons c) -> h <= hMax) by (unfold hMax; rewrite Eh in *; intros h Hh; apply asc_last; auto).
  assert (T0 : h0 <= se) by (rewrite Eh, (tried_hd h0 hs0 se) in T; [lia|rewrite <- Eh; auto]). assert (M0 : h0 <= hMax) by (apply Lst; rewrite Eh; left; auto).
  set (eff := Z.min se hMax). replace (hd 0 (vs_horizons c)) with h0 by (rewrite Eh; reflexivity). replace (eff <? h0) with false by lia.
  assert (Wi : filter (fun h => h <=? eff) (vs_horizons c) = within (vs_horizons c) se).
  { unfold within. apply filter_ext_in. intros h Hh. assert (Lh := Lst h Hh). unfold eff. lia. }
  rewrite Wi. assert (Nz : (0 < List.length (within (vs_horizons c) se))%nat) by (unfold within; rewrite Eh; cbn [filter]; replace (h0 <=? se) with true by lia; cbn; lia).
  replace (Z.of_nat (List.length (within (vs_horizons c) se)) <=? 0) with false by lia.
  destruct (est se (vs_prev c && v_success st)) as [msg|f v] eqn:Ee; [exists []; split; [reflexivity|intros; discriminate]|].
  replace (v_inv st + 1 - 1) with (v_inv st) by lia. destruct (negb (vs_ext c) && (vs_maxinv c <? v_inv st)) eqn:Et.
  { eexists. split; [reflexivity|]. intros f' v' [= <- <-] _. reflexivity. }
  destruct (cv_fit _ _ _ C se _ f v B Ee) as (Rf & Rv & Lf & Lv). fold hMax in Lf, Lv. fold eff in Lf, Lv. assert (Ry := cv_y _ _ _ C).
  rewrite (at_index_ok (vs_yy c) y (vs_last c - se) Ry) by lia. cbn [bind].
  rewrite (columns_ok (vs_yy c) y f v (vs_last c - se) eff (vs_horizons c)); auto; try (unfold eff; lia). cbn [bind k_act k_forc k_std k_count]. rewrite Wi.
  destruct (lambdas_ok c (cv_lam _ _ _ C)) as (Lm & El & Hl). rewrite El. cbn [bind]. cbv zeta.
  assert (Vb : forall g, map (v_box binv (map Lm (seq 0 (vs_yy c)))) (vgrd (vs_horizons c) (vs_yy c) g) = vgrd (vs_horizons c) (vs_yy c) (fun h b => unbox binv (vs_lambdas c) b (g h b))).
  { intros g. unfold vgrd. rewrite map_map. apply map_ext. intros h. apply (box_map c Lm (g h) Hl). }
  rewrite !Vb. rewrite (box_map c Lm _ Hl).
  set (A := fun h b => unbox binv (vs_lambdas c) b (cell eff y (fun h => vs_last c - se + h) h b)). set (Fc := fun h b => unbox binv (vs_lambdas c) b (cell eff f (fun h => h - 1) h b)).
  rewrite vgrd_map2. change (fun (h : Z) (j : nat) => fsub (A h j) (Fc h j)) with (fun h j => A h j -f Fc h j).
  set (S1 := fun h b => if existsb requires_variance (vs_metrics c) then unbox binv (vs_lambdas c) b (fbind root (cell eff v (fun h => h - 1) h b)) else cell eff v (fun h => h - 1) h b).
  assert (Es : (if existsb requires_variance (vs_metrics c) then map (v_box binv (map Lm (seq 0 (vs_yy c)))) (if existsb requires_variance (vs_metrics c) then map (map (fbind root)) (vgrd (vs_horizons c) (vs_yy c) (cell eff v (fun h => h - 1))) else vgrd (vs_horizons c) (vs_yy c) (cell eff v (fun h => h - 1)))
    else (if existsb requires_variance (vs_metrics c) then map (map (fbind root)) (vgrd (vs_horizons c) (vs_yy c) (cell eff v (fun h => h - 1))) else vgrd (vs_horizons c) (vs_yy c) (cell eff v (fun h => h - 1)))) = vgrd (vs_horizons c) (vs_yy c) S1).
  { unfold S1. destruct (existsb requires_variance (vs_metrics c)); [|reflexivity]. rewrite vgrd_map, Vb. reflexivity. }
  unfold fl in *. rewrite Es. rewrite Er. unfold vacc at 1.
  assert (Ea := v_adds_ok eff (vs_horizons c) (vs_metrics c) (vs_yy c) F A Fc S1 (fun b => unbox binv (vs_lambdas c) b (obs y (vs_last c - se) b)) H2 (cv_ks _ _ _ C)). unfold fl in *. rewrite Ea. clear Ea. cbn [bind].
  eexists. split; [f_equal; f_equal; f_equal|].
  - unfold vacc. apply map_ext_in. intros k Hk. apply map_ext_in. intros b Hb. f_equal. f_equal. rewrite map_map, Wi. apply map_ext_in. intros h Hh. unfold within in Hh. apply filter_In in Hh. destruct Hh as (Hh & Hh2).
    assert (Hh3 : h <=? eff = true) by (assert (Lh := Lst h Hh); unfold eff; lia).
    rewrite <- (score_same k (compare_at root binv c y f v se h b) (S1 h b)).
    + unfold compare. cbn [q_act q_forc q_last q_std]. unfold A, Fc, cell. rewrite Hh3. reflexivity.
    + assert (Im := cv_ks _ _ _ C). rewrite Forall_forall in Im. auto.
    + intros ->. unfold S1, cell. rewrite Hh3. replace (existsb requires_variance (vs_metrics c)) with true; [reflexivity|]. symmetry. apply existsb_exists. exists SCrps. auto.
  - intros f' v' [= <- <-] Hv. destruct (vs_ext c && vs_keep c); [|reflexivity]. apply flat_map_ext. intros m. unfold v_detail.
    assert (Cb : combine (vgrd (vs_horizons c) (vs_yy c) A) (combine (vgrd (vs_horizons c) (vs_yy c) Fc) (combine (vgrd (vs_horizons c) (vs_yy c) (fun h j => A h j -f Fc h j)) (vgrd (vs_horizons c) (vs_yy c) S1))) =
      map (fun h => (map (A h) (seq 0 (vs_yy c)), (map (Fc h) (seq 0 (vs_yy c)), (map (fun b => A h b -f Fc h b) (seq 0 (vs_yy c)), map (S1 h) (seq 0 (vs_yy c)))))) (vs_horizons c)).
    { unfold vgrd. rewrite !combine_map. reflexivity. }
    unfold fl in *. rewrite Cb, used_sorted by auto. rewrite Wi, flat_map_concat_map, map_map, <- flat_map_concat_map.
    rewrite !(flat_map_concat_map _ (within _ _)). f_equal. apply map_ext_in. intros h Hh. unfold within in Hh. apply filter_In in Hh. destruct Hh as (Hh & Hh2).
    assert (Hh3 : h <=? eff = true) by (assert (Lh := Lst h Hh); unfold eff; lia).
    apply map_ext_in. intros b Hb. apply in_seq in Hb.
    assert (Nt : forall g : nat -> option Qc, nth b (map g (seq 0 (vs_yy c))) None = g b) by (intros g; rewrite (nth_indep _ None (g 0%nat)) by (rewrite map_length, seq_length; lia); rewrite map_nth, seq_nth by lia; reflexivity).
    rewrite !Nt. unfold compare. cbn [q_act q_forc q_last q_std]. unfold A, Fc, S1, cell. rewrite Hh3, Hv. reflexivity.
Qed.
End P.
