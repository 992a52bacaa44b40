(** Conversion to multi-daily from the end; conversion to daily. *)
From Verif Require Import VarProofs2.
From Verif Require Import VarSpec ArrProofs ArrProofs2 VarProofs FreqProofs FreqProofs2 FreqProofs3 FreqProofs4 StrProofs.
From Coq Require Import Lia ZifyBool.
Local Open Scope Z_scope.

Lemma concat_uniform {A} (k : nat) : forall (full : list (list A)), Forall (fun b => List.length b = k) full ->
  forall j, (j < List.length full)%nat -> nth_error full j = Some (firstn k (skipn (j * k) (concat full))).
Proof.
  induction full as [|b full IH]; intros H [|j] Hj; simpl in Hj; try lia; inversion H as [|? ? E H']; subst.
  - simpl. rewrite firstn_app, firstn_all, Nat.sub_diag, app_nil_r. reflexivity.
  - cbn [nth_error concat]. rewrite IH by (auto; lia). do 2 f_equal.
    rewrite skipn_app. rewrite (skipn_all2 b) by nia. cbn [app]. f_equal. nia.
Qed.

Lemma slice_values v (a c : nat) : (a <= c <= List.length (v_data v))%nat ->
  firstn (c - a) (skipn a (v_data v)) = values v (start_day v + Z.of_nat a) (start_day v + Z.of_nat c).
Proof.
  intros H. apply list_ext_nth_error. intros i.
  destruct (le_lt_dec (c - a) i) as [Q|Q].
  - rewrite (proj2 (nth_error_None _ _)) by (rewrite firstn_length; lia). symmetry. apply nth_error_None. rewrite values_length. lia.
  - rewrite nth_values by lia. rewrite nth_firstn, nth_skipn by auto. unfold value_on.
    replace (start_day v + Z.of_nat a + Z.of_nat i - start_day v) with (Z.of_nat (a + i)) by lia.
    replace (Z.of_nat (a + i) <? 0) with false by lia. rewrite Nat2Z.id.
    destruct (nth_error (v_data v) (a + i)) eqn:E; auto. apply nth_error_None in E. lia.
Qed.

(** From the end: value [b] covers the days counted back from the end of the data, although its date is
    [b] steps of [k] days after the start. *)
Theorem multi_daily_backward result v k agg : is_daily v -> 1 <= k ->
  exists w, to_multi_daily result v k (Some agg) true = Ok w /\ v_name w = v_name v /\ week_freq (v_start w) /\
    start_day w = start_day v /\ Z.of_nat (List.length (v_data w)) = len (v_data v) / k + 1 /\
    forall b, (b < List.length (v_data w))%nat -> exists g, date w (Z.of_nat b) = Ok g /\ day_of g = start_day v + Z.of_nat b * k /\
      let e := end_day v - k * (Z.of_nat (List.length (v_data w)) - 1 - Z.of_nat b) in
      nth_error (v_data w) b = Some (agg (values v (Z.max (start_day v) (e - k)) e)).
Proof.
  intros Hd Hk. destruct (daily_inv v Hd) as (f & E1 & E2 & E3 & E4). unfold to_multi_daily. rewrite E1, E2.
  destruct (partition_backward_all (v_data v) k Hk) as (first & full & Q1 & Q2 & Q3 & Q4). rewrite Q1. cbn [bind].
  rewrite wb_make_days. cbn [bind]. eexists. split; [reflexivity|]. cbn [converted v_name v_data v_start].
  set (w := {| w_day := w_day f; w_range := rng0; w_fwd := 0; w_multi := k; w_class := if k =? 1 then kDaily else kMultiDaily |}).
  assert (Hw : week_freq (FW w)). { exists (w_day f), false, k, w. auto. }
  split; auto. split; auto. split. { unfold start_day at 1. cbn [v_start day_of]. unfold w. cbn [w_day]. auto. }
  set (n := List.length (v_data v)) in *. set (kn := Z.to_nat k) in *.
  assert (Kn : k = Z.of_nat kn) by (unfold kn; lia).
  assert (LF : n = (n mod kn + List.length full * kn)%nat).
  { assert (List.length (first ++ concat full) = n) by (rewrite Q2; reflexivity). rewrite app_length, Q3 in H.
    assert (List.length (concat full) = (List.length full * kn)%nat).
    { clear -Q4. induction Q4 as [|x l Hx Q IH]; simpl; auto. rewrite app_length, IH, Hx. reflexivity. }
    lia. }
  assert (DV : len (v_data v) / k = Z.of_nat (List.length full)).
  { unfold len. fold n. rewrite Kn, <- Nat2Z.inj_div. f_equal.
    pose proof (Nat.div_mod n kn ltac:(lia)). nia. }
  rewrite map_length. cbn [List.length]. split. { rewrite DV, Nat2Z.inj_succ. reflexivity. }
  intros b Hb. unfold date. cbn [v_start].
  destruct (week_steps (FW w) (Z.of_nat b) 0 Hw) as (g & _ & G1 & _ & _ & _ & _ & _ & _ & _ & G2).
  exists g. split; auto. split.
  { rewrite G2. cbn [day_of]. unfold step_days, class_of, w. cbn [w_day w_class w_multi]. destruct (k =? 1) eqn:K1; lia. }
  assert (Bk := Nat.mod_upper_bound n kn ltac:(lia)).
  cbv zeta. change (@List.length cells full) with (@List.length (list (option Qc)) full) in *. set (L := List.length full) in *.
  replace (Z.of_nat (S L) - 1 - Z.of_nat b) with (Z.of_nat (L - b)) by lia. unfold end_day. fold n.
  assert (P : nth_error (first :: full) b = Some (firstn (n - (L - b) * kn - (n - (L - b) * kn - kn)) (skipn (n - (L - b) * kn - kn) (v_data v)))).
  { destruct b as [|b].
    - cbn [nth_error]. replace (n - (L - 0) * kn)%nat with (n mod kn)%nat by nia.
      replace (n mod kn - kn)%nat with 0%nat by lia. cbn [skipn].
      rewrite <- Q2, Nat.sub_0_r, <- Q3, firstn_app, firstn_all, Nat.sub_diag, app_nil_r. reflexivity.
    - cbn [nth_error]. rewrite (concat_uniform kn) by (auto; lia). do 2 f_equal. { nia. }
      rewrite <- Q2. rewrite skipn_app. rewrite (skipn_all2 first) by (rewrite Q3; nia). cbn [app]. f_equal. rewrite Q3. nia. }
  rewrite (map_nth_error agg _ _ P). do 2 f_equal.
  rewrite slice_values by lia. rewrite Kn. f_equal; nia.
Qed.

(** ** From a daily-in-week variable *)
Lemma weeks_nth (L E : nat) : (0 < L)%nat -> forall n (d : cells), (List.length d <= n * L)%nat -> (n = 0 \/ (n - 1) * L < List.length d)%nat ->
  forall q p, (p < L + E)%nat -> nth_error (weeks_loop n (Z.of_nat L) (Z.of_nat E) d) (q * (L + E) + p) =
   (if (p <? L)%nat then nth_error d (q * L + p) else if (q + 1 <? n)%nat then Some None else None).
Proof.
  intros HL. induction n as [|m IH]; intros d H1 H2 q p Hp.
  { destruct d; simpl in H1; [|lia]. cbn [weeks_loop].
    assert (ZN : forall i, nth_error (@nil (option Qc)) i = None) by (intros []; reflexivity). rewrite !ZN.
    destruct (p <? L)%nat; [|replace (q + 1 <? 0)%nat with false by lia]; reflexivity. }
  cbn [weeks_loop]. rewrite !Nat2Z.id. destruct m as [|m].
  - cbn [weeks_loop app]. rewrite app_nil_r, firstn_all2 by lia.
    destruct q as [|q].
    + cbn [Nat.mul Nat.add]. destruct (p <? L)%nat eqn:Q; auto. replace (1 <? 1)%nat with false by reflexivity. apply nth_error_None. lia.
    + replace (S q + 1 <? 1)%nat with false by lia.
      rewrite (proj2 (nth_error_None d _)) by nia. destruct (p <? L)%nat; auto. symmetry. apply nth_error_None. nia.
  - assert (LF : List.length (firstn L d) = L) by (rewrite firstn_length; nia).
    assert (LR : List.length (repeat (@None Qc) E) = E) by apply repeat_length.
    destruct q as [|q].
    + cbn [Nat.mul Nat.add]. destruct (p <? L)%nat eqn:Q.
      * rewrite nth_error_app1 by lia. apply nth_firstn. lia.
      * rewrite nth_error_app2, LF by lia. rewrite nth_error_app1 by lia. replace (1 <? S (S m))%nat with true by lia.
        apply nth_error_repeat_lt. lia.
    + rewrite nth_error_app2 by nia. rewrite nth_error_app2 by (rewrite LF, LR; nia). rewrite LF, LR.
      replace (S q * (L + E) + p - L - E)%nat with (q * (L + E) + p)%nat by nia.
      rewrite IH; [|rewrite skipn_length; nia|right; rewrite skipn_length; nia|auto].
      rewrite nth_skipn. replace (S q + 1 <? S (S m))%nat with (q + 1 <? S m)%nat by (destruct (q + 1 <? S m)%nat eqn:?; lia).
      replace (S q * L + p)%nat with (L + (q * L + p))%nat by lia. reflexivity.
Qed.

Lemma daily_is_daily d : is_daily {| v_name := []; v_data := []; v_start := FW {| w_day := d; w_range := rng0; w_fwd := 0; w_multi := 1; w_class := kDaily |}; v_fields := [] |}.
Proof. split; [exists d, false, 1, {| w_day := d; w_range := rng0; w_fwd := 0; w_multi := 1; w_class := kDaily |}|]; auto using Z.le_refl. Qed.

Theorem week_daily_exact result v r : dw_freq r (v_start v) -> r_start r <> r_end r -> dow (start_day v) = r_start r ->
  exists w, to_daily result v = Ok w /\ start_day w = start_day v /\ daily_copy v w.
Proof.
  intros Hf Hne Hs. destruct (dw_freq_ok r _ Hf) as (Hr & b & Hb & E & Hc & R). unfold start_day in Hs.
  unfold to_daily. rewrite E in *. rewrite Hc, wb_make_days. cbn [bind]. rewrite R, length_exact by auto. fold (dw_len r).
  destruct (dw_basic r (w_day b) Hr) as (B1 & B2 & B3 & _). cbn [day_of] in Hs.
  set (L := Z.to_nat (dw_len r)). set (WE := Z.to_nat (7 - dw_len r)).
  assert (EL : dw_len r = Z.of_nat L) by lia. assert (EE : 7 - dw_len r = Z.of_nat WE) by lia. assert (LE : (L + WE = 7)%nat) by lia.
  set (n := Z.to_nat ((len (v_data v) + dw_len r - 1) / dw_len r)).
  assert (HN : (List.length (v_data v) <= n * L)%nat /\ (n = 0 \/ (n - 1) * L < List.length (v_data v))%nat).
  { unfold n, len. pose proof (Z.div_mod (Z.of_nat (List.length (v_data v)) + dw_len r - 1) (dw_len r) ltac:(lia)) as D.
    pose proof (Z.mod_pos_bound (Z.of_nat (List.length (v_data v)) + dw_len r - 1) (dw_len r) ltac:(lia)).
    set (Q := (Z.of_nat (List.length (v_data v)) + dw_len r - 1) / dw_len r) in *.
    assert (0 <= Q) by nia. rewrite EL in *. split; [nia|]. destruct (Z.eq_dec Q 0); [left; lia|right; nia]. }
  destruct HN as (HN1 & HN2). rewrite EE, EL.
  assert (WN := weeks_nth L WE ltac:(lia) n (v_data v) HN1 HN2). rewrite LE in WN.
  set (wd := weeks_loop n (Z.of_nat L) (Z.of_nat WE) (v_data v)) in *.
  eexists. split; [reflexivity|]. split; [unfold start_day; rewrite E; reflexivity|].
  (* the day of an observation *)
  assert (DAY : forall q p, (p < L)%nat -> date v (Z.of_nat (q * L + p)) = Ok (FW (wb_set b (w_day b + Z.of_nat (q * 7 + p))))).
  { intros q p Hp. unfold date. rewrite E. cbn [next]. rewrite wb_next_eq by auto. cbn [bind]. do 3 f_equal.
    unfold wb_shift. rewrite Hc, R.
    assert (C0 : dw_c r (w_day b) = dw_len r - 1).
    { unfold dw_c, dw_len. rewrite Hs. lia. }
    set (d := w_day b + Z.of_nat (q * 7 + p)).
    assert (C1 : dw_c r d = dw_len r - 1 - Z.of_nat p).
    { unfold dw_c, d. rewrite dow_walk. unfold walk. rewrite Hs. rewrite Zminus_mod_idemp_r.
      replace (r_end r - (r_start r + Z.of_nat (q * 7 + p))) with ((r_end r - r_start r - Z.of_nat p) + - Z.of_nat q * 7) by lia.
      rewrite Z.mod_add by lia. rewrite Zminus_mod. unfold dw_len in *. 
      rewrite (Z.mod_small (Z.of_nat p) 7) by lia. rewrite Z.mod_small; lia. }
    destruct (dw_basic r d Hr) as (D1 & _ & D3 & D4).
    assert (W1 : dw_w r d = dw_w r (w_day b) + Z.of_nat q) by (unfold d in D3; fold d in D3; lia).
    destruct (dw_day_ord r (dw_ord r (w_day b) + Z.of_nat (q * L + p)) Hr) as (I1 & I2).
    apply (dw_ord_inj r); auto. { apply D4. lia. }
    rewrite I2. unfold dw_ord. rewrite W1, C1, C0. nia. }
  split. { destruct (daily_is_daily (w_day b)) as (A1 & A2). split; [exact A1|exact A2]. }
  split; [reflexivity|]. split.
  - intros i x Hi. pose proof (Nat.div_mod i L ltac:(lia)) as DM. pose proof (Nat.mod_upper_bound i L ltac:(lia)) as DB.
    set (q := (i / L)%nat) in *. set (p := (i mod L)%nat) in *.
    replace i with (q * L + p)%nat in Hi by nia. specialize (DAY q p DB). replace (q * L + p)%nat with i in DAY by nia.
    exists (FW (wb_set b (w_day b + Z.of_nat (q * 7 + p)))), (w_day b + Z.of_nat (q * 7 + p)). split; auto. split; [reflexivity|].
    specialize (WN q p ltac:(lia)). replace (p <? L)%nat with true in WN by lia. rewrite Hi in WN.
    unfold end_day, value_on, start_day. cbn [v_start day_of w_day v_data].
    assert (q * 7 + p < List.length wd)%nat by (apply nth_error_Some; congruence).
    split; [lia|]. replace (w_day b + Z.of_nat (q * 7 + p) - w_day b) with (Z.of_nat (q * 7 + p)) by lia.
    replace (Z.of_nat (q * 7 + p) <? 0) with false by lia. rewrite Nat2Z.id, WN. reflexivity.
  - intros d x Hv. unfold value_on, start_day in Hv. cbn [v_start day_of w_day v_data] in Hv.
    destruct (d - w_day b <? 0) eqn:Q; [discriminate|]. set (i := Z.to_nat (d - w_day b)) in *.
    pose proof (Nat.div_mod i 7 ltac:(lia)) as DM. pose proof (Nat.mod_upper_bound i 7 ltac:(lia)) as DB.
    set (q := (i / 7)%nat) in *. set (p := (i mod 7)%nat) in *. specialize (WN q p DB).
    replace (q * 7 + p)%nat with i in WN by lia. rewrite WN in Hv.
    destruct (p <? L)%nat eqn:PL; [|destruct (q + 1 <? n)%nat; discriminate].
    exists (q * L + p)%nat, (FW (wb_set b (w_day b + Z.of_nat (q * 7 + p)))).
    split. { destruct (nth_error (v_data v) (q * L + p)); congruence. }
    split; [apply DAY; lia|]. cbn [day_is wb_set w_day]. lia.
Qed.

(** ** From a date list *)
Lemma map_res_nth {A B} (f : A -> res B) : forall l, (forall x, In x l -> exists y, f x = Ok y) ->
  exists l', map_res f l = Ok l' /\ List.length l' = List.length l /\
    forall i x, nth_error l i = Some x -> exists y, f x = Ok y /\ nth_error l' i = Some y.
Proof.
  induction l as [|x l IH]; intros H; cbn [map_res].
  - exists []. split; auto. split; auto. intros [|i] y E; discriminate.
  - destruct (H x (or_introl eq_refl)) as (y & E). rewrite E. cbn [bind].
    destruct IH as (l' & E' & EL & N). { intros z Hz. apply H. right; auto. }
    rewrite E'. cbn [bind]. exists (y :: l'). split; auto. split; [simpl; lia|].
    intros [|i] z Hz; simpl in *; [injection Hz as <-; eauto|auto].
Qed.

Lemma nth_zseq s n i : (i < n)%nat -> nth_error (zseq s n) i = Some (s + Z.of_nat i).
Proof.
  intros H. unfold zseq. assert (E : nth_error (seq 0 n) i = Some i).
  { rewrite (nth_error_nth' _ 0%nat) by (rewrite seq_length; auto). rewrite seq_nth by auto. reflexivity. }
  rewrite (map_nth_error _ _ _ E). reflexivity.
Qed.

Theorem list_daily_exact result v x its : v_start v = FLd {| l_value := x; l_items := Some (x :: its); l_out := 0 |} ->
  NoDup (x :: its) -> List.length (v_data v) = List.length (x :: its) ->
  exists w, to_daily result v = Ok w /\ In (start_day w) (x :: its) /\ In (end_day w - 1) (x :: its) /\ daily_copy v w.
Proof.
  intros E ND LD. unfold to_daily. rewrite E. cbn [l_items]. set (all := x :: its) in *.
  destruct (fold_min_le its x) as (M1 & M2 & M3). destruct (fold_max_ge its x) as (X1 & X2 & X3).
  fold (min_list x its) in M1, M2, M3. fold (max_list x its) in X1, X2, X3. set (mn := min_list x its) in *. set (mx := max_list x its) in *.
  assert (MA : forall y, In y all -> mn <= y <= mx). { intros y [<- |Hy]; [lia|]. specialize (M2 y Hy). specialize (X2 y Hy). lia. }
  set (N := Z.to_nat (mx - mn + 1)).
  assert (LDAY : forall i y, nth_error all i = Some y -> exists c, nth_error (v_data v) i = Some c /\ list_day all (v_data v) y = Ok c).
  { intros i y Hi. assert (i < List.length (v_data v))%nat by (rewrite LD; apply nth_error_Some; congruence).
    destruct (nth_error (v_data v) i) as [c|] eqn:Ec; [|apply nth_error_None in Ec; lia].
    exists c. split; auto. unfold list_day.
    rewrite (index_of_nth Z.eqb all Zeqb_spec i y) by auto. replace (Z.of_nat i =? -1) with false by lia.
    rewrite Nat2Z.id. unfold at_. rewrite Ec. reflexivity. }
  assert (LOUT : forall y, ~ In y all -> list_day all (v_data v) y = Ok None).
  { intros y Hy. unfold list_day. destruct (index_of_spec Z.eqb y all Zeqb_spec) as [(-> & _)|(_ & Hj & _)]; auto.
    exfalso. apply Hy. eapply nth_error_In. eauto. }
  destruct (map_res_nth (list_day all (v_data v)) (zseq mn N)) as (d & Ed & EL & EN).
  { intros y _. destruct (in_dec Z.eq_dec y all) as [I|I]; [|eauto].
    destruct (In_nth_error _ _ I) as (i & Hi). destruct (LDAY i y Hi) as (c & _ & H). eauto. }
  rewrite Ed. cbn [bind]. rewrite wb_make_days. cbn [bind]. eexists. split; [reflexivity|].
  unfold zseq in EL. rewrite map_length, seq_length in EL.
  unfold end_day, start_day. cbn [v_start day_of w_day v_data].
  assert (NB : mn <= mx). { specialize (MA x (or_introl eq_refl)). lia. }
  split. { destruct M3 as [-> |]; [left|right]; auto. }
  split. { replace (mn + Z.of_nat (List.length d) - 1) with mx by lia. destruct X3 as [-> |]; [left|right]; auto. }
  split. { destruct (daily_is_daily mn) as (A1 & A2). split; [exact A1|exact A2]. }
  split; [reflexivity|].
  assert (DATE : forall i y, nth_error all i = Some y -> exists g, date v (Z.of_nat i) = Ok g /\ day_is g y).
  { intros i y Hi. unfold date. rewrite E.
    assert (AP : at_place {| l_value := x; l_items := Some all; l_out := 0 |} all 0).
    { left. split; [unfold all; simpl; lia|]. split; reflexivity. }
    destruct (at_place_next Z.eqb Zeqb_spec all {| l_value := x; l_items := Some all; l_out := 0 |} 0 (Z.of_nat i) ND ltac:(discriminate) eq_refl AP) as (g & G1 & G2 & G3).
    cbn [next]. rewrite G1. cbn [bind]. exists (FLd g). split; auto. cbn [day_is list_date].
    assert (i < List.length all)%nat by (apply nth_error_Some; congruence).
    destruct G3 as [(_ & G3 & G4)|[(G3 & _)|(G3 & _)]]; try lia. rewrite G3. cbn [Z.eqb].
    replace (Z.to_nat (0 + Z.of_nat i)) with i in G4 by lia. congruence. }
  unfold value_on, start_day. cbn [v_start day_of w_day v_data]. unfold end_day, start_day. cbn [v_start day_of w_day v_data]. split.
  - intros i c Hi. destruct (nth_error all i) as [y|] eqn:Hy.
    2:{ apply nth_error_None in Hy. assert (i < List.length (v_data v))%nat by (apply nth_error_Some; congruence). lia. }
    destruct (DATE i y Hy) as (g & G1 & G2). exists g, y. split; auto. split; auto.
    specialize (MA y (nth_error_In _ _ Hy)). split; [lia|].
    destruct (LDAY i y Hy) as (c' & C1 & C2). assert (c' = c) by congruence. subst c'.
    destruct (EN (Z.to_nat (y - mn)) y) as (c'' & C3 & C4). { rewrite nth_zseq by lia. f_equal. lia. }
    replace (y - mn <? 0) with false by lia. rewrite C4. congruence.
  - intros y c Hv. destruct (y - mn <? 0) eqn:Q; [discriminate|].
    destruct (nth_error d (Z.to_nat (y - mn))) as [c'|] eqn:En; [|discriminate]. subst c'.
    assert (Z.to_nat (y - mn) < N)%nat by (rewrite <- EL; apply nth_error_Some; congruence).
    destruct (EN (Z.to_nat (y - mn)) y) as (c'' & C3 & C4). { rewrite nth_zseq by lia. f_equal. lia. }
    assert (c'' = Some c) by congruence. subst c''.
    destruct (in_dec Z.eq_dec y all) as [I|I]; [|rewrite LOUT in C3 by auto; discriminate].
    destruct (In_nth_error _ _ I) as (i & Hi). destruct (LDAY i y Hi) as (c2 & D1 & D2). destruct (DATE i y Hi) as (g & G1 & G2).
    exists i, g. split; [congruence|]. auto.
Qed.
