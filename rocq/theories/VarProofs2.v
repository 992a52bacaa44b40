(** Proofs about VarModel: Trim, conversion to weeks and to several days. *)
From Verif Require Import ArrModel ArrSpec ArrProofs ArrProofs2 DateProofs FreqModel FreqSpec FreqProofs FreqProofs2 FreqProofs3 FreqProofs4 VarModel VarSpec VarProofs.
From Coq Require Import ZifyBool.
Local Open Scope Z_scope.

Lemma nth_skipn {A} a : forall (d : list A) i, nth_error (skipn a d) i = nth_error d (a + i)%nat.
Proof. induction a as [|a IH]; intros [|x d] i; simpl; auto. destruct i; reflexivity. Qed.
Lemma nth_firstn {A} n : forall (d : list A) i, (i < n)%nat -> nth_error (firstn n d) i = nth_error d i.
Proof. induction n as [|n IH]; intros [|x d] [|i] H; simpl; auto; try lia. apply IH; lia. Qed.

Lemma valid_additive f a i : valid_freq f ->
  exists g h k, next a f = Ok g /\ next i g = Ok h /\ next (a + i) f = Ok k /\ same_date h k /\ to_string h = to_string k.
Proof.
  intros H. unfold same_date. destruct f as [p|b|w|b|l|l]; cbn [valid_freq] in H.
  - exists (FCs (p + a)), (FCs (p + a + i)), (FCs (p + (a + i))). cbn [next]. rewrite !Z.add_assoc. repeat split.
  - destruct (year_steps (FY b) a i H) as (g & h & H1 & H2 & H3 & _). exists g, h, h. auto.
  - pose proof (w_valid_ok w H) as Hok. cbn [next]. rewrite !wb_next_eq by auto. cbn [bind].
    do 3 eexists. split; [reflexivity|]. cbn [next]. rewrite wb_next_eq by (apply wb_shift_ok; auto). cbn [bind].
    split; [reflexivity|]. split; [reflexivity|]. rewrite wb_shift_add by auto. auto.
  - destruct (day_steps (FD b) a i H) as (g & h & H1 & H2 & H3 & _). exists g, h, h. auto.
  - destruct H as (its & H). destruct (list_freq_ok its _ H) as (_ & _ & l' & E & E2 & (j & Hj)). injection E as <-.
    destruct (list_steps its (FLs l) a i j H ltac:(exists its; auto)) as (g & h & h' & k & H1 & H2 & H3 & _ & _ & _ & _ & _ & T & _ & P & _).
    exists g, h, h'. auto.
  - destruct H as (its & H). destruct (list_freq_d_ok its _ H) as (_ & _ & l' & E & E2 & (j & Hj)). injection E as <-.
    destruct (list_steps_d its (FLd l) a i j H ltac:(exists its; auto)) as (g & h & h' & k & H1 & H2 & H3 & _ & _ & _ & _ & _ & T & _ & P & _).
    exists g, h, h'. auto.
Qed.

Theorem trim_exact v : v_data v <> [] -> valid_freq (v_start v) ->
  (exists r v' a b, trim v = Ok (r, v') /\ is_not_valid r = false /\ i_start r = Z.of_nat a /\ i_end r = Z.of_nat b /\
     first_known (v_data v) a /\ last_known (v_data v) b /\
     v_name v' = v_name v /\ v_fields v' = v_fields v /\ List.length (v_data v') = (b - a + 1)%nat /\
     (forall i, (i <= b - a)%nat -> nth_error (v_data v') i = nth_error (v_data v) (a + i)) /\
     (forall i, exists g h, date v' i = Ok g /\ date v (Z.of_nat a + i) = Ok h /\ same_date g h /\ to_string g = to_string h))
  \/ ((forall j, ~ known (v_data v) j) /\ exists r, trim v = Ok (r, v) /\ is_not_valid r = true).
Proof.
  intros Hne Hf. destruct (range_exact (v_data v) Hne) as (r & m & _ & E2 & H). unfold trim. rewrite E2. cbn [bind].
  destruct H as [(a & b & F & L & NV & R1 & R2 & M)|(N & NV & _)].
  2:{ right. split; auto. exists r. rewrite NV. auto. }
  left. rewrite NV, R1, R2.
  assert (AB : (a <= b)%nat) by (apply F; apply L).
  assert (BL : (b < List.length (v_data v))%nat). { destruct L as [[x L] _]. apply nth_error_Some. unfold val in L. congruence. }
  destruct (Z.eqb_spec (Z.of_nat b - Z.of_nat a + 1) (len (v_data v))) as [Q|Q]; cbn [negb].
  - unfold len in Q. assert (a = 0%nat) by lia. subst a.
    exists r, v, 0%nat, b. do 8 (split; [auto|]). split; [lia|]. split.
    { intros i Hi. reflexivity. }
    intros i. cbn [Z.of_nat]. unfold date. destruct (valid_additive (v_start v) i 0 Hf) as (g & _ & _ & E & _).
    exists g, g. rewrite Z.add_0_l. unfold same_date. auto.
  - destruct (valid_additive (v_start v) (Z.of_nat a) 0 Hf) as (g & _ & _ & E & _). rewrite E. cbn [bind].
    replace (Z.of_nat b + 1) with (Z.of_nat (b + 1)) by lia. rewrite slice_nat by lia.
    eexists r, _, a, b. split; [reflexivity|]. cbn [v_set v_name v_fields v_data].
    do 7 (split; [auto|]).
    split. { rewrite firstn_length, skipn_length. lia. }
    split.
    { intros i Hi. rewrite nth_firstn, nth_skipn by lia. reflexivity. }
    intros i. unfold date. cbn [v_set v_start].
    destruct (valid_additive (v_start v) (Z.of_nat a) i Hf) as (g' & h & k & E1 & E3 & E4 & E5 & E6).
    exists h, k. assert (g' = g) by congruence. subst. auto.
Qed.

(** ** Blocks of consecutive days *)
Lemma daily_inv v : is_daily v -> exists f, v_start v = FW f /\ w_class f = kDaily /\ w_multi f = 1 /\ start_day v = w_day f.
Proof.
  intros (H & C). destruct (week_freq_ok _ H) as (f & Hf & E & _). exists f. unfold start_day. rewrite E in *. cbn [class_of] in C.
  repeat split; auto. destruct Hf as [f M _ _ Q|f Q]; [|congruence].
  destruct Q as [[Q _]|[[Q _]|[[Q Q2]|[Q _]]]]; congruence.
Qed.

Lemma values_length v a b : List.length (values v a b) = Z.to_nat (b - a).
Proof. unfold values. rewrite !map_length, seq_length. reflexivity. Qed.

Lemma nth_values v a b i : (i < Z.to_nat (b - a))%nat -> nth_error (values v a b) i = Some (value_on v (a + Z.of_nat i)).
Proof.
  intros H. unfold values. apply map_nth_error. 
  assert (E : nth_error (seq 0 (Z.to_nat (b - a))) i = Some i).
  { rewrite (nth_error_nth' _ 0%nat) by (rewrite seq_length; auto). rewrite seq_nth by auto. reflexivity. }
  rewrite (map_nth_error _ _ _ E). reflexivity.
Qed.

(** A part of the data padded in front with [p] missing values. *)
Lemma block_values v (p b k : nat) : (p = 0 \/ p < k)%nat ->
  firstn k (skipn (b * k) (repeat None p ++ v_data v)) =
  values v (start_day v - Z.of_nat p + Z.of_nat (b * k)) (Z.min (start_day v - Z.of_nat p + Z.of_nat (b * k) + Z.of_nat k) (Z.max (end_day v) (start_day v - Z.of_nat p + Z.of_nat (b * k)))).
Proof.
  intros Hp. set (a := start_day v - Z.of_nat p + Z.of_nat (b * k)).
  assert (L : List.length (firstn k (skipn (b * k) (repeat None p ++ v_data v)))
     = Z.to_nat (Z.min (a + Z.of_nat k) (Z.max (end_day v) a) - a)).
  { rewrite firstn_length, skipn_length, app_length, repeat_length. unfold end_day, a. lia. }
  apply list_ext_nth_error. intros i.
  destruct (le_lt_dec (List.length (firstn k (skipn (b * k) (repeat None p ++ v_data v)))) i) as [Q|Q].
  - rewrite (proj2 (nth_error_None _ _) Q). symmetry. apply nth_error_None. rewrite values_length. lia.
  - rewrite nth_values by lia. assert (i < k)%nat by (rewrite firstn_length in Q; lia).
    rewrite nth_firstn, nth_skipn by auto. unfold value_on.
    replace (a + Z.of_nat i - start_day v) with (Z.of_nat (b * k + i) - Z.of_nat p) by (unfold a; lia).
    destruct (Z.ltb_spec (Z.of_nat (b * k + i) - Z.of_nat p) 0) as [W|W].
    + rewrite nth_error_app1 by (rewrite repeat_length; lia). apply nth_error_repeat_lt. lia.
    + rewrite nth_rep by lia. replace (Z.to_nat (Z.of_nat (b * k + i) - Z.of_nat p)) with (b * k + i - p)%nat by lia.
      destruct (nth_error (v_data v) (b * k + i - p)) eqn:E; auto.
      exfalso. apply nth_error_None in E. rewrite L in Q. unfold end_day, a in Q. lia.
Qed.

Lemma wb_make_days d mu : wb_make d false None true mu =
  Ok {| w_day := d; w_range := rng0; w_fwd := 0; w_multi := mu; w_class := if mu =? 1 then kDaily else kMultiDaily |}.
Proof. reflexivity. Qed.

(** Result of blocking days by [k] after padding with [p] missing values. *)
Lemma blocks_exact v (agg : aggregate) (p : nat) (k : Z) : 1 <= k -> Z.of_nat p < k ->
  exists q, partition_equal (repeat None p ++ v_data v) k false = Ok q /\
    Z.of_nat (List.length q) = (Z.of_nat p + len (v_data v) + k - 1) / k /\
    forall b, (b < List.length q)%nat ->
      nth_error (map agg q) b = Some (agg (values v (start_day v - Z.of_nat p + Z.of_nat b * k)
          (Z.min (start_day v - Z.of_nat p + Z.of_nat b * k + k) (end_day v)))).
Proof.
  intros Hk Hp. destruct (partition_forward_blocks (repeat None p ++ v_data v) k Hk) as (q & E1 & E2 & E3).
  assert (EL : Z.of_nat (List.length q) = (Z.of_nat p + len (v_data v) + k - 1) / k).
  { rewrite E2, app_length, repeat_length, Nat2Z.inj_div, Z2Nat.id by lia. unfold len. f_equal. lia. }
  exists q. split; auto. split; auto. intros b Hb. rewrite (map_nth_error agg _ _ (E3 b Hb)). f_equal. f_equal.
  rewrite block_values by lia.
  assert (B : Z.of_nat b * k < Z.of_nat p + len (v_data v)).
  { assert (Z.of_nat b * k < Z.of_nat (List.length q) * k) by nia. rewrite EL in H.
    pose proof (Z.mul_div_le (Z.of_nat p + len (v_data v) + k - 1) k ltac:(lia)).
    assert (Z.of_nat b <= (Z.of_nat p + len (v_data v) + k - 1) / k - 1) by lia. nia. }
  replace (Z.of_nat (b * Z.to_nat k)) with (Z.of_nat b * k) by lia. rewrite Z2Nat.id by lia.
  rewrite Z.max_l by (unfold end_day, len in *; lia). reflexivity.
Qed.

(** C16, forward. *)
Theorem multi_daily_forward result v k agg : is_daily v -> 1 <= k ->
  exists w, to_multi_daily result v k (Some agg) false = Ok w /\ v_name w = v_name v /\ week_freq (v_start w) /\
    start_day w = start_day v /\ Z.of_nat (List.length (v_data w)) = (len (v_data v) + k - 1) / k /\
    forall b, (b < List.length (v_data w))%nat -> exists g, date w (Z.of_nat b) = Ok g /\
      nth_error (v_data w) b = Some (agg (values v (day_of g) (Z.min (day_of g + k) (end_day v)))).
Proof.
  intros Hd Hk. destruct (daily_inv v Hd) as (f & E1 & E2 & E3 & E4). unfold to_multi_daily. rewrite E1, E2.
  destruct (blocks_exact v agg 0 k Hk ltac:(lia)) as (q & Q1 & Q2 & Q3). cbn [repeat app] in Q1. rewrite Q1. cbn [bind].
  rewrite wb_make_days. cbn [bind]. eexists. split; [reflexivity|]. cbn [converted v_name v_data v_start].
  set (w := {| w_day := w_day f; w_range := rng0; w_fwd := 0; w_multi := k; w_class := if k =? 1 then kDaily else kMultiDaily |}).
  assert (Hw : week_freq (FW w)). { exists (w_day f), false, k, w. auto. }
  split; auto. split; auto. split. { unfold start_day at 1. cbn [v_start day_of]. unfold w. cbn [w_day]. auto. }
  rewrite map_length. split. { etransitivity; [exact Q2|]. f_equal. }
  intros b Hb. unfold date. cbn [v_start].
  destruct (week_steps (FW w) (Z.of_nat b) 0 Hw) as (g & _ & G1 & _ & _ & _ & _ & _ & _ & _ & G2).
  exists g. split; auto. rewrite Q3 by auto. do 2 f_equal.
  assert (S : step_days (FW w) = k). { unfold step_days, w. cbn [class_of w_class w_multi]. destruct (k =? 1); reflexivity. }
  rewrite G2, S. cbn [day_of]. unfold w. cbn [w_day]. rewrite E4. cbn [Z.of_nat]. rewrite Z.sub_0_r. reflexivity.
Qed.

(** C19. *)
Theorem weekly_exact result v firstDay agg : is_daily v -> dow_ok firstDay ->
  exists w, to_weekly result v firstDay (Some agg) = Ok w /\ v_name w = v_name v /\ week_freq (v_start w) /\ class_of (v_start w) = kWeekly /\
    start_day v - 7 < start_day w <= start_day v /\ dow (start_day w) = firstDay /\
    (v_data v <> [] -> start_day w + 7 * (Z.of_nat (List.length (v_data w)) - 1) < end_day v <= start_day w + 7 * Z.of_nat (List.length (v_data w))) /\
    forall b, (b < List.length (v_data w))%nat -> exists g, date w (Z.of_nat b) = Ok g /\ day_of g = start_day w + 7 * Z.of_nat b /\
      nth_error (v_data w) b = Some (agg (values v (day_of g) (Z.min (day_of g + 7) (end_day v)))).
Proof.
  intros Hd Hk. destruct (daily_inv v Hd) as (f & E1 & E2 & E3 & E4). unfold to_weekly. rewrite E1, E2. cbv zeta.
  rewrite distance_fwd by (auto using dow_dow_ok).
  set (diff := (dow (w_day f) - firstDay) mod 7).
  pose proof (Z.mod_pos_bound (dow (w_day f) - firstDay) 7 ltac:(lia)) as DB. fold diff in DB.
  replace (if diff =? 0 then v_data v else repeat None (Z.to_nat diff) ++ v_data v) with (repeat None (Z.to_nat diff) ++ v_data v).
  2:{ destruct (Z.eqb_spec diff 0) as [-> |]; reflexivity. }
  destruct (blocks_exact v agg (Z.to_nat diff) 7 ltac:(lia) ltac:(lia)) as (q & Q1 & Q2 & Q3). rewrite Q1. cbn [bind].
  set (w := {| w_day := w_day f - diff; w_range := rng0; w_fwd := 0; w_multi := 1; w_class := kWeekly |}).
  change (wb_make (w_day f - diff) true None true 1) with (Ok w). cbn [bind].
  assert (Hw : week_freq (FW w)). { exists (w_day f - diff), true, 1, w. split; [lia|]. split; reflexivity. }
  assert (SD : start_day (converted result v (map agg q) (FW w)) = start_day v - diff).
  { unfold start_day at 1. cbn [converted v_start day_of]. unfold w. cbn [w_day]. lia. }
  assert (LQ : List.length (v_data (converted result v (map agg q) (FW w))) = List.length q) by apply map_length.
  exists (converted result v (map agg q) (FW w)). rewrite SD, LQ.
  split; auto. split; auto. split; [exact Hw|]. split; [reflexivity|]. split; [lia|].
  split. { rewrite E4. replace (w_day f - diff) with (w_day f + - diff) by lia. rewrite dow_add. unfold diff.
    pose proof (dow_dow_ok (w_day f)) as DD. unfold dow_ok in *. clear -Hk DD.
    pose proof (Z.div_mod (dow (w_day f) - firstDay) 7 ltac:(lia)).
    symmetry. apply (Z.mod_unique_pos _ _ ((dow (w_day f) - firstDay) / 7)); lia. }
  rewrite Z2Nat.id in * by lia. unfold end_day.
  split. { intros Hne. assert (0 < len (v_data v)) by (unfold len; destruct (v_data v); [congruence|simpl; lia]).
    pose proof (Z.div_mod (diff + len (v_data v) + 7 - 1) 7 ltac:(lia)). pose proof (Z.mod_pos_bound (diff + len (v_data v) + 7 - 1) 7 ltac:(lia)).
    unfold len in *. lia. }
  intros b Hb. unfold date. cbn [converted v_start v_data].
  destruct (week_steps (FW w) (Z.of_nat b) 0 Hw) as (g & _ & G1 & _ & _ & _ & _ & _ & _ & _ & G2).
  assert (G3 : day_of g = start_day v - diff + 7 * Z.of_nat b).
  { rewrite G2. unfold step_days, w. cbn [class_of w_class w_multi day_of w_day]. lia. }
  exists g. split; auto. split; auto. etransitivity; [apply Q3; auto|]. rewrite G3. do 2 f_equal.
  replace (Z.of_nat b * 7) with (7 * Z.of_nat b) by lia. reflexivity.
Qed.
