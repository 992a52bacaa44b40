(** Weekly, daily, daily-in-week and day-based frequencies: the properties. *)
From Verif Require Import StrModel StrProofs DateProofs FreqModel FreqSpec FreqProofs FreqProofs2.
From Coq Require Import ZifyBool.
Local Open Scope Z_scope.

Lemma wb_same_eq a b : wb_same a b = true -> w_class a = w_class b /\ w_multi a = w_multi b /\ w_range a = w_range b.
Proof.
  unfold wb_same. rewrite !andb_true_iff. intros ((H1 & H2) & H3). apply fclass_eqb_eq in H1. apply Z.eqb_eq in H2.
  destruct (rng_eq_dec (w_range a) (w_range b)); [auto|discriminate].
Qed.
Lemma wb_same_mk a b : w_class a = w_class b -> w_multi a = w_multi b -> w_range a = w_range b -> wb_same a b = true.
Proof.
  intros H1 H2 H3. unfold wb_same. rewrite H1, H2, H3, (proj2 (fclass_eqb_eq _ _) eq_refl), Z.eqb_refl.
  destruct (rng_eq_dec (w_range b) (w_range b)); [reflexivity|congruence].
Qed.
Lemma wb_same_sym a b : wb_same a b = true -> wb_same b a = true.
Proof. intros H. apply wb_same_eq in H. apply wb_same_mk; intuition congruence. Qed.
Lemma wb_same_string a b : wb_same a b = true -> wb_class_string a = wb_class_string b.
Proof. intros H. apply wb_same_eq in H. destruct H as (H1 & H2 & H3). unfold wb_class_string. rewrite H1, H2, H3. reflexivity. Qed.

Definition is_single (w : wb) : bool := fclass_eqb (w_class w) kDailyInWeek && (r_start (w_range w) =? r_end (w_range w)).

Lemma wb_pair a b k : wb_ok b -> wb_same a b = true -> w_day a = wb_shift b k ->
  wb_minus a b = Ok (if is_single b then 8 * k else k) /\ wb_cmp a b = Z.sgn k /\
  wb_minus b a = Ok (if is_single b then 8 * - k else - k) /\ wb_cmp b a = Z.sgn (- k).
Proof.
  intros Hb HS Hd. apply wb_same_eq in HS. destruct HS as (H1 & H2 & H3).
  assert (E0 := wb_shift_0 b Hb).
  assert (M : forall x y, wb_ok b -> wb_minus (wb_set b (wb_shift b x)) (wb_set b (wb_shift b y)) = Ok (if is_single b then 8 * (x - y) else x - y)).
  { intros x y _. rewrite wb_minus_shift by auto. reflexivity. }
  split; [|split; [|split]].
  - transitivity (wb_minus (wb_set b (wb_shift b k)) (wb_set b (wb_shift b 0))).
    + unfold wb_minus. cbn [wb_set w_class w_day w_multi w_range]. rewrite H1, H2, H3, Hd, E0. reflexivity.
    + rewrite M by auto. rewrite Z.sub_0_r. reflexivity.
  - transitivity (wb_cmp (wb_set b (wb_shift b k)) (wb_set b (wb_shift b 0))).
    + unfold wb_cmp. cbn [wb_set w_day]. rewrite Hd, E0. reflexivity.
    + rewrite wb_cmp_shift by auto. f_equal. lia.
  - transitivity (wb_minus (wb_set b (wb_shift b 0)) (wb_set b (wb_shift b k))).
    + unfold wb_minus. cbn [wb_set w_class w_day w_multi w_range]. rewrite <- H2, Hd, E0, H2. reflexivity.
    + rewrite M by auto. do 2 f_equal.
  - transitivity (wb_cmp (wb_set b (wb_shift b 0)) (wb_set b (wb_shift b k))).
    + unfold wb_cmp. cbn [wb_set w_day]. rewrite Hd, E0. reflexivity.
    + rewrite wb_cmp_shift by auto. reflexivity.
Qed.

Lemma wb_ok_plain b : wb_ok b -> w_class b <> kDailyInWeek -> w_range b = rng0 /\ w_fwd b = 0.
Proof. intros [x Hm Hr Hf Hc|x Hc Hm Hr Hi] H; auto. contradiction. Qed.
Lemma wb_eq a b : w_day a = w_day b -> w_range a = w_range b -> w_fwd a = w_fwd b -> w_multi a = w_multi b ->
  w_class a = w_class b -> a = b.
Proof. destruct a, b; simpl; intros; subst; reflexivity. Qed.

(** ** Weekly and daily *)
Lemma week_of_ok b : wb_ok b -> w_class b <> kDailyInWeek -> week_freq (FW b).
Proof.
  intros H Hc. destruct H as [b Hm Hr Hf Hcl|b Hcl Hm Hr Hin]; [|contradiction].
  destruct b as [d r fw mu cl]. cbn [w_day w_range w_fwd w_multi w_class] in *. subst r fw.
  destruct Hcl as [[-> ->]|[[-> E]|[[-> ->]|[-> E]]]].
  - exists d, true, 1, {| w_day := d; w_range := rng0; w_fwd := 0; w_multi := 1; w_class := kWeekly |}. auto with zarith.
  - exists d, true, mu. eexists. split; [auto|]. split; [|reflexivity]. unfold wb_make. cbv zeta.
    replace (mu =? 1) with false by lia. reflexivity.
  - exists d, false, 1, {| w_day := d; w_range := rng0; w_fwd := 0; w_multi := 1; w_class := kDaily |}. auto with zarith.
  - exists d, false, mu. eexists. split; [auto|]. split; [|reflexivity]. unfold wb_make. cbv zeta.
    replace (mu =? 1) with false by lia. reflexivity.
Qed.

Lemma step_days_shift b n : wb_ok b -> w_class b <> kDailyInWeek ->
  wb_shift b n = w_day b + n * step_days (FW b) /\ 1 <= step_days (FW b).
Proof.
  intros H Hc. unfold wb_shift, step_days. cbn [class_of]. destruct H as [b Hm Hr Hf Hcl|b Hcl Hm Hr Hin]; [|contradiction].
  destruct Hcl as [[-> E]|[[-> E]|[[-> E]|[-> E]]]]; split; lia.
Qed.

Lemma check_same a b : wb_ok a -> wb_ok b -> wb_same a b = true -> check_class (FW a) (FW b) = Ok tt.
Proof. intros Ha Hb H. rewrite check_fw, wb_check_eq by auto. rewrite H. reflexivity. Qed.

Lemma not_single_dec b : w_class b <> kDailyInWeek -> is_single b = false.
Proof. intros H. unfold is_single. destruct (fclass_eqb (w_class b) kDailyInWeek) eqn:E; auto. apply fclass_eqb_eq in E. contradiction. Qed.

Theorem week_steps f n m : week_freq f ->
  exists g h, next n f = Ok g /\ next m g = Ok h /\ next (n + m) f = Ok h /\ next 0 f = Ok f /\
    next (- n) g = Ok f /\ minus g f = Ok n /\ week_freq g /\ week_grid g f /\ day_of g = day_of f + n * step_days f.
Proof.
  intros Hf. destruct (week_freq_ok f Hf) as (b & Hb & -> & Hc).
  assert (Hok := wb_shift_ok n b Hb). assert (H0 := wb_shift_0 b Hb).
  exists (FW (wb_set b (wb_shift b n))), (FW (wb_set b (wb_shift b (n + m)))).
  cbn [next]. rewrite !wb_next_eq by auto. cbn [bind]. rewrite !wb_shift_add by auto. cbn [wb_set w_day w_range w_fwd w_multi w_class].
  split; [reflexivity|]. split; [reflexivity|]. split; [reflexivity|].
  split. { rewrite H0, wb_set_same. reflexivity. }
  split. { rewrite Z.add_opp_diag_r, H0. change (Ok (FW (wb_set b (w_day b))) = Ok (FW b)). rewrite wb_set_same. reflexivity. }
  destruct (wb_pair (wb_set b (wb_shift b n)) b n Hb) as (P1 & _); [apply wb_same_mk; reflexivity|reflexivity|].
  rewrite not_single_dec in P1 by auto. destruct (step_days_shift b n Hb Hc) as (S1 & S2).
  split; [|split; [|split]].
  - unfold minus. rewrite check_same; auto. apply wb_same_mk; reflexivity.
  - apply week_of_ok; auto.
  - unfold week_grid. cbn [wb_set w_class w_multi w_day]. split; auto. split; auto.
    change (step_days (FW (wb_set b (wb_shift b n)))) with (step_days (FW b)). rewrite S1. exists n. lia.
  - cbn [day_of wb_set w_day]. auto.
Qed.

Lemma wrappers f g d : compare f g = Ok (Z.sgn d) ->
  is_equal f g = Ok (d =? 0) /\ is_newer f g = Ok (0 <? d) /\ is_older f g = Ok (d <? 0) /\
  is_equal_or_newer f g = Ok (0 <=? d) /\ is_equal_or_older f g = Ok (d <=? 0).
Proof.
  intros H. unfold is_equal, is_newer, is_older, is_equal_or_newer, is_equal_or_older. rewrite H. cbn [bind].
  repeat split; f_equal; lia.
Qed.

Theorem week_order f g : week_freq f -> week_freq g -> week_grid f g ->
  exists d, minus f g = Ok d /\ minus g f = Ok (- d) /\ day_of f - day_of g = d * step_days f /\
    compare f g = Ok (Z.sgn (day_of f - day_of g)) /\ (d = 0 <-> f = g) /\
    is_equal f g = Ok (d =? 0) /\ is_newer f g = Ok (0 <? d) /\ is_older f g = Ok (d <? 0) /\
    is_equal_or_newer f g = Ok (0 <=? d) /\ is_equal_or_older f g = Ok (d <=? 0).
Proof.
  intros Hf Hg HG. destruct (week_freq_ok f Hf) as (a & Ha & -> & Hca). destruct (week_freq_ok g Hg) as (b & Hb & -> & Hcb).
  destruct HG as (G1 & G2 & (d & G3)).
  destruct (wb_ok_plain a Ha Hca) as (Ra & Fa). destruct (wb_ok_plain b Hb Hcb) as (Rb & Fb).
  assert (HS : wb_same a b = true) by (apply wb_same_mk; congruence).
  destruct (step_days_shift b d Hb Hcb) as (S1 & S2).
  assert (ES : step_days (FW a) = step_days (FW b)). { unfold step_days. cbn [class_of]. rewrite G1, G2. reflexivity. }
  rewrite ES in *.
  destruct (wb_pair a b d Hb HS) as (P1 & P2 & P3 & P4). { rewrite S1. lia. }
  rewrite not_single_dec in P1, P3 by auto.
  assert (HC : compare (FW a) (FW b) = Ok (Z.sgn d)). { unfold compare. rewrite check_same by auto. cbn [bind]. rewrite P2. reflexivity. }
  exists d. split. { unfold minus. rewrite check_same by auto. exact P1. }
  split. { unfold minus. rewrite check_same by (auto using wb_same_sym). exact P3. }
  cbn [day_of]. split; [exact G3|].
  split. { rewrite HC, G3. f_equal. rewrite Z.sgn_mul. rewrite (Z.sgn_pos (step_days (FW b))) by lia. lia. }
  split. { split.
    - intros ->. f_equal. apply wb_eq; try congruence. lia.
    - intros E. injection E as ->. nia. }
  apply wrappers. exact HC.
Qed.

Theorem week_minus_additive f g h : week_freq f -> week_freq g -> week_freq h -> week_grid f g -> week_grid g h ->
  exists a b, minus f g = Ok a /\ minus g h = Ok b /\ minus f h = Ok (a + b).
Proof.
  intros Hf Hg Hh G1 G2.
  assert (G3 : week_grid f h).
  { destruct (week_freq_ok f Hf) as (a & _ & -> & _). destruct (week_freq_ok g Hg) as (b & _ & -> & _).
    destruct (week_freq_ok h Hh) as (c & _ & -> & _). destruct G1 as (A1 & A2 & A3). destruct G2 as (B1 & B2 & B3).
    split; [congruence|]. split; [congruence|].
    replace (step_days (FW b)) with (step_days (FW a)) in B3 by (unfold step_days; cbn [class_of]; rewrite A1, A2; reflexivity).
    replace (w_day a - w_day c) with ((w_day a - w_day b) + (w_day b - w_day c)) by lia. apply Z.divide_add_r; auto. }
  destruct (week_order f g Hf Hg G1) as (x & X1 & _ & X2 & _). destruct (week_order g h Hg Hh G2) as (y & Y1 & _ & Y2 & _).
  destruct (week_order f h Hf Hh G3) as (z & Z1 & _ & Z2 & _).
  exists x, y. split; auto. split; auto. rewrite Z1. f_equal.
  destruct (week_freq_ok f Hf) as (a & Ha & -> & Ca). destruct (week_freq_ok g Hg) as (b & _ & -> & _).
  destruct G1 as (A1 & A2 & _). replace (step_days (FW b)) with (step_days (FW a)) in Y2 by (unfold step_days; cbn [class_of]; rewrite A1, A2; reflexivity).
  destruct (step_days_shift a 0 Ha Ca) as (_ & S). nia.
Qed.

(** ** Daily-in-week *)
Lemma dw_freq_ok r f : dw_freq r f -> rng_ok r /\ exists b, wb_ok b /\ f = FW b /\ w_class b = kDailyInWeek /\ w_range b = r.
Proof.
  intros (day & fw & b & n & Hr & Hm & Hn). split; auto.
  destruct (dw_make r day fw Hr) as (b' & Hm' & Hb & R1 & C1 & _). rewrite Hm in Hm'. injection Hm' as <-.
  cbn [next] in Hn. rewrite wb_next_eq in Hn by auto. cbn [bind] in Hn. injection Hn as <-.
  exists (wb_set b (wb_shift b n)). split; [apply wb_shift_ok; auto|]. auto.
Qed.

Lemma dw_freq_next r f n : dw_freq r f -> exists g, next n f = Ok g /\ dw_freq r g.
Proof.
  intros H. assert (H0 := H). destruct H0 as (day & fw & b & m & Hr & Hm & Hn).
  destruct (dw_make r day fw Hr) as (b' & Hm' & Hb & R1 & C1 & _). rewrite Hm in Hm'. injection Hm' as <-.
  cbn [next] in Hn. rewrite wb_next_eq in Hn by auto. cbn [bind] in Hn. injection Hn as <-.
  assert (Hok := wb_shift_ok m b Hb).
  cbn [next]. rewrite wb_next_eq by auto. cbn [bind]. eexists. split; [reflexivity|].
  exists day, fw, b, (m + n). split; auto. split; auto. cbn [next]. rewrite wb_next_eq by auto. cbn [bind].
  rewrite wb_shift_add by auto. reflexivity.
Qed.

Lemma dw_day_inside r o : rng_ok r -> inside r (dow (dw_day r o)).
Proof. intros H. apply inside_b; [apply dow_dow_ok|]. apply dw_day_ord; auto. Qed.

Lemma dw_day_next r o : rng_ok r -> next_inside r (dw_day r o) (dw_day r (o + 1)) /\ prev_inside r (dw_day r (o + 1)) (dw_day r o).
Proof.
  intros Hr. destruct (dw_day_ord r o Hr) as (A & B). destruct (dw_day_ord r (o + 1) Hr) as (A' & B').
  assert (dw_day r o < dw_day r (o + 1)) by (rewrite (dw_ord_mono r) by auto; lia).
  assert (HN : forall x, dw_day r o < x < dw_day r (o + 1) -> ~ inside r (dow x)).
  { intros x Hx HI. apply inside_b in HI; [|apply dow_dow_ok]. destruct Hx as [X1 X2].
    rewrite (dw_ord_mono r) in X1, X2 by auto. lia. }
  split; (split; [lia|split; [apply dw_day_inside; auto|auto]]).
Qed.

Lemma dw_visits r o n : rng_ok r -> visits r (dw_day r o) n (dw_day r (o + n)).
Proof.
  intros Hr. destruct (Z.le_gt_cases 0 n) as [H|H].
  - revert n H. apply (natlike_ind (fun n => visits r (dw_day r o) n (dw_day r (o + n)))).
    + rewrite Z.add_0_r. constructor.
    + intros n Hn IH. rewrite <- Z.add_1_r. eapply visits_fwd; [auto|exact IH|]. rewrite Z.add_assoc. apply dw_day_next; auto.
  - assert (HP : forall k, 0 <= k -> visits r (dw_day r o) (- k) (dw_day r (o - k))).
    { apply natlike_ind.
      - rewrite Z.sub_0_r. constructor.
      - intros k Hk IH. replace (- Z.succ k) with (- k - 1) by lia. eapply visits_bwd; [lia|exact IH|].
        replace (o - k) with (o - Z.succ k + 1) by lia. apply dw_day_next; auto. }
    specialize (HP (- n) ltac:(lia)). rewrite Z.opp_involutive in HP. replace (o - - n) with (o + n) in HP by lia. exact HP.
Qed.

Theorem dw_steps r f n m : dw_freq r f ->
  exists g h, next n f = Ok g /\ next m g = Ok h /\ next (n + m) f = Ok h /\ next 0 f = Ok f /\ next (- n) g = Ok f /\
    dw_freq r g /\ inside r (dow (day_of g)) /\ visits r (day_of f) n (day_of g) /\
    (r_start r <> r_end r -> minus g f = Ok n).
Proof.
  intros Hf. destruct (dw_freq_next r f n Hf) as (g & Hg & Dg). destruct (dw_freq_ok r f Hf) as (Hr & b & Hb & -> & Hc & R).
  assert (Hok := wb_shift_ok n b Hb). assert (H0 := wb_shift_0 b Hb).
  exists g, (FW (wb_set b (wb_shift b (n + m)))). split; auto.
  cbn [next] in Hg. rewrite wb_next_eq in Hg by auto. cbn [bind] in Hg. injection Hg as <-.
  cbn [next]. rewrite !wb_next_eq by auto. cbn [bind]. rewrite !wb_shift_add by auto.
  split; [reflexivity|]. split; [reflexivity|].
  split. { rewrite H0, wb_set_same. reflexivity. }
  split. { rewrite Z.add_opp_diag_r, H0. rewrite wb_set_set, wb_set_same. reflexivity. }
  split; auto. cbn [day_of wb_set w_day].
  assert (ED : wb_shift b n = dw_day r (dw_ord r (w_day b) + n)). { unfold wb_shift. rewrite Hc, R. reflexivity. }
  assert (E0 : w_day b = dw_day r (dw_ord r (w_day b))). { rewrite <- H0 at 1. unfold wb_shift. rewrite Hc, R, Z.add_0_r. reflexivity. }
  split. { rewrite ED. apply dw_day_inside; auto. }
  split. { rewrite ED. rewrite E0 at 1. apply dw_visits; auto. }
  intros Hne. destruct (wb_pair (wb_set b (wb_shift b n)) b n Hb) as (P1 & _); [apply wb_same_mk; reflexivity|reflexivity|].
  unfold minus. rewrite check_same; auto; [|apply wb_same_mk; reflexivity]. cbn [bind]. rewrite P1. unfold is_single. rewrite R.
  replace (r_start r =? r_end r) with false by lia. rewrite andb_false_r. reflexivity.
Qed.

Theorem dw_order r f g : dw_freq r f -> dw_freq r g ->
  exists d h, next d g = Ok h /\ day_of h = day_of f /\ compare f g = Ok (Z.sgn (day_of f - day_of g)) /\ (d = 0 <-> day_of f = day_of g) /\
    (r_start r <> r_end r -> minus f g = Ok d /\ minus g f = Ok (- d)).
Proof.
  intros Hf Hg. destruct (dw_freq_ok r f Hf) as (Hr & a & Ha & -> & Hca & Ra). destruct (dw_freq_ok r g Hg) as (_ & b & Hb & -> & Hcb & Rb).
  set (d := dw_ord r (w_day a) - dw_ord r (w_day b)).
  assert (Ma : w_multi a = 1) by (destruct Ha as [x ? ? ? Hx|x]; auto; destruct Hx as [[X _]|[[X _]|[[X _]|[X _]]]]; congruence).
  assert (Mb : w_multi b = 1) by (destruct Hb as [x ? ? ? Hx|x]; auto; destruct Hx as [[X _]|[[X _]|[[X _]|[X _]]]]; congruence).
  assert (HS : wb_same a b = true) by (apply wb_same_mk; congruence).
  assert (Ia : insideb r (dow (w_day a)) = true).
  { destruct Ha as [x ? ? ? Hx|x ? ? ? Hi]; [destruct Hx as [[X _]|[[X _]|[[X _]|[X _]]]]; congruence|]. rewrite <- Ra. exact Hi. }
  assert (HD : w_day a = wb_shift b d).
  { unfold wb_shift. rewrite Hcb, Rb. replace (dw_ord r (w_day b) + d) with (dw_ord r (w_day a)) by (unfold d; lia).
    destruct (dw_day_ord r (dw_ord r (w_day a)) Hr). apply (dw_ord_inj r); auto. }
  destruct (wb_pair a b d Hb HS HD) as (P1 & P2 & P3 & P4).
  exists d, (FW (wb_set b (wb_shift b d))). cbn [next]. rewrite wb_next_eq by auto. split; [reflexivity|].
  cbn [day_of wb_set w_day]. split; auto.
  assert (H0 := wb_shift_0 b Hb). assert (HM1 := wb_shift_mono b d 0 Hb). assert (HM2 := wb_shift_mono b 0 d Hb). rewrite H0, <- HD in HM1, HM2.
  split. { unfold compare. rewrite check_same by auto. cbn [bind]. rewrite P2. f_equal. lia. }
  split; [lia|]. intros Hne. unfold is_single in P1, P3. rewrite Rb in P1, P3.
  replace (r_start r =? r_end r) with false in P1, P3 by lia. rewrite andb_false_r in P1, P3.
  unfold minus. rewrite !check_same by (auto using wb_same_sym). auto.
Qed.

Theorem dw_constructor r day forward : rng_ok r ->
  exists b, wb_make day false (Some r) forward 1 = Ok b /\ dw_freq r (FW b) /\
    (inside r (dow day) -> w_day b = day) /\
    (~ inside r (dow day) -> if forward : bool then next_inside r day (w_day b) else prev_inside r day (w_day b)).
Proof.
  intros Hr. destruct (dw_make r day forward Hr) as (b & Hm & Hb & R & C & H1 & H2).
  exists b. split; auto. split; auto. exists day, forward, b, 0. split; auto. split; auto.
  cbn [next]. rewrite wb_next_eq by auto. cbn [bind]. rewrite wb_shift_0, wb_set_same by auto. reflexivity.
Qed.

(** For a one-day range Minus is eight times the number of steps. *)
Theorem dw_single_wrong r f n : dw_freq r f -> r_start r = r_end r ->
  exists g, next n f = Ok g /\ minus g f = Ok (8 * n).
Proof.
  intros Hf Hs. destruct (dw_freq_ok r f Hf) as (Hr & b & Hb & -> & Hc & R).
  assert (Hok := wb_shift_ok n b Hb).
  cbn [next]. rewrite wb_next_eq by auto. eexists. split; [reflexivity|].
  destruct (wb_pair (wb_set b (wb_shift b n)) b n Hb) as (P1 & _); [apply wb_same_mk; reflexivity|reflexivity|].
  unfold minus. rewrite check_same; auto; [|apply wb_same_mk; reflexivity]. cbn [bind]. rewrite P1. unfold is_single. rewrite R, Hc, Hs, Z.eqb_refl. reflexivity.
Qed.

(** ** Day-based *)
Definition db_ok (f : db) : Prop := wb_ok (h_day f) /\ 1 <= h_pos f <= h_part f /\
  h_class f = if h_part f =? 24 then kHourly else if h_part f =? 1440 then kMinutely
                else if h_part f =? 86400 then kSecondly else kXTimesADay.

Lemma db_make_inv w p q b : db_make w p q = Ok b <-> 1 <= q <= p /\ b = {| h_day := w; h_part := p; h_pos := q;
   h_class := if p =? 24 then kHourly else if p =? 1440 then kMinutely else if p =? 86400 then kSecondly else kXTimesADay |}.
Proof.
  unfold db_make. destruct (p <=? 0) eqn:E1. { split; [discriminate|intros []; lia]. }
  destruct (q <=? 0) eqn:E2. { split; [discriminate|intros []; lia]. }
  destruct (p <? q) eqn:E3. { split; [discriminate|intros []; lia]. }
  split. { intros H; injection H as <-. split; [lia|reflexivity]. } intros (_ & ->). reflexivity.
Qed.

Definition w_valid (w : wb) : Prop := week_freq (FW w) \/ exists r, dw_freq r (FW w).
Lemma w_valid_ok w : w_valid w -> wb_ok w.
Proof.
  intros [H|(r & H)].
  - destruct (week_freq_ok _ H) as (b & Hb & E & _). injection E as ->. auto.
  - destruct (dw_freq_ok _ _ H) as (_ & b & Hb & E & _). injection E as ->. auto.
Qed.
Lemma w_valid_shift w n : w_valid w -> w_valid (wb_set w (wb_shift w n)).
Proof.
  intros H. assert (Hb := w_valid_ok w H). destruct H as [H|(r & H)].
  - left. destruct (week_steps (FW w) n 0 H) as (g & _ & Hg & _ & _ & _ & _ & _ & HW & _).
    cbn [next] in Hg. rewrite wb_next_eq in Hg by auto. injection Hg as <-. auto.
  - right. exists r. destruct (dw_freq_next r _ n H) as (g & Hg & HD).
    cbn [next] in Hg. rewrite wb_next_eq in Hg by auto. injection Hg as <-. auto.
Qed.

Lemma day_freq_ok f : day_freq f <-> exists b, w_valid (h_day b) /\ db_ok b /\ f = FD b.
Proof.
  split.
  - intros (w & p & q & b & Hw & Hm & ->). apply db_make_inv in Hm. destruct Hm as (Hq & ->).
    eexists. split; [|split; [|reflexivity]]; [exact Hw|]. split; [apply w_valid_ok; exact Hw|]. simpl. auto.
  - intros (b & Hv & (Hw & Hp & Hc) & ->). exists (h_day b), (h_part b), (h_pos b), b.
    split; auto. split; auto. apply db_make_inv. split; auto. destruct b; simpl in *. subst. reflexivity.
Qed.

Definition db_shift (f : db) (n : Z) : db :=
  db_set f (wb_set (h_day f) (wb_shift (h_day f) ((h_pos f - 1 + n) / h_part f))) ((h_pos f - 1 + n) mod h_part f + 1).

Lemma db_next_eq n f : db_ok f -> db_next n f = Ok (db_shift f n).
Proof.
  intros (Hw & H & _). unfold db_next, db_shift. set (P := h_part f) in *. set (p := h_pos f) in *.
  assert (HA : Z.abs n = P * Z.quot (Z.abs n) P + Z.rem (Z.abs n) P) by (apply Z.quot_rem'; lia).
  assert (HB : 0 <= Z.rem (Z.abs n) P < P) by (apply Z.rem_bound_pos; lia).
  set (q := Z.quot (Z.abs n) P) in *. set (m := Z.rem (Z.abs n) P) in *.
  assert (HK : forall k x, n = P * k + x -> forall j, 1 <= p + x + j * P <= P ->
     (p - 1 + n) / P = k - j /\ (p - 1 + n) mod P + 1 = p + x + j * P).
  { intros k x Hn j Hj. replace (p - 1 + n) with ((p - 1 + x + j * P) + (k - j) * P) by lia.
    rewrite Z.div_add, Z.mod_add by lia. rewrite Z.div_small, Z.mod_small by lia. lia. }
  assert (HE : forall a a' x x', a = a' -> x = x' ->
     Ok (db_set f (wb_set (h_day f) (wb_shift (h_day f) a)) x) = Ok (db_set f (wb_set (h_day f) (wb_shift (h_day f) a')) x')).
  { intros; subst; reflexivity. }
  destruct (0 <? n) eqn:E.
  - destruct (P <? p + m) eqn:E2.
    + rewrite wb_next_eq by auto. cbn [bind]. destruct (HK q m ltac:(lia) (-1) ltac:(lia)) as (-> & ->).
      apply HE; lia.
    + rewrite wb_next_eq by auto. cbn [bind]. destruct (HK q m ltac:(lia) 0 ltac:(lia)) as (-> & ->).
      apply HE; lia.
  - destruct (p - m <=? 0) eqn:E2.
    + rewrite wb_next_eq by auto. cbn [bind]. destruct (HK (- q) (- m) ltac:(lia) 1 ltac:(lia)) as (-> & ->).
      apply HE; lia.
    + rewrite wb_next_eq by auto. cbn [bind]. destruct (HK (- q) (- m) ltac:(lia) 0 ltac:(lia)) as (-> & ->).
      apply HE; lia.
Qed.

Lemma db_shift_ok n f : db_ok f -> db_ok (db_shift f n).
Proof.
  intros (Hw & H & Hc). split; [apply wb_shift_ok; auto|]. cbn [db_shift db_set h_pos h_part h_class].
  pose proof (Z.mod_pos_bound (h_pos f - 1 + n) (h_part f) ltac:(lia)). split; [lia|auto].
Qed.

Lemma db_shift_add n m f : db_ok f -> db_shift (db_shift f n) m = db_shift f (n + m).
Proof.
  intros (Hw & H & Hc). unfold db_shift. cbn [db_set h_day h_pos h_part h_class]. unfold db_set. cbn [h_part h_class].
  rewrite wb_shift_add by auto. rewrite wb_set_set. set (P := h_part f) in *. set (p := h_pos f) in *.
  pose proof (Z.div_mod (p - 1 + n) P ltac:(lia)). set (q := (p - 1 + n) / P) in *. set (x := (p - 1 + n) mod P) in *.
  replace (p - 1 + (n + m)) with (x + 1 - 1 + m + q * P) by lia. rewrite Z.div_add, Z.mod_add by lia.
  do 3 f_equal. lia.
Qed.

Lemma db_shift_0 f : db_ok f -> db_shift f 0 = f.
Proof.
  intros (Hw & H & Hc). unfold db_shift. rewrite Z.add_0_r, Z.div_small, Z.mod_small by lia.
  rewrite wb_shift_0, wb_set_same by auto. unfold db_set. destruct f; simpl. f_equal. lia.
Qed.

Lemma check_db f g : wb_ok (h_day f) -> wb_same (h_day f) (h_day g) = true -> h_part f = h_part g -> h_class f = h_class g ->
  (h_class f = kHourly \/ h_class f = kMinutely \/ h_class f = kSecondly \/ h_class f = kXTimesADay) ->
  check_class (FD f) (FD g) = Ok tt.
Proof.
  intros Hw HS HP HC HK. unfold check_class. cbn [class_string class_of].
  unfold db_class_string. rewrite <- (wb_same_string _ _ HS), <- HP, <- HC.
  destruct (wb_class_string_ok _ Hw) as (s & -> & _). cbn [bind].
  assert (HR : forall x, iequals x x = true) by (intros; apply iequals_eq; reflexivity).
  destruct HK as [-> | [-> | [-> | ->]]]; cbn [bind]; rewrite HR; reflexivity.
Qed.

Lemma db_class_cases f : db_ok f -> h_class f = kHourly \/ h_class f = kMinutely \/ h_class f = kSecondly \/ h_class f = kXTimesADay.
Proof. intros (_ & _ & ->). destruct (_ =? 24); auto. destruct (_ =? 1440); auto. destruct (_ =? 86400); auto. Qed.

(** Two positions [k] days apart. *)
Lemma db_pair f g k : db_ok f -> db_ok g -> wb_same (h_day f) (h_day g) = true -> h_part f = h_part g ->
  w_day (h_day f) = wb_shift (h_day g) k -> is_single (h_day g) = false ->
  let d := k * h_part f + h_pos f - h_pos g in
  minus (FD f) (FD g) = Ok d /\ compare (FD f) (FD g) = Ok (Z.sgn d).
Proof.
  intros Hf Hg HS HP HD HN d. assert (HCf := db_class_cases f Hf).
  destruct Hf as (Wf & Pf & Cf). destruct Hg as (Wg & Pg & Cg).
  assert (HC : h_class f = h_class g) by (rewrite Cf, Cg, HP; reflexivity).
  destruct (wb_pair _ _ k Wg HS HD) as (P1 & P2 & P3 & P4). rewrite HN in P1, P3.
  assert (CK : wb_check (h_day f) (h_day g) = Ok tt) by (rewrite wb_check_eq by auto; rewrite HS; reflexivity).
  assert (CK' : wb_check (h_day g) (h_day f) = Ok tt) by (rewrite wb_check_eq by auto; rewrite (wb_same_sym _ _ HS); reflexivity).
  assert (HCmp : db_cmp f g = Ok (Z.sgn d)).
  { unfold db_cmp. rewrite CK. cbn [bind]. rewrite P2.
    destruct (negb (Z.sgn k =? 0)) eqn:E.
    - f_equal. unfold d. rewrite <- HP in Pg. destruct (Z.lt_trichotomy k 0) as [Hk|[Hk|Hk]]; [|lia|].
      + rewrite !Z.sgn_neg; nia.
      + rewrite !Z.sgn_pos; nia.
    - assert (k = 0) by lia. unfold d. subst k. f_equal.
      destruct (h_pos f <? h_pos g) eqn:E1; [|destruct (h_pos g <? h_pos f) eqn:E2]; lia. }
  unfold minus, compare. rewrite check_db by auto. cbn [bind]. split; auto.
  unfold db_minus. rewrite HCmp. cbn [bind]. destruct (0 <? Z.sgn d) eqn:E.
  - rewrite CK, P1. cbn [bind]. f_equal. unfold d. ring.
  - rewrite CK', P3. cbn [bind]. f_equal. unfold d. rewrite HP. ring.
Qed.

Lemma not_single_iff b : not_single (FW b) <-> is_single b = false.
Proof.
  unfold not_single, is_single. destruct (fclass_eqb (w_class b) kDailyInWeek) eqn:E.
  - apply fclass_eqb_eq in E. cbn [andb]. split; [intros H; specialize (H E); lia|intros H _; lia].
  - split; auto. intros _ H. apply fclass_eqb_eq in H. congruence.
Qed.

Theorem day_steps f n m : day_freq f ->
  exists g h, next n f = Ok g /\ next m g = Ok h /\ next (n + m) f = Ok h /\ next 0 f = Ok f /\ next (- n) g = Ok f /\
    day_freq g /\ partitions g = partitions f /\ class_of g = class_of f /\
    (exists k, next k (day_part f) = Ok (day_part g) /\ position g - position f + k * partitions f = n) /\
    (not_single f -> minus g f = Ok n /\ minus f g = Ok (- n) /\ compare g f = Ok (Z.sgn n) /\
       is_equal g f = Ok (n =? 0) /\ is_newer g f = Ok (0 <? n) /\ is_older g f = Ok (n <? 0) /\
       is_equal_or_newer g f = Ok (0 <=? n) /\ is_equal_or_older g f = Ok (n <=? 0)).
Proof.
  intros Hf. apply day_freq_ok in Hf. destruct Hf as (b & Hv & Hb & ->).
  assert (Hok := db_shift_ok n b Hb).
  exists (FD (db_shift b n)), (FD (db_shift b (n + m))). cbn [next]. rewrite !db_next_eq by auto. cbn [bind].
  rewrite !db_shift_add by auto. rewrite Z.add_opp_diag_r, !db_shift_0 by auto.
  do 5 (split; [reflexivity|]).
  split. { apply day_freq_ok. exists (db_shift b n). split; auto. apply (w_valid_shift (h_day b)); auto. }
  do 2 (split; [reflexivity|]).
  assert (HQ := Hb). destruct HQ as (Wb & Pb & Cb). cbn [partitions position day_part].
  pose proof (Z.div_mod (h_pos b - 1 + n) (h_part b) ltac:(lia)) as HM.
  split. { exists ((h_pos b - 1 + n) / h_part b). cbn [next]. rewrite wb_next_eq by auto. split; [reflexivity|].
    cbn [db_shift db_set h_pos]. lia. }
  intros HNS. change (not_single (FW (h_day b))) in HNS. apply not_single_iff in HNS.
  assert (HSm : wb_same (h_day (db_shift b n)) (h_day b) = true) by (apply wb_same_mk; reflexivity).
  destruct (db_pair (db_shift b n) b ((h_pos b - 1 + n) / h_part b)) as (M1 & M2); auto.
  destruct (db_pair b (db_shift b n) (- ((h_pos b - 1 + n) / h_part b))) as (M3 & M4); auto.
  { cbn [db_shift db_set h_day]. rewrite wb_shift_add by auto. rewrite Z.add_opp_diag_r, wb_shift_0 by auto. reflexivity. }
  change (h_part (db_shift b n)) with (h_part b) in M1, M2, M3, M4.
  change (h_pos (db_shift b n)) with ((h_pos b - 1 + n) mod h_part b + 1) in M1, M2, M3, M4.
  replace ((h_pos b - 1 + n) / h_part b * h_part b + ((h_pos b - 1 + n) mod h_part b + 1) - h_pos b) with n in M1, M2 by lia.
  replace (- ((h_pos b - 1 + n) / h_part b) * h_part b + h_pos b - ((h_pos b - 1 + n) mod h_part b + 1)) with (- n) in M3 by lia.
  split; auto. split; auto. split; auto. apply wrappers. auto.
Qed.

(** ** Any sequence of steps *)
Theorem year_run f ns : year_freq f ->
  exists g, run ns f = Ok g /\ next (zsum ns) f = Ok g /\ year_freq g /\ 1 <= position g <= partitions g /\
    class_of g = class_of f /\ partitions g = partitions f.
Proof.
  revert f; induction ns as [|n ns IH]; intros f Hf.
  - exists f. destruct (year_steps f 0 0 Hf) as (g & h & _ & _ & _ & H0 & _).
    split; [reflexivity|]. split; [exact H0|]. split; auto. split; auto.
    apply year_freq_ok in Hf. destruct Hf as (b & Hb & ->). apply yb_ok_pos; auto.
  - destruct (year_steps f n (zsum ns) Hf) as (g & h & H1 & H2 & H3 & _ & _ & _ & HY & _).
    destruct (IH g HY) as (g' & R1 & R2 & R3 & R4 & R5 & R6). exists g'.
    cbn [run]. rewrite H1. cbn [bind]. split; auto. change (zsum (n :: ns)) with (n + zsum ns).
    rewrite H3. split. { rewrite R2 in H2. congruence. } split; auto. split; auto.
    apply year_freq_ok in Hf. destruct Hf as (b & Hb & ->). cbn [next] in H1. injection H1 as <-.
    destruct (yb_next_ok n b Hb) as (_ & E1 & E2 & E3). rewrite R5, R6. cbn [class_of partitions]. auto.
Qed.

Theorem day_run f ns : day_freq f ->
  exists g, run ns f = Ok g /\ next (zsum ns) f = Ok g /\ day_freq g /\ 1 <= position g <= partitions g /\
    class_of g = class_of f /\ partitions g = partitions f.
Proof.
  revert f; induction ns as [|n ns IH]; intros f Hf.
  - exists f. destruct (day_steps f 0 0 Hf) as (g & h & _ & _ & _ & H0 & _).
    split; [reflexivity|]. split; [exact H0|]. split; auto. split; auto.
    apply day_freq_ok in Hf. destruct Hf as (b & _ & (_ & Hb & _) & ->). auto.
  - destruct (day_steps f n (zsum ns) Hf) as (g & h & H1 & H2 & H3 & _ & _ & HY & HP & HC & _).
    destruct (IH g HY) as (g' & R1 & R2 & R3 & R4 & R5 & R6). exists g'.
    cbn [run]. rewrite H1. cbn [bind]. split; auto. change (zsum (n :: ns)) with (n + zsum ns).
    rewrite H3. split. { rewrite R2 in H2. congruence. } split; auto. split; auto.
    rewrite R5, R6. auto.
Qed.

Theorem constructors_exact year part pos multi w :
  ((exists b, yb_make year part pos multi = Ok b) <-> 1 <= pos <= part) /\
  ((exists b, db_make w part pos = Ok b) <-> 1 <= pos <= part).
Proof.
  split.
  - split.
    + intros (b & H). apply yb_make_inv in H. lia.
    + intros H. unfold yb_make. replace (part <=? 0) with false by lia. replace (pos <=? 0) with false by lia.
      replace (part <? pos) with false by lia. eauto.
  - split.
    + intros (b & H). apply db_make_inv in H. tauto.
    + intros H. eexists. apply db_make_inv. auto.
Qed.
