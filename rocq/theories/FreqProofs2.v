(** Week-based frequencies. *)
From Verif Require Import StrModel StrProofs DateProofs FreqModel FreqSpec FreqProofs.
From Coq Require Import ZifyBool.
Local Open Scope Z_scope.

(** ** Days of the week *)
Definition days7 : list Z := [0; 1; 2; 3; 4; 5; 6].
Lemma dow_in d : dow_ok d <-> In d days7.
Proof. unfold dow_ok, days7. simpl. split; [intros; lia|intros H; lia]. Qed.

Lemma all3 (P : Z -> Z -> Z -> bool) :
  forallb (fun s => forallb (fun e => forallb (P s e) days7) days7) days7 = true ->
  forall s e v, dow_ok s -> dow_ok e -> dow_ok v -> P s e v = true.
Proof.
  intros H s e v Hs He Hv. rewrite dow_in in *. rewrite forallb_forall in H. specialize (H s Hs).
  rewrite forallb_forall in H. specialize (H e He). rewrite forallb_forall in H. auto.
Qed.

Definition insideb (r : rng) (d : Z) : bool := (d - r_start r) mod 7 <=? (r_end r - r_start r) mod 7.

Lemma inside_b r d : dow_ok d -> inside r d <-> insideb r d = true.
Proof.
  intros Hd. unfold inside, insideb, walk, dow_ok in *. split.
  - intros (k & Hk & E). pose proof (Z.mod_pos_bound (r_end r - r_start r) 7 ltac:(lia)).
    assert ((d - r_start r) mod 7 = k); [|lia].
    rewrite E, Zminus_mod_idemp_l. replace (r_start r + k - r_start r) with k by lia. apply Z.mod_small. lia.
  - intros H. exists ((d - r_start r) mod 7). pose proof (Z.mod_pos_bound (d - r_start r) 7 ltac:(lia)).
    split; [lia|]. rewrite Zplus_mod_idemp_r. replace (r_start r + (d - r_start r)) with d by lia.
    symmetry. apply Z.mod_small. lia.
Qed.

(** What IsOutsideRange answers. *)
Lemma outside_fwd r v : rng_ok r -> dow_ok v ->
  exists k, outside r v true = Ok (negb (insideb r v), k) /\ (insideb r v = false -> k = (r_start r - v) mod 7).
Proof.
  intros (Hs & He) Hv. destruct r as [s e]. simpl in *.
  pose proof (all3 (fun s e v => match outside {| r_start := s; r_end := e |} v true with
     | Ok (o, k) => Bool.eqb o (negb (insideb {| r_start := s; r_end := e |} v)) && (insideb {| r_start := s; r_end := e |} v || (k =? (s - v) mod 7))
     | _ => false end) ltac:(vm_compute; reflexivity) s e v Hs He Hv) as H. cbv beta in H.
  destruct (outside {| r_start := s; r_end := e |} v true) as [[o k]| |]; try discriminate.
  apply andb_true_iff in H. destruct H as [H1 H2]. apply eqb_prop in H1. subst o. exists k. split; auto.
  intros E. rewrite E in H2. lia.
Qed.
Lemma outside_bwd r v : rng_ok r -> dow_ok v ->
  exists k, outside r v false = Ok (negb (insideb r v), k) /\ (insideb r v = false -> k = - ((v - r_end r) mod 7)).
Proof.
  intros (Hs & He) Hv. destruct r as [s e]. simpl in *.
  pose proof (all3 (fun s e v => match outside {| r_start := s; r_end := e |} v false with
     | Ok (o, k) => Bool.eqb o (negb (insideb {| r_start := s; r_end := e |} v)) && (insideb {| r_start := s; r_end := e |} v || (k =? - ((v - e) mod 7)))
     | _ => false end) ltac:(vm_compute; reflexivity) s e v Hs He Hv) as H. cbv beta in H.
  destruct (outside {| r_start := s; r_end := e |} v false) as [[o k]| |]; try discriminate.
  apply andb_true_iff in H. destruct H as [H1 H2]. apply eqb_prop in H1. subst o. exists k. split; auto.
  intros E. rewrite E in H2. lia.
Qed.

Theorem in_range_exact r v : rng_ok r -> dow_ok v ->
  exists b, in_range r v = Ok b /\ (b = true <-> inside r v).
Proof.
  intros (Hs & He) Hv. destruct r as [s e]. simpl in *.
  pose proof (all3 (fun s e v => match in_range {| r_start := s; r_end := e |} v with
     | Ok o => Bool.eqb o (insideb {| r_start := s; r_end := e |} v) | _ => false end) ltac:(vm_compute; reflexivity) s e v Hs He Hv) as H. cbv beta in H.
  destruct (in_range {| r_start := s; r_end := e |} v) as [o| |]; try discriminate.
  apply eqb_prop in H. exists o. split; auto. rewrite inside_b by auto. subst o. tauto.
Qed.

Theorem outside_exact r v forward : rng_ok r -> dow_ok v ->
  exists b k, outside r v forward = Ok (b, k) /\ (b = true <-> ~ inside r v) /\
   (b = true -> k <> 0 /\ (0 < k <-> forward = true) /\ inside r (walk v k) /\
      forall j, Z.abs j < Z.abs k -> 0 <= j * k -> ~ inside r (walk v j)).
Proof.
  intros Hr Hv. assert (Hr' := Hr). destruct Hr' as (Hs & He). unfold dow_ok in *.
  destruct forward.
  - destruct (outside_fwd r v Hr Hv) as (k & E & Hk). exists (negb (insideb r v)), k. split; auto.
    rewrite inside_b by auto. destruct (insideb r v) eqn:EI; simpl.
    { split; [split; [discriminate|intros H; exfalso; apply H; reflexivity]|discriminate]. }
    split; [split; congruence|]. intros _. specialize (Hk eq_refl). unfold insideb in EI.
    assert (HW : forall j, 0 <= j <= k -> (insideb r (walk v j) = true <-> j = k)).
    { intros j Hj. unfold insideb, walk. rewrite Zminus_mod_idemp_l.
      Z.div_mod_to_equations. lia. }
    assert (Hk7 : 0 < k < 7) by (Z.div_mod_to_equations; lia).
    split; [lia|]. split; [split; auto; lia|].
    assert (HD : forall j, dow_ok (walk v j)).
    { intros j. unfold dow_ok, walk. pose proof (Z.mod_pos_bound (v + j) 7 ltac:(lia)). lia. }
    split.
    + apply inside_b; auto. apply HW; lia.
    + intros j Hj1 Hj2. rewrite inside_b by auto. rewrite HW by nia. nia.
  - destruct (outside_bwd r v Hr Hv) as (k & E & Hk). exists (negb (insideb r v)), k. split; auto.
    rewrite inside_b by auto. destruct (insideb r v) eqn:EI; simpl.
    { split; [split; [discriminate|intros H; exfalso; apply H; reflexivity]|discriminate]. }
    split; [split; congruence|]. intros _. specialize (Hk eq_refl). unfold insideb in EI.
    assert (HW : forall j, k <= j <= 0 -> (insideb r (walk v j) = true <-> j = k)).
    { intros j Hj. unfold insideb, walk. rewrite Zminus_mod_idemp_l.
      Z.div_mod_to_equations. lia. }
    assert (Hk7 : -7 < k < 0) by (Z.div_mod_to_equations; lia).
    split; [lia|]. split; [split; [lia|discriminate]|].
    assert (HD : forall j, dow_ok (walk v j)).
    { intros j. unfold dow_ok, walk. pose proof (Z.mod_pos_bound (v + j) 7 ltac:(lia)). lia. }
    split.
    + apply inside_b; auto. apply HW; lia.
    + intros j Hj1 Hj2. rewrite inside_b by auto. rewrite HW by nia. nia.
Qed.

Lemma distance_fwd a b : dow_ok a -> dow_ok b -> dow_distance a b true = (b - a) mod 7.
Proof. unfold dow_ok, dow_distance. intros Ha Hb. destruct (b <? a) eqn:E; Z.div_mod_to_equations; lia. Qed.

Theorem distance_forward a b : dow_ok a -> dow_ok b -> steps_between a b (dow_distance a b true) true.
Proof.
  intros Ha Hb. rewrite distance_fwd by auto. unfold steps_between, walk, dow_ok in *.
  split; [apply Z.mod_pos_bound; lia|]. split; [rewrite Zplus_mod_idemp_r; Z.div_mod_to_equations; lia|].
  intros k Hk. Z.div_mod_to_equations; lia.
Qed.
Theorem distance_backward a b : dow_ok a -> dow_ok b -> b <= a -> steps_between a b (dow_distance a b false) false.
Proof.
  intros Ha Hb H. unfold dow_distance. replace (b <=? a) with true by lia. unfold steps_between, walk, dow_ok in *.
  split; [lia|]. split; [Z.div_mod_to_equations; lia|].
  intros k Hk. Z.div_mod_to_equations; lia.
Qed.
Theorem distance_backward_wrong a b : dow_ok a -> dow_ok b -> a < b ->
  dow_distance a b false = 7 + b - a /\ steps_between a b (7 + a - b) false /\ dow_distance a b false <> 7 + a - b.
Proof.
  intros Ha Hb H. unfold dow_distance. replace (b <=? a) with false by lia. unfold steps_between, walk, dow_ok in *.
  split; [lia|]. split; [|lia].
  split; [lia|]. split; [Z.div_mod_to_equations; lia|].
  intros k Hk. Z.div_mod_to_equations; lia.
Qed.

Theorem length_exact r : rng_ok r -> r_start r <> r_end r -> r_length r = (r_end r - r_start r) mod 7 + 1.
Proof.
  unfold rng_ok, dow_ok, r_length. intros H Hne. destruct (r_start r <? r_end r) eqn:E; Z.div_mod_to_equations; lia.
Qed.
Theorem length_single r : r_start r = r_end r -> r_length r = 8.
Proof. unfold r_length. intros ->. rewrite Z.ltb_irrefl. lia. Qed.

(** ** Daily-in-week steps *)
(** Days until the end of the range; week of the end of the range; number of the working day. *)
Definition dw_c (r : rng) (d : Z) : Z := (r_end r - dow d) mod 7.
Definition dw_len (r : rng) : Z := (r_end r - r_start r) mod 7 + 1.
Definition dw_w (r : rng) (d : Z) : Z := (d + dw_c r d) / 7.
Definition dw_ord (r : rng) (d : Z) : Z := dw_w r d * dw_len r - dw_c r d.

Lemma dow_dow_ok d : dow_ok (dow d).
Proof. unfold dow_ok. pose proof (dow_range d). lia. Qed.

Lemma dw_basic r d : rng_ok r -> 0 <= dw_c r d < 7 /\ 1 <= dw_len r <= 7 /\
  d + dw_c r d = 7 * dw_w r d + (r_end r - 1) mod 7 /\
  (insideb r (dow d) = true <-> dw_c r d < dw_len r).
Proof.
  intros (Hs & He). unfold dw_w, dw_len, insideb, dow_ok in *. unfold dw_c. rewrite dow_eq.
  rewrite Zminus_mod_idemp_r, Zminus_mod_idemp_l.
  split; [Z.div_mod_to_equations; lia|]. split; [Z.div_mod_to_equations; lia|].
  split.
  { pose proof (Z.div_mod (r_end r - (d + 1)) 7 ltac:(lia)). revert H.
    generalize ((r_end r - (d + 1)) mod 7) as c, ((r_end r - (d + 1)) / 7) as k. intros c k H.
    assert (E : d + c = r_end r - 1 + (- k) * 7) by lia. rewrite E, Z.div_add by lia.
    pose proof (Z.div_mod (r_end r - 1) 7 ltac:(lia)). lia. }
  rewrite Z.leb_le. split; Z.div_mod_to_equations; lia.
Qed.

Lemma dw_ord_inj r d d' : rng_ok r -> insideb r (dow d) = true -> insideb r (dow d') = true ->
  dw_ord r d = dw_ord r d' -> d = d'.
Proof.
  intros Hr H H' E. destruct (dw_basic r d Hr) as (A1 & A2 & A3 & A4). destruct (dw_basic r d' Hr) as (B1 & B2 & B3 & B4).
  rewrite A4 in H. rewrite B4 in H'. unfold dw_ord in E.
  assert (dw_w r d = dw_w r d') by nia. assert (dw_c r d = dw_c r d') by nia. lia.
Qed.

Lemma dw_ord_mono r d d' : rng_ok r -> insideb r (dow d) = true -> insideb r (dow d') = true ->
  (d < d' <-> dw_ord r d < dw_ord r d').
Proof.
  intros Hr H H'. destruct (dw_basic r d Hr) as (A1 & A2 & A3 & A4). destruct (dw_basic r d' Hr) as (B1 & B2 & B3 & B4).
  rewrite A4 in H. rewrite B4 in H'. unfold dw_ord.
  destruct (Z.lt_trichotomy (dw_w r d) (dw_w r d')) as [HW|[HW|HW]].
  - assert (dw_w r d * dw_len r + dw_len r <= dw_w r d' * dw_len r) by nia. lia.
  - rewrite HW in *. lia.
  - assert (dw_w r d' * dw_len r + dw_len r <= dw_w r d * dw_len r) by nia. lia.
Qed.

Lemma dow_walk a k : dow (a + k) = walk (dow a) k.
Proof. unfold walk. apply dow_add. Qed.

Lemma step_fwd_ok r d : rng_ok r -> exists d', step_fwd r d = Ok d' /\ next_inside r d d'.
Proof.
  intros Hr. unfold step_fwd. destruct (outside_exact r (dow (d + 1)) true Hr (dow_dow_ok _)) as (b & k & E & Hb & Hk).
  rewrite E. cbn [bind fst snd]. destruct b.
  - destruct (Hk eq_refl) as (K1 & K2 & K3 & K4). exists (d + 1 + k). split; [reflexivity|].
    assert (0 < k) by (apply K2; reflexivity).
    split; [lia|]. split. { rewrite dow_walk. exact K3. }
    intros x Hx. replace x with (d + 1 + (x - d - 1)) by lia. rewrite dow_walk. apply K4; nia.
  - exists (d + 1). split; [reflexivity|]. split; [lia|]. split; [|intros; lia].
    apply inside_b; [apply dow_dow_ok|]. destruct (insideb r (dow (d + 1))) eqn:EI; auto.
    exfalso. assert (false = true); [|discriminate]. apply Hb. rewrite inside_b by apply dow_dow_ok. congruence.
Qed.
Lemma step_bwd_ok r d : rng_ok r -> exists d', step_bwd r d = Ok d' /\ prev_inside r d d'.
Proof.
  intros Hr. unfold step_bwd. destruct (outside_exact r (dow (d - 1)) false Hr (dow_dow_ok _)) as (b & k & E & Hb & Hk).
  rewrite E. cbn [bind fst snd]. destruct b.
  - destruct (Hk eq_refl) as (K1 & K2 & K3 & K4). exists (d - 1 - - k). split; [reflexivity|].
    assert (k < 0) by (destruct (Z.lt_trichotomy 0 k) as [H|[H|H]]; try lia; apply K2 in H; discriminate).
    split; [lia|]. split. { replace (d - 1 - - k) with (d - 1 + k) by lia. rewrite dow_walk. exact K3. }
    intros x Hx. replace x with (d - 1 + (x - (d - 1))) by lia. rewrite dow_walk. apply K4; nia.
  - exists (d - 1). split; [reflexivity|]. split; [lia|]. split; [|intros; lia].
    apply inside_b; [apply dow_dow_ok|]. destruct (insideb r (dow (d - 1))) eqn:EI; auto.
    exfalso. assert (false = true); [|discriminate]. apply Hb. rewrite inside_b by apply dow_dow_ok. congruence.
Qed.

(** The day with a given number. *)
Definition dw_day (r : rng) (o : Z) : Z :=
  7 * ((o + (- o) mod dw_len r) / dw_len r) + (r_end r - 1) mod 7 - (- o) mod dw_len r.

Lemma dw_day_ord r o : rng_ok r -> insideb r (dow (dw_day r o)) = true /\ dw_ord r (dw_day r o) = o.
Proof.
  intros Hr. assert (Hr' := Hr). destruct Hr' as (Hs & He). unfold dow_ok in *.
  set (L := dw_len r). set (c := (- o) mod L).
  assert (HL : 1 <= L <= 7) by (unfold L, dw_len; Z.div_mod_to_equations; lia).
  assert (Hc : 0 <= c < L) by (apply Z.mod_pos_bound; lia).
  assert (HE : exists q, o + c = L * q).
  { exists (- ((- o) / L)). unfold c. pose proof (Z.div_mod (- o) L ltac:(lia)). lia. }
  destruct HE as (q & Hq).
  assert (Hw : (o + c) / L = q) by (rewrite Hq, Z.mul_comm; apply Z.div_mul; lia).
  set (d := dw_day r o). assert (Hd : d = 7 * q + (r_end r - 1) mod 7 - c).
  { unfold d, dw_day. fold L. fold c. rewrite Hw. reflexivity. }
  destruct (dw_basic r d Hr) as (A1 & A2 & A3 & A4). fold L in A2, A4.
  assert (EC : dw_c r d = c).
  { unfold dw_c. rewrite dow_eq, Zminus_mod_idemp_r. rewrite Hd. clear -Hc HL.
    replace (r_end r - (7 * q + (r_end r - 1) mod 7 - c + 1)) with (c + ((r_end r - 1) - (r_end r - 1) mod 7) - 7 * q) by lia.
    pose proof (Z.div_mod (r_end r - 1) 7 ltac:(lia)).
    replace (c + ((r_end r - 1) - (r_end r - 1) mod 7) - 7 * q) with (c + ((r_end r - 1) / 7 - q) * 7) by lia.
    rewrite Z.mod_add by lia. apply Z.mod_small. lia. }
  assert (EW : dw_w r d = q) by lia.
  split.
  - rewrite A4, EC. lia.
  - unfold dw_ord. rewrite EC, EW. fold L. lia.
Qed.

Lemma next_inside_ord r d d' : rng_ok r -> insideb r (dow d) = true -> next_inside r d d' -> dw_ord r d' = dw_ord r d + 1.
Proof.
  intros Hr Hd (H1 & H2 & H3). rewrite inside_b in H2 by apply dow_dow_ok.
  destruct (dw_day_ord r (dw_ord r d + 1) Hr) as (Hi & Ho). set (x := dw_day r (dw_ord r d + 1)) in *.
  assert (d < x) by (rewrite (dw_ord_mono r) by auto; lia).
  assert (dw_ord r d < dw_ord r d') by (rewrite <- (dw_ord_mono r) by auto; lia).
  destruct (Z.lt_trichotomy x d') as [HT|[HT|HT]].
  - exfalso. apply (H3 x); auto. apply inside_b; auto. apply dow_dow_ok.
  - subst x. congruence.
  - rewrite (dw_ord_mono r) in HT by auto. lia.
Qed.
Lemma prev_inside_ord r d d' : rng_ok r -> insideb r (dow d) = true -> prev_inside r d d' -> dw_ord r d' = dw_ord r d - 1.
Proof.
  intros Hr Hd (H1 & H2 & H3). rewrite inside_b in H2 by apply dow_dow_ok.
  destruct (dw_day_ord r (dw_ord r d - 1) Hr) as (Hi & Ho). set (x := dw_day r (dw_ord r d - 1)) in *.
  assert (x < d) by (rewrite (dw_ord_mono r) by auto; lia).
  assert (dw_ord r d' < dw_ord r d) by (rewrite <- (dw_ord_mono r) by auto; lia).
  destruct (Z.lt_trichotomy x d') as [HT|[HT|HT]].
  - rewrite (dw_ord_mono r) in HT by auto. lia.
  - subst x. congruence.
  - exfalso. apply (H3 x); auto. apply inside_b; auto. apply dow_dow_ok.
Qed.

Lemma iter_fwd r n : rng_ok r -> forall d, insideb r (dow d) = true ->
  iter_res n (step_fwd r) d = Ok (dw_day r (dw_ord r d + Z.of_nat n)).
Proof.
  intros Hr. induction n as [|n IH]; intros d Hd.
  - cbn [iter_res]. f_equal. destruct (dw_day_ord r (dw_ord r d + Z.of_nat 0) Hr) as (A & B).
    apply (dw_ord_inj r); auto. lia.
  - cbn [iter_res]. destruct (step_fwd_ok r d Hr) as (d' & -> & Hn). cbn [bind].
    assert (Ho := next_inside_ord r d d' Hr Hd Hn). destruct Hn as (_ & Hi & _). rewrite inside_b in Hi by apply dow_dow_ok.
    rewrite IH by auto. rewrite Ho. do 2 f_equal. lia.
Qed.
Lemma iter_bwd r n : rng_ok r -> forall d, insideb r (dow d) = true ->
  iter_res n (step_bwd r) d = Ok (dw_day r (dw_ord r d - Z.of_nat n)).
Proof.
  intros Hr. induction n as [|n IH]; intros d Hd.
  - cbn [iter_res]. f_equal. destruct (dw_day_ord r (dw_ord r d - Z.of_nat 0) Hr) as (A & B).
    apply (dw_ord_inj r); auto. lia.
  - cbn [iter_res]. destruct (step_bwd_ok r d Hr) as (d' & -> & Hn). cbn [bind].
    assert (Ho := prev_inside_ord r d d' Hr Hd Hn). destruct Hn as (_ & Hi & _). rewrite inside_b in Hi by apply dow_dow_ok.
    rewrite IH by auto. rewrite Ho. do 2 f_equal. lia.
Qed.

(** ** Valid week-based frequencies *)
Inductive wb_ok : wb -> Prop :=
| ok_step b : 1 <= w_multi b -> w_range b = rng0 -> w_fwd b = 0 ->
    (w_class b = kWeekly /\ w_multi b = 1 \/ w_class b = kMultiWeekly /\ w_multi b <> 1 \/
     w_class b = kDaily /\ w_multi b = 1 \/ w_class b = kMultiDaily /\ w_multi b <> 1) -> wb_ok b
| ok_dw b : w_class b = kDailyInWeek -> w_multi b = 1 -> rng_ok (w_range b) ->
    insideb (w_range b) (dow (w_day b)) = true -> wb_ok b.

Lemma week_freq_ok f : week_freq f -> exists b, wb_ok b /\ f = FW b /\ w_class b <> kDailyInWeek.
Proof.
  intros (day & isWeek & multi & b & Hm & H & ->). exists b. split; [|split; [reflexivity|]].
  - unfold wb_make in H. injection H as <-. apply ok_step; simpl; auto.
    { destruct isWeek; auto. }
    destruct isWeek; destruct (multi =? 1) eqn:E; simpl; intuition lia.
  - unfold wb_make in H. injection H as <-. simpl. destruct isWeek; destruct (multi =? 1); discriminate.
Qed.

Lemma dw_make r day forward : rng_ok r -> exists b, wb_make day false (Some r) forward 1 = Ok b /\ wb_ok b /\
  w_range b = r /\ w_class b = kDailyInWeek /\
  (inside r (dow day) -> w_day b = day) /\
  (~ inside r (dow day) -> if forward then next_inside r day (w_day b) else prev_inside r day (w_day b)).
Proof.
  intros Hr. unfold wb_make. cbn [fclass_eqb].
  change (fclass_eqb kDailyInWeek kWeekly || fclass_eqb kDailyInWeek kDaily) with false. cbv iota.
  destruct (outside_exact r (dow day) forward Hr (dow_dow_ok _)) as (o & k & E & Hb & Hk). rewrite E. cbn [bind fst snd].
  destruct o.
  - destruct (Hk eq_refl) as (K1 & K2 & K3 & K4).
    eexists. split; [reflexivity|]. cbn [w_range w_class w_day]. split; [|split; [reflexivity|split; [reflexivity|split]]].
    + apply ok_dw; auto. cbn [w_range w_day]. apply inside_b; [apply dow_dow_ok|]. rewrite dow_walk. exact K3.
    + intros HI. exfalso. apply (proj1 Hb); auto.
    + intros _. destruct forward.
      * assert (0 < k) by (apply K2; auto). split; [lia|]. split; [rewrite dow_walk; exact K3|].
        intros x Hx. destruct (Z.eq_dec x day) as [->|Hne]; [apply Hb; auto|].
        replace x with (day + (x - day)) by lia. rewrite dow_walk. apply K4; nia.
      * assert (k < 0) by (destruct (Z.lt_trichotomy 0 k) as [H|[H|H]]; try lia; apply K2 in H; discriminate).
        split; [lia|]. split; [rewrite dow_walk; exact K3|].
        intros x Hx. destruct (Z.eq_dec x day) as [->|Hne]; [apply Hb; auto|].
        replace x with (day + (x - day)) by lia. rewrite dow_walk. apply K4; nia.
  - assert (HI : insideb r (dow day) = true).
    { destruct (insideb r (dow day)) eqn:EI; auto. exfalso. assert (false = true); [|discriminate]. apply Hb.
      rewrite inside_b by apply dow_dow_ok. congruence. }
    eexists. split; [reflexivity|]. cbn [w_range w_class w_day]. split; [|split; [reflexivity|split; [reflexivity|split]]].
    + apply ok_dw; auto.
    + auto.
    + intros HN. exfalso. apply HN. apply inside_b; auto. apply dow_dow_ok.
Qed.

(** The day [n] steps after the day of [b]. *)
Definition wb_shift (b : wb) (n : Z) : Z :=
  match w_class b with
  | kWeekly | kMultiWeekly => w_day b + 7 * n * w_multi b
  | kDaily | kMultiDaily => w_day b + n * w_multi b
  | _ => dw_day (w_range b) (dw_ord (w_range b) (w_day b) + n)
  end.

Lemma wb_set_same b : wb_set b (w_day b) = b. Proof. destruct b; reflexivity. Qed.
Lemma wb_set_set b x y : wb_set (wb_set b x) y = wb_set b y. Proof. reflexivity. Qed.

Lemma wb_next_eq n b : wb_ok b -> wb_next n b = Ok (wb_set b (wb_shift b n)).
Proof.
  intros H. unfold wb_next, wb_shift. destruct H as [b Hm Hr Hf Hc|b Hc Hm Hr Hi].
  - destruct Hc as [[-> _]|[[-> _]|[[-> _]|[-> _]]]]; reflexivity.
  - rewrite Hc. destruct (0 <? n) eqn:E.
    + rewrite iter_fwd by auto. rewrite Z2Nat.id by lia. reflexivity.
    + rewrite iter_bwd by auto. rewrite Z2Nat.id by lia. cbn [bind]. do 3 f_equal. lia.
Qed.

Lemma wb_shift_ok n b : wb_ok b -> wb_ok (wb_set b (wb_shift b n)).
Proof.
  intros H. assert (H0 := H). destruct H as [b Hm Hr Hf Hc|b Hc Hm Hr Hi].
  - apply ok_step; simpl; auto.
  - apply ok_dw; simpl; auto. unfold wb_shift. rewrite Hc. apply dw_day_ord. auto.
Qed.

Lemma wb_shift_add n m b : wb_ok b -> wb_shift (wb_set b (wb_shift b n)) m = wb_shift b (n + m).
Proof.
  intros H. unfold wb_shift. destruct H as [b Hm Hr Hf Hc|b Hc Hm Hr Hi]; cbn [wb_set w_class w_day w_multi w_range].
  - destruct Hc as [[-> _]|[[-> _]|[[-> _]|[-> _]]]]; ring.
  - rewrite Hc. destruct (dw_day_ord (w_range b) (dw_ord (w_range b) (w_day b) + n) Hr) as (_ & ->). f_equal. lia.
Qed.

Lemma wb_shift_0 b : wb_ok b -> wb_shift b 0 = w_day b.
Proof.
  intros H. unfold wb_shift. destruct H as [b Hm Hr Hf Hc|b Hc Hm Hr Hi]; cbn [wb_set w_class w_day w_multi w_range].
  - destruct Hc as [[-> _]|[[-> _]|[[-> _]|[-> _]]]]; lia.
  - rewrite Hc. rewrite Z.add_0_r. destruct (dw_day_ord (w_range b) (dw_ord (w_range b) (w_day b)) Hr) as (A & B).
    eapply dw_ord_inj; eauto.
Qed.

Lemma wb_shift_mono b n m : wb_ok b -> (wb_shift b n < wb_shift b m <-> n < m).
Proof.
  intros H. unfold wb_shift. destruct H as [b Hm Hr Hf Hc|b Hc Hm Hr Hi]; cbn [wb_set w_class w_day w_multi w_range].
  - destruct Hc as [[-> _]|[[-> _]|[[-> _]|[-> _]]]]; nia.
  - rewrite Hc. destruct (dw_day_ord (w_range b) (dw_ord (w_range b) (w_day b) + n) Hr) as (A & B).
    destruct (dw_day_ord (w_range b) (dw_ord (w_range b) (w_day b) + m) Hr) as (A' & B').
    rewrite (dw_ord_mono (w_range b)) by auto. lia.
Qed.

Lemma wb_cmp_shift b n m : wb_ok b -> wb_cmp (wb_set b (wb_shift b n)) (wb_set b (wb_shift b m)) = Z.sgn (n - m).
Proof.
  intros H. unfold wb_cmp. cbn [wb_set w_day].
  pose proof (wb_shift_mono b n m H). pose proof (wb_shift_mono b m n H).
  destruct (wb_shift b n <? wb_shift b m) eqn:E1. { symmetry. apply Z.sgn_neg. lia. }
  destruct (wb_shift b m <? wb_shift b n) eqn:E2. { symmetry. apply Z.sgn_pos. lia. }
  symmetry. apply Z.sgn_null_iff. lia.
Qed.

(** A range with a single day is the only case where Minus fails. *)
Definition single (b : wb) : Prop := w_class b = kDailyInWeek /\ r_start (w_range b) = r_end (w_range b).

Lemma dw_minus_eq r a b : rng_ok r -> insideb r (dow a) = true -> insideb r (dow b) = true ->
  let c0 := dow_distance (dow a) (r_end r) true in let c1 := dow_distance (dow b) (r_end r) true in
  Z.quot ((a + c0 - (b + c1)) * r_length r) 7 - c0 + c1
  = if r_start r =? r_end r then 8 * (dw_ord r a - dw_ord r b) else dw_ord r a - dw_ord r b.
Proof.
  intros Hr Ha Hb c0 c1. assert (E0 : c0 = dw_c r a) by (apply distance_fwd; [apply dow_dow_ok|apply Hr]).
  assert (E1 : c1 = dw_c r b) by (apply distance_fwd; [apply dow_dow_ok|apply Hr]).
  rewrite E0, E1. destruct (dw_basic r a Hr) as (A1 & A2 & A3 & A4). destruct (dw_basic r b Hr) as (B1 & B2 & B3 & B4).
  replace (a + dw_c r a - (b + dw_c r b)) with ((dw_w r a - dw_w r b) * 7) by lia.
  replace ((dw_w r a - dw_w r b) * 7 * r_length r) with ((dw_w r a - dw_w r b) * r_length r * 7) by ring.
  rewrite Z.quot_mul by lia. rewrite A4 in Ha. rewrite B4 in Hb.
  destruct (r_start r =? r_end r) eqn:E.
  - rewrite length_single by lia. assert (EL : dw_len r = 1).
    { unfold dw_len. replace (r_end r - r_start r) with 0 by lia. reflexivity. }
    unfold dw_ord. rewrite EL in *. lia.
  - rewrite length_exact by (auto; lia). change ((r_end r - r_start r) mod 7 + 1) with (dw_len r). unfold dw_ord. lia.
Qed.

Lemma wb_minus_shift b n m : wb_ok b ->
  wb_minus (wb_set b (wb_shift b n)) (wb_set b (wb_shift b m))
  = Ok (if fclass_eqb (w_class b) kDailyInWeek && (r_start (w_range b) =? r_end (w_range b)) then 8 * (n - m) else n - m).
Proof.
  intros H. unfold wb_minus, wb_shift. cbn [wb_set w_day w_class w_multi w_range].
  destruct H as [b Hm Hr Hf Hc|b Hc Hm Hr Hi]; cbn [wb_set w_class w_day w_multi w_range].
  - destruct Hc as [[-> E]|[[-> E]|[[-> E]|[-> E]]]]; cbn [fclass_eqb fclass_eq_dec fclass_rec fclass_rect andb].
    + rewrite E. replace (w_day b + 7 * n * 1 - (w_day b + 7 * m * 1)) with ((n - m) * 7) by ring.
      rewrite Z.quot_mul by lia. reflexivity.
    + replace (w_multi b =? 0) with false by lia.
      replace (w_day b + 7 * n * w_multi b - (w_day b + 7 * m * w_multi b)) with ((n - m) * (7 * w_multi b)) by ring.
      rewrite Z.quot_mul by lia. reflexivity.
    + rewrite E. f_equal. simpl. ring.
    + rewrite Z.eqb_refl. replace (w_multi b =? 0) with false by lia.
      replace (w_day b + n * w_multi b - (w_day b + m * w_multi b)) with ((n - m) * w_multi b) by ring.
      simpl negb. rewrite Z.quot_mul by lia. reflexivity.
  - rewrite Hc. f_equal.
    destruct (dw_day_ord (w_range b) (dw_ord (w_range b) (w_day b) + n) Hr) as (A & B).
    destruct (dw_day_ord (w_range b) (dw_ord (w_range b) (w_day b) + m) Hr) as (A' & B').
    rewrite dw_minus_eq by auto. rewrite B, B'.
    change (fclass_eqb kDailyInWeek kDailyInWeek) with true. cbn [andb].
    destruct (r_start (w_range b) =? r_end (w_range b)); lia.
Qed.

(** ** Class strings *)
Lemma rng_string_ok r : rng_ok r -> exists s, rng_string r = Ok s /\ rng_parse s = Ok r /\
  Forall (fun c => ~ In c (s_ ":|;")) s /\ map upper s <> [] /\
  forall r' s', rng_ok r' -> rng_string r' = Ok s' -> map upper s = map upper s' -> r = r'.
Proof.
  intros (Hs & He). destruct r as [s e]. simpl in *.
  assert (H : forallb (fun s => forallb (fun e => match rng_string {| r_start := s; r_end := e |} with
     | Ok x => match rng_parse x with Ok r => (r_start r =? s) && (r_end r =? e) | _ => false end &&
               forallb (fun c => negb (memc c (s_ ":|;"))) x && negb (str_eqb (map upper x) []) &&
               forallb (fun s' => forallb (fun e' => match rng_string {| r_start := s'; r_end := e' |} with
                  | Ok x' => negb (str_eqb (map upper x) (map upper x')) || ((s =? s') && (e =? e')) | _ => true end) days7) days7
     | _ => false end) days7) days7 = true) by (vm_compute; reflexivity).
  rewrite forallb_forall in H. specialize (H s (proj1 (dow_in s) Hs)).
  rewrite forallb_forall in H. specialize (H e (proj1 (dow_in e) He)).
  destruct (rng_string {| r_start := s; r_end := e |}) as [x| |]; try discriminate.
  exists x. split; [reflexivity|]. rewrite !andb_true_iff in H. destruct H as (((H1 & H2) & H3) & H4).
  split; [|split; [|split]].
  - destruct (rng_parse x) as [r| |]; try discriminate. f_equal. destruct r as [a b]. clear -H1. cbn [r_start r_end] in H1. f_equal; lia.
  - apply Forall_forall. intros c Hc. rewrite forallb_forall in H2. specialize (H2 c Hc).
    change (~ In c (s_ ":|;")). apply memc_false. destruct (memc c (s_ ":|;")); auto; discriminate.
  - intros E. rewrite E in H3. discriminate H3.
  - clear H1 H2 H3. intros [s' e'] x' (Hs' & He') E EU. cbn [r_start r_end] in *.
    rewrite forallb_forall in H4. specialize (H4 s' (proj1 (dow_in s') Hs')).
    rewrite forallb_forall in H4. specialize (H4 e' (proj1 (dow_in e') He')). rewrite E in H4.
    rewrite (proj2 (str_eqb_eq _ _) EU) in H4. cbn [negb orb] in H4. clear -H4. f_equal; lia.
Qed.

Lemma upper_idem_dec n p : map upper (s_ p ++ dec n) = map upper (s_ p) ++ dec n.
Proof. rewrite map_app, upper_dec. reflexivity. Qed.

Lemma rng_eq_dec (a b : rng) : {a = b} + {a <> b}.
Proof. decide equality; apply Z.eq_dec. Defined.

Definition wb_same (a b : wb) : bool :=
  fclass_eqb (w_class a) (w_class b) && (w_multi a =? w_multi b) && (if rng_eq_dec (w_range a) (w_range b) then true else false).

Lemma wb_class_string_ok a : wb_ok a -> exists s, wb_class_string a = Ok s /\
  Forall (fun c => ~ In c (s_ "|;")) s /\
  (forall b, wb_ok b -> exists s', wb_class_string b = Ok s' /\
     (w_class a = w_class b -> map upper s = map upper s' -> wb_same a b = true)).
Proof.
  intros Ha.
  assert (HDec : forall n, Forall (fun c => ~ In c (s_ "|;")) (dec n)).
  { intros n. eapply Forall_impl; [|apply dec_chars]. intros c [Hd| ->]; [|simpl; intuition discriminate].
    destruct (is_digit_val c Hd) as (d & Ed & _). simpl. intros [<-|[<-|[]]]; discriminate Ed. }
  assert (HS : forall b, wb_ok b -> exists s, wb_class_string b = Ok s).
  { intros b [b' Hm Hr Hf Hc|b' Hc Hm Hr Hi]; unfold wb_class_string.
    - destruct Hc as [[-> E]|[[-> E]|[[-> E]|[-> E]]]]; eauto.
    - rewrite Hc. destruct (rng_string_ok (w_range b') Hr) as (s & -> & _). eexists. reflexivity. }
  destruct Ha as [a Hm Hr Hf Hc|a Hc Hm Hr Hi].
  - destruct Hc as [[E1 E]|[[E1 E]|[[E1 E]|[E1 E]]]];
      (eexists; split; [unfold wb_class_string; rewrite E1; reflexivity|]; split;
       [try (repeat constructor; simpl; intuition discriminate); try (apply Forall_app; split; [repeat constructor; simpl; intuition discriminate|apply HDec])|]);
      intros b Hb; assert (Hb0 := Hb); destruct (HS b Hb) as (s' & Es); exists s'; (split; [exact Es|]); rewrite E1; intros Ec EU;
      unfold wb_class_string in Es; rewrite <- Ec in Es; injection Es as <-;
      (destruct Hb as [b Hm' Hr' Hf' Hc'|b Hc' Hm' Hrr' Hi']; [|congruence]);
      unfold wb_same; rewrite E1, Ec, (proj2 (fclass_eqb_eq _ _) eq_refl);
      rewrite Hr, Hr'; (destruct (rng_eq_dec rng0 rng0) as [_|]; [|congruence]);
      rewrite <- Ec in Hc'; cbn [andb]; rewrite andb_true_r; apply Z.eqb_eq.
    1,3: destruct Hc' as [[X Y]|[[X Y]|[[X Y]|[X Y]]]]; congruence.
    1,2: cbn [s_ list_ascii_of_string app map] in EU; injection EU as EU; rewrite !upper_dec in EU; apply dec_inj in EU; auto.
  - destruct (rng_string_ok (w_range a) Hr) as (x & Ex & _ & Fx & _ & Ix).
    exists (s_ "i:" ++ x). split; [unfold wb_class_string; rewrite Hc, Ex; reflexivity|]. split.
    { apply Forall_app. split; [repeat constructor; simpl; intuition discriminate|].
      eapply Forall_impl; [|exact Fx]. simpl. intuition. }
    intros b Hb. destruct (HS b Hb) as (s' & Es). exists s'. split; auto. rewrite Hc. intros Ec EU.
    destruct Hb as [b Hm' Hr' Hf' Hc'|b Hc' Hm' Hrr' Hi'].
    { rewrite <- Ec in Hc'. destruct Hc' as [[X Y]|[[X Y]|[[X Y]|[X Y]]]]; congruence. }
    unfold wb_class_string in Es. rewrite <- Ec in Es.
    destruct (rng_string_ok (w_range b) Hrr') as (x' & Ex' & _). rewrite Ex' in Es. cbn [bind] in Es. injection Es as <-.
    cbn [s_ list_ascii_of_string app map] in EU. injection EU as EU.
    unfold wb_same. rewrite Hc, Ec, (proj2 (fclass_eqb_eq _ _) eq_refl), Hm, Hm', Z.eqb_refl.
    rewrite (Ix _ _ Hrr' Ex' EU). destruct (rng_eq_dec (w_range b) (w_range b)); [reflexivity|congruence].
Qed.

Lemma wb_check_eq a b : wb_ok a -> wb_ok b -> wb_check a b = if wb_same a b then Ok tt else Throw.
Proof.
  intros Ha Hb. unfold wb_check.
  destruct (wb_class_string_ok a Ha) as (s & Es & _ & HS). destruct (HS b Hb) as (s' & Es' & HI). rewrite Es, Es'. cbn [bind].
  destruct (fclass_eqb (w_class a) (w_class b)) eqn:Ec; cbn [andb].
  - apply fclass_eqb_eq in Ec. destruct (iequals s s') eqn:EI.
    + apply iequals_eq in EI. rewrite HI; auto.
    + destruct (wb_same a b) eqn:ES; [|reflexivity]. exfalso.
      assert (E2 : s = s'); [|subst s'; unfold iequals in EI; rewrite (proj2 (str_eqb_eq _ _) eq_refl) in EI; discriminate].
      unfold wb_same in ES. rewrite !andb_true_iff in ES. destruct ES as ((_ & E3) & E4).
      apply Z.eqb_eq in E3. destruct (rng_eq_dec (w_range a) (w_range b)) as [E5|]; [|discriminate].
      unfold wb_class_string in Es, Es'. rewrite <- Ec, <- E3, <- E5 in Es'. congruence.
  - unfold wb_same. rewrite Ec. reflexivity.
Qed.

Lemma wb_same_set a x y : wb_same (wb_set a x) (wb_set a y) = true.
Proof.
  unfold wb_same. cbn [wb_set w_class w_multi w_range]. rewrite (proj2 (fclass_eqb_eq _ _) eq_refl), Z.eqb_refl.
  destruct (rng_eq_dec (w_range a) (w_range a)); [reflexivity|congruence].
Qed.

Lemma check_fw a b : check_class (FW a) (FW b) = wb_check a b. Proof. reflexivity. Qed.
