(** Facts about Gregorian dates: the conversions are inverse and days of the week follow each other. *)
From Verif Require Import StrModel StrProofs DateModel.
From Coq Require Import ZifyBool.
Local Open Scope Z_scope.

Lemma div_eq a b q : 0 < b -> b * q <= a < b * q + b -> a / b = q.
Proof. intros Hb H. symmetry. apply (Z.div_unique a b q (a - b * q)); lia. Qed.

(** The intermediate values of from_day_number. *)
Lemma from_parts n : exists b d e m, from_day_number n =
    {| d_ := e - (153 * m + 2) / 5 + 1; m_ := m + 3 - 12 * (m / 10); y_ := 100 * b + d - 4800 + m / 10 |} /\
  n + 32044 = 36524 * b + b / 4 + 365 * d + d / 4 + e /\ 0 <= d <= 99 /\ 0 <= e <= 365 /\ 0 <= 5 * e + 2 - 153 * m < 153 /\
  (e = 365 -> d mod 4 = 3 /\ (d = 99 -> b mod 4 = 3)).
Proof.
  unfold from_day_number.
  set (a := n + 32044). set (b := (4 * a + 3) / 146097).
  assert (Hb : 0 <= 4*a+3 - 146097*b < 146097).
  { subst b. pose proof (Z.div_mod (4*a+3) 146097 ltac:(lia)). pose proof (Z.mod_pos_bound (4*a+3) 146097 ltac:(lia)). lia. }
  assert (E4 : (146097 * b) / 4 = 36524 * b + b / 4).
  { replace (146097 * b) with (b + (36524 * b) * 4) by ring. rewrite Z.div_add by lia. lia. }
  rewrite E4. set (c := a - (36524 * b + b / 4)).
  pose proof (Z.div_mod b 4 ltac:(lia)) as Hb4. pose proof (Z.mod_pos_bound b 4 ltac:(lia)) as Hb5.
  assert (Hc : 0 <= c <= 36524) by lia.
  assert (Hc2 : c = 36524 -> b mod 4 = 3) by lia.
  set (d := (4 * c + 3) / 1461).
  assert (Hd : 0 <= 4*c+3 - 1461*d < 1461).
  { subst d. pose proof (Z.div_mod (4*c+3) 1461 ltac:(lia)). pose proof (Z.mod_pos_bound (4*c+3) 1461 ltac:(lia)). lia. }
  assert (E5 : (1461 * d) / 4 = 365 * d + d / 4).
  { replace (1461 * d) with (d + (365 * d) * 4) by ring. rewrite Z.div_add by lia. lia. }
  rewrite E5. set (e := c - (365 * d + d / 4)).
  pose proof (Z.div_mod d 4 ltac:(lia)) as Hd4. pose proof (Z.mod_pos_bound d 4 ltac:(lia)) as Hd5.
  assert (He : 0 <= e <= 365) by lia.
  set (m := (5 * e + 2) / 153).
  assert (Hm : 0 <= 5*e+2 - 153*m < 153).
  { subst m. pose proof (Z.div_mod (5*e+2) 153 ltac:(lia)). pose proof (Z.mod_pos_bound (5*e+2) 153 ltac:(lia)). lia. }
  exists b, d, e, m. split; [reflexivity|]. repeat split; lia.
Qed.

Lemma months m e : 0 <= e <= 365 -> 0 <= 5 * e + 2 - 153 * m < 153 ->
  0 <= m <= 11 /\ m / 10 = (if m <? 10 then 0 else 1) /\ (14 - (m + 3 - 12 * (m / 10))) / 12 = m / 10.
Proof.
  intros He Hm. assert (0 <= m <= 11) by lia. split; auto.
  assert (E : m / 10 = (if m <? 10 then 0 else 1)) by (destruct (m <? 10) eqn:E; apply div_eq; lia).
  split; auto. rewrite E. destruct (m <? 10) eqn:E2; apply div_eq; lia.
Qed.

(** The day numbers found by [from_day_number] are those it started from. *)
Lemma day_from n : day_number (from_day_number n) = n.
Proof.
  destruct (from_parts n) as (b & d & e & m & -> & Hn & Hd & He & Hm & _).
  unfold day_number. cbn [y_ m_ d_]. destruct (months m e He Hm) as (Hm1 & Hm2 & Hm3). rewrite Hm3.
  replace (m + 3 - 12 * (m / 10) + 12 * (m / 10) - 3) with m by lia.
  replace (100 * b + d - 4800 + m / 10 + 4800 - m / 10) with (100 * b + d) by lia.
  assert (E1 : (100 * b + d) / 4 = 25 * b + d / 4).
  { replace (100 * b + d) with (d + (25 * b) * 4) by ring. rewrite Z.div_add by lia. lia. }
  assert (E2 : (100 * b + d) / 100 = b) by (apply div_eq; lia).
  assert (E3 : (100 * b + d) / 400 = b / 4).
  { replace 400 with (100 * 4) by reflexivity. rewrite <- Z.div_div by lia. rewrite E2. reflexivity. }
  rewrite E1, E2, E3. lia.
Qed.

(** Day of the week in terms of the day number. *)
Lemma dow_eq n : dow n = (n + 1) mod 7.
Proof.
  unfold dow. destruct (from_parts n) as (b & d & e & m & -> & Hn & Hd & He & Hm & _).
  unfold dow_ymd. cbn [y_ m_ d_]. destruct (months m e He Hm) as (Hm1 & Hm2 & Hm3). rewrite Hm3.
  replace (100 * b + d - 4800 + m / 10 - m / 10) with (100 * b + d - 4800) by lia.
  replace (m + 3 - 12 * (m / 10) + 12 * (m / 10) - 2) with (m + 1) by lia.
  assert (E1 : (100 * b + d - 4800) / 4 = 25 * b + d / 4 - 1200).
  { replace (100 * b + d - 4800) with (d + (25 * b - 1200) * 4) by ring. rewrite Z.div_add by lia. lia. }
  assert (E2 : (100 * b + d - 4800) / 100 = b - 48) by (apply div_eq; lia).
  assert (E3 : (100 * b + d - 4800) / 400 = b / 4 - 12).
  { replace 400 with (100 * 4) by reflexivity. rewrite <- Z.div_div by lia. rewrite E2.
    replace (b - 48) with (b + (-12) * 4) by ring. rewrite Z.div_add by lia. lia. }
  rewrite E1, E2, E3.
  assert (HM : (31 * (m + 1) / 12 - (153 * m + 2) / 5) mod 7 = 2).
  { assert (HH : m = 0 \/ m = 1 \/ m = 2 \/ m = 3 \/ m = 4 \/ m = 5 \/ m = 6 \/ m = 7 \/ m = 8 \/ m = 9 \/ m = 10 \/ m = 11) by lia.
    repeat (destruct HH as [->|HH]; [reflexivity|]). subst m. reflexivity. }
  pose proof (Z.div_mod (31 * (m + 1) / 12 - (153 * m + 2) / 5) 7 ltac:(lia)) as HK. rewrite HM in HK.
  set (k := (31 * (m + 1) / 12 - (153 * m + 2) / 5) / 7) in *.
  match goal with |- ?x mod 7 = _ => replace x with (n + 1 + (-5200 * b - 52 * d + k + 3726) * 7) by lia end.
  apply Z.mod_add. lia.
Qed.

Lemma dow_range n : 0 <= dow n < 7.
Proof. rewrite dow_eq. apply Z.mod_pos_bound. lia. Qed.
Lemma dow_add n k : dow (n + k) = (dow n + k) mod 7.
Proof. rewrite !dow_eq. rewrite Z.add_mod_idemp_l by lia. f_equal. lia. Qed.

Lemma end_of_month_31 y m : 28 <= end_of_month y m.
Proof. unfold end_of_month. destruct (m =? 2); [destruct (leap y); lia|]. destruct (_ || _); lia. Qed.

Lemma from_valid n : valid_day n = true -> valid_ymd (from_day_number n) = true.
Proof.
  intros H. unfold valid_day, min_day, max_day in H.
  destruct (from_parts n) as (b & d & e & m & -> & Hn & Hd & He & Hm & Hl).
  unfold valid_ymd. cbn [y_ m_ d_]. destruct (months m e He Hm) as (Hm1 & Hm2 & Hm3).
  pose proof (Z.div_mod b 4 ltac:(lia)) as Hb4. pose proof (Z.mod_pos_bound b 4 ltac:(lia)) as Hb5.
  pose proof (Z.div_mod d 4 ltac:(lia)) as Hd4. pose proof (Z.mod_pos_bound d 4 ltac:(lia)) as Hd5.
  set (y := 100 * b + d - 4800 + m / 10).
  assert (Hday : 1 <= e - (153 * m + 2) / 5 + 1 <= end_of_month y (m + 3 - 12 * (m / 10))).
  { assert (HH : m = 0 \/ m = 1 \/ m = 2 \/ m = 3 \/ m = 4 \/ m = 5 \/ m = 6 \/ m = 7 \/ m = 8 \/ m = 9 \/ m = 10 \/ m = 11) by lia.
    unfold end_of_month.
    destruct HH as [E|[E|[E|[E|[E|[E|[E|[E|[E|[E|[E|E]]]]]]]]]]]; subst y; rewrite E in *.
    1-11: clear - Hm He;
      repeat match goal with |- context[Z.div ?a ?b] => let v := eval vm_compute in (Z.div a b) in change (Z.div a b) with v end;
      repeat match goal with |- context[Z.eqb ?a ?b] => let v := eval vm_compute in (Z.eqb a b) in change (Z.eqb a b) with v end;
      cbn [orb]; try match goal with |- context[leap ?y] => destruct (leap y) end; lia.
    set (y := 100 * b + d - 4800 + 11 / 10).
    change ((153 * 11 + 2) / 5) with 337. change (11 + 3 - 12 * (11 / 10) =? 2) with true. cbv iota.
    destruct (Z.eq_dec e 365) as [->|Hne]; [|destruct (leap y); lia].
    assert (EL : leap y = true); [|rewrite EL; lia].
    destruct (Hl eq_refl) as [L1 L2]. clear Hl. change (11 / 10) with 1 in *. unfold leap.
    assert (Y4 : y mod 4 = 0).
    { subst y. symmetry. apply (Z.mod_unique _ 4 (25 * b + d / 4 + 1 - 1200)); lia. }
    rewrite Y4. cbn [Z.eqb andb].
    destruct (Z.eq_dec d 99) as [->|Hd9].
    - assert (Y400 : y mod 400 = 0).
      { subst y. symmetry. apply (Z.mod_unique _ 400 (b / 4 + 1 - 12)); lia. }
      rewrite Y400. apply orb_true_r.
    - assert (Y100 : y mod 100 = d + 1).
      { subst y. symmetry. apply (Z.mod_unique _ 100 (b - 48)); lia. }
      rewrite Y100. replace (d + 1 =? 0) with false by lia. reflexivity. }
  assert (Hmon : 1 <= m + 3 - 12 * (m / 10) <= 12) by (rewrite Hm2; destruct (m <? 10) eqn:E; lia).
  assert (Hy : 1400 <= y <= 9999).
  { subst y. rewrite Hm2. destruct (m <? 10) eqn:E; lia. }
  lia.
Qed.

Lemma iso_parse_iso n : valid_day n = true -> iso_parse (iso n) = Ok n.
Proof.
  intros H. unfold iso. pose proof (from_valid n H) as HV. set (t := from_day_number n) in *.
  pose proof (end_of_month_31 (y_ t) (m_ t)) as HE.
  assert (HE2 : end_of_month (y_ t) (m_ t) <= 31).
  { unfold end_of_month. destruct (m_ t =? 2); [destruct (leap _); lia|]. destruct (_ || _); lia. }
  assert (HVV := HV). unfold valid_ymd in HVV.
  assert (HD : forall a, 0 <= a mod 10 < 10) by (intros; apply Z.mod_pos_bound; lia).
  unfold iso_parse, pad4, pad2. cbn [app map].
  rewrite !digit_val_digit; try apply HD;
    try (split; [apply Z.div_pos; lia|apply Z.div_lt_upper_bound; lia]).
  assert (EY : 1000 * (y_ t / 1000) + 100 * (y_ t / 100 mod 10) + 10 * (y_ t / 10 mod 10) + y_ t mod 10 = y_ t).
  { pose proof (Z.div_mod (y_ t) 10 ltac:(lia)). pose proof (Z.div_mod (y_ t / 10) 10 ltac:(lia)) as H2.
    pose proof (Z.div_mod (y_ t / 100) 10 ltac:(lia)) as H3.
    rewrite Z.div_div in H2, H3 by lia. change (10 * 10) with 100 in H2. change (100 * 10) with 1000 in H3. lia. }
  pose proof (Z.div_mod (m_ t) 10 ltac:(lia)) as EM. pose proof (Z.div_mod (d_ t) 10 ltac:(lia)) as ED.
  replace {| y_ := _; m_ := _; d_ := _ |} with t.
  - rewrite HV. f_equal. apply day_from.
  - destruct t as [y m d]. cbn [y_ m_ d_] in *. f_equal; lia.
Qed.

Lemma iso_chars n : valid_day n = true -> Forall is_digit (iso n) /\ List.length (iso n) = 8%nat.
Proof.
  intros H. split; [|reflexivity].
  assert (E : exists l, map digit_val (iso n) = map Some l).
  { pose proof (iso_parse_iso n H) as HP. unfold iso_parse in HP.
    destruct (iso n) as [|c1 [|c2 [|c3 [|c4 [|c5 [|c6 [|c7 [|c8 [|c9 l]]]]]]]]]; cbn [map] in HP; try discriminate HP;
    repeat match type of HP with match digit_val ?c with _ => _ end = _ => destruct (digit_val c) eqn:?; [|discriminate HP] end.
    all: cbn [map]; repeat match goal with E : digit_val _ = _ |- _ => rewrite E; clear E end; try discriminate HP.
    exists [z; z0; z1; z2; z3; z4; z5; z6]. reflexivity. }
  destruct E as (l & E). revert E. generalize (iso n). intros s. revert l.
  induction s as [|c s IH]; intros [|x l] E; try discriminate; constructor.
  - injection E as E1 E2. destruct (digit_of_val c x E1) as [H1 H2]. exists x; auto.
  - injection E as E1 E2. eapply IH; eauto.
Qed.

Lemma iso_inj n m : valid_day n = true -> valid_day m = true -> iso n = iso m -> n = m.
Proof. intros Hn Hm E. apply iso_parse_iso in Hn, Hm. rewrite E in Hn. congruence. Qed.
