(** Months of days; the day after a day. *)
From Verif Require Import Base StrModel DateModel DateProofs.
From Coq Require Import Lia ZifyBool.
Local Open Scope Z_scope.

Definition month_idx (n : Z) : Z := let t := from_day_number n in 12 * y_ t + m_ t - 1.
Definition mstart (k : Z) : Z := day_number {| y_ := k / 12; m_ := k mod 12 + 1; d_ := 1 |}.

Lemma ymd_general n : let t := from_day_number n in 1 <= m_ t <= 12 /\ 1 <= d_ t <= end_of_month (y_ t) (m_ t).
Proof.
  destruct (from_parts n) as (b & d & e & m & -> & Hn & Hd & He & Hm & Hl).
  cbn [y_ m_ d_]. destruct (months m e He Hm) as (Hm1 & Hm2 & Hm3).
  pose proof (Z.div_mod b 4 ltac:(lia)) as Hb4. pose proof (Z.mod_pos_bound b 4 ltac:(lia)) as Hb5.
  pose proof (Z.div_mod d 4 ltac:(lia)) as Hd4. pose proof (Z.mod_pos_bound d 4 ltac:(lia)) as Hd5.
  split. { rewrite Hm2; destruct (m <? 10) eqn:E; lia. }
  set (y := 100 * b + d - 4800 + m / 10).
  { assert (HH : m = 0 \/ m = 1 \/ m = 2 \/ m = 3 \/ m = 4 \/ m = 5 \/ m = 6 \/ m = 7 \/ m = 8 \/ m = 9 \/ m = 10 \/ m = 11) by lia.
    unfold end_of_month.
    destruct HH as [E|[E|[E|[E|[E|[E|[E|[E|[E|[E|[E|E]]]]]]]]]]]; subst y; rewrite E in *.
    1-11: clear - Hm He;
      repeat match goal with |- context[Z.div ?a ?b] => let v := eval vm_compute in (Z.div a b) in change (Z.div a b) with v end;
      repeat match goal with |- context[Z.eqb ?a ?b] => let v := eval vm_compute in (Z.eqb a b) in change (Z.eqb a b) with v end;
      cbn [orb]; try match goal with |- context[leap ?y] => destruct (leap y) end; lia.
    set (y := 100 * b + d - 4800 + 11 / 10).
    change ((153 * 11 + 2) / 5) with 337. change (11 + 3 - 12 * (11 / 10) =? 2) with true. cbv iota.
    destruct (Z.eq_dec e 365) as [->|Hne]; [|destruct (leap y); lia].
    assert (EL : leap y = true); [|rewrite EL; lia].
    destruct (Hl eq_refl) as [L1 L2]. clear Hl. change (11 / 10) with 1 in *. unfold leap.
    assert (Y4 : y mod 4 = 0).
    { subst y. symmetry. apply (Z.mod_unique _ 4 (25 * b + d / 4 + 1 - 1200)); lia. }
    rewrite Y4. cbn [Z.eqb andb].
    destruct (Z.eq_dec d 99) as [->|Hd9].
    - assert (Y400 : y mod 400 = 0).
      { subst y. symmetry. apply (Z.mod_unique _ 400 (b / 4 + 1 - 12)); lia. }
      rewrite Y400. apply orb_true_r.
    - assert (Y100 : y mod 100 = d + 1).
      { subst y. symmetry. apply (Z.mod_unique _ 100 (b - 48)); lia. }
      rewrite Y100. replace (d + 1 =? 0) with false by lia. reflexivity. }
Qed.

Lemma leap_diff y : (y + 4800) / 4 - (y + 4800) / 100 + (y + 4800) / 400 - ((y + 4799) / 4 - (y + 4799) / 100 + (y + 4799) / 400) = if leap y then 1 else 0.
Proof.
  assert (G : forall c, 0 < c -> (c | 4800) -> (y + 4800) / c - (y + 4799) / c = if y mod c =? 0 then 1 else 0).
  { intros c Hc (q & Hq). replace (y + 4800) with (y + q * c) by lia. replace (y + 4799) with (y - 1 + q * c) by lia.
    rewrite !Z.div_add by lia. pose proof (Z.div_mod y c ltac:(lia)) as D. pose proof (Z.mod_pos_bound y c Hc).
    destruct (Z.eqb_spec (y mod c) 0) as [E|E].
    - rewrite (div_eq (y - 1) c (y / c - 1)) by (auto; lia). lia.
    - rewrite (div_eq (y - 1) c (y / c)) by (auto; lia). lia. }
  pose proof (G 4 ltac:(lia) ltac:(exists 1200; reflexivity)). pose proof (G 100 ltac:(lia) ltac:(exists 48; reflexivity)).
  pose proof (G 400 ltac:(lia) ltac:(exists 12; reflexivity)). unfold leap.
  assert (A : y mod 100 = 0 -> y mod 4 = 0).
  { intros E. pose proof (Z.div_mod y 100 ltac:(lia)). rewrite (Z.mod_unique y 4 (25 * (y / 100)) 0); lia. }
  assert (B : y mod 400 = 0 -> y mod 100 = 0).
  { intros E. pose proof (Z.div_mod y 400 ltac:(lia)). rewrite (Z.mod_unique y 100 (4 * (y / 400)) 0); lia. }
  destruct (y mod 4 =? 0) eqn:E4, (y mod 100 =? 0) eqn:E100, (y mod 400 =? 0) eqn:E400; cbn [andb orb negb]; lia.
Qed.

Lemma mstart_succ k : mstart (k + 1) = mstart k + end_of_month (k / 12) (k mod 12 + 1).
Proof.
  unfold mstart. pose proof (Z.div_mod k 12 ltac:(lia)) as D. pose proof (Z.mod_pos_bound k 12 ltac:(lia)) as B.
  set (y := k / 12) in *. set (m := k mod 12) in *.
  assert (HH : m = 0 \/ m = 1 \/ m = 2 \/ m = 3 \/ m = 4 \/ m = 5 \/ m = 6 \/ m = 7 \/ m = 8 \/ m = 9 \/ m = 10 \/ m = 11) by lia.
  pose proof (leap_diff y) as LD.
  destruct (Z.eq_dec m 11) as [E|E].
  - assert (E1 : (k + 1) / 12 = y + 1) by (apply div_eq; lia). assert (E2 : (k + 1) mod 12 = 0) by (symmetry; apply (Z.mod_unique _ 12 (y + 1)); lia).
    rewrite E1, E2, E. unfold day_number, end_of_month. cbn [y_ m_ d_].
    change ((14 - (0 + 1)) / 12) with 1. change ((14 - (11 + 1)) / 12) with 0.
    change (11 + 1 =? 2) with false. change ((11 + 1 =? 4) || (11 + 1 =? 6) || (11 + 1 =? 9) || (11 + 1 =? 11)) with false. cbv iota.
    replace (y + 1 + 4800 - 1) with (y + 4800) by lia. rewrite Z.sub_0_r.
    change ((153 * (0 + 1 + 12 * 1 - 3) + 2) / 5) with 306. change ((153 * (11 + 1 + 12 * 0 - 3) + 2) / 5) with 275. lia.
  - assert (E1 : (k + 1) / 12 = y) by (apply div_eq; lia). assert (E2 : (k + 1) mod 12 = m + 1) by (symmetry; apply (Z.mod_unique _ 12 y); lia).
    rewrite E1, E2. clear E1 E2 D B. clearbody y m. unfold day_number, end_of_month. cbn [y_ m_ d_].
    repeat (destruct HH as [HH|HH]); subst m; try congruence;
    repeat match goal with |- context[Z.div (14 - ?a) 12] => let v := eval vm_compute in (Z.div (14 - a) 12) in change (Z.div (14 - a) 12) with v end;
    repeat match goal with |- context[Z.div (153 * ?a + 2) 5] => let v := eval vm_compute in (Z.div (153 * a + 2) 5) in change (Z.div (153 * a + 2) 5) with v end;
    repeat match goal with |- context[Z.eqb ?a ?b] => let v := eval vm_compute in (Z.eqb a b) in change (Z.eqb a b) with v end;
    cbn [orb]; cbv iota; try replace (y + 4800 - 0) with (y + 4800) by lia; try replace (y + 4800 - 1) with (y + 4799) by lia; try lia.
    destruct (leap y); lia.
Qed.

Lemma mstart_lt j k : j < k -> mstart j + 28 <= mstart k.
Proof.
  intros H. replace k with (j + Z.of_nat (S (Z.to_nat (k - j - 1)))) by lia.
  generalize (Z.to_nat (k - j - 1)). clear. intros n. induction n as [|n IH].
  - rewrite mstart_succ. pose proof (end_of_month_31 (j / 12) (j mod 12 + 1)). lia.
  - rewrite Nat2Z.inj_succ. unfold Z.succ. rewrite Z.add_assoc, mstart_succ.
    pose proof (end_of_month_31 ((j + Z.of_nat (S n)) / 12) ((j + Z.of_nat (S n)) mod 12 + 1)). lia.
Qed.

Lemma month_of n : let t := from_day_number n in let k := month_idx n in
  y_ t = k / 12 /\ m_ t = k mod 12 + 1 /\ n = mstart k + d_ t - 1 /\ mstart k <= n < mstart (k + 1).
Proof.
  cbv zeta. destruct (ymd_general n) as (M & D). pose proof (day_from n) as F. unfold month_idx.
  set (t := from_day_number n) in *.
  assert (E1 : (12 * y_ t + m_ t - 1) / 12 = y_ t) by (apply div_eq; lia).
  assert (E2 : (12 * y_ t + m_ t - 1) mod 12 = m_ t - 1) by (symmetry; apply (Z.mod_unique _ 12 (y_ t)); lia).
  rewrite mstart_succ. unfold mstart. rewrite E1, E2. replace (m_ t - 1 + 1) with (m_ t) by lia.
  split; auto. split; [lia|]. unfold day_number in *. cbn [y_ m_ d_] in *. lia.
Qed.

Lemma month_unique n k : mstart k <= n < mstart (k + 1) -> month_idx n = k.
Proof.
  intros H. destruct (month_of n) as (_ & _ & _ & H2). set (j := month_idx n) in *.
  destruct (Z.lt_trichotomy j k) as [L|[L|L]]; auto.
  - destruct (Z.eq_dec (j + 1) k) as [<- |]; [lia|]. pose proof (mstart_lt (j + 1) k). lia.
  - destruct (Z.eq_dec (k + 1) j) as [<- |]; [lia|]. pose proof (mstart_lt (k + 1) j). lia.
Qed.

(** The day after [n]: the next day of the month, or the first day of the next month. *)
Lemma month_succ n : (month_idx (n + 1) = month_idx n /\ d_ (from_day_number (n + 1)) = d_ (from_day_number n) + 1) \/
  (month_idx (n + 1) = month_idx n + 1 /\ d_ (from_day_number (n + 1)) = 1 /\ 28 <= d_ (from_day_number n)).
Proof.
  destruct (month_of n) as (_ & _ & H1 & H2). destruct (month_of (n + 1)) as (_ & _ & H3 & H4). set (k := month_idx n) in *.
  destruct (Z_lt_le_dec (n + 1) (mstart (k + 1))) as [L|L].
  - left. assert (E : month_idx (n + 1) = k) by (apply month_unique; lia). rewrite E in *. lia.
  - right. pose proof (mstart_lt (k + 1) (k + 1 + 1) ltac:(lia)). pose proof (mstart_lt k (k + 1) ltac:(lia)).
    assert (E : month_idx (n + 1) = k + 1) by (apply month_unique; lia). rewrite E in *. lia.
Qed.

(** Years. *)
Definition ystart (y : Z) : Z := day_number {| y_ := y; m_ := 1; d_ := 1 |}.
Lemma ystart_mstart y : ystart y = mstart (12 * y).
Proof. unfold mstart, ystart. replace (12 * y / 12) with y by (symmetry; apply div_eq; lia).
  replace (12 * y mod 12) with 0 by (apply (Z.mod_unique _ 12 y); lia). reflexivity. Qed.
Lemma ystart_succ y : ystart (y + 1) = ystart y + (if leap y then 366 else 365).
Proof.
  pose proof (leap_diff y). unfold ystart, day_number. cbn [y_ m_ d_]. change ((14 - 1) / 12) with 1.
  replace (y + 1 + 4800 - 1) with (y + 4800) by lia. replace (y + 4800 - 1) with (y + 4799) by lia. destruct (leap y); lia.
Qed.
Lemma year_of n : let y := y_ (from_day_number n) in ystart y <= n < ystart (y + 1).
Proof.
  cbv zeta. destruct (month_of n) as (E1 & E2 & _ & H). set (k := month_idx n) in *. set (y := y_ (from_day_number n)) in *.
  rewrite !ystart_mstart. pose proof (Z.div_mod k 12 ltac:(lia)). pose proof (Z.mod_pos_bound k 12 ltac:(lia)).
  assert (A : mstart (12 * y) <= mstart k). { destruct (Z.eq_dec (12 * y) k) as [-> |]; [lia|]. pose proof (mstart_lt (12 * y) k). lia. }
  assert (B : mstart (k + 1) <= mstart (12 * (y + 1))).
  { destruct (Z.eq_dec (12 * (y + 1)) (k + 1)) as [-> |]; [lia|]. pose proof (mstart_lt (k + 1) (12 * (y + 1))). lia. }
  lia.
Qed.
