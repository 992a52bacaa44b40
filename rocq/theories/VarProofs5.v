(** Conversion of daily variables to periods of a year. *)
From Verif Require Import VarProofs2 VarProofs3 VarProofs4.
From Verif Require Import VarSpec VarProofs FreqProofs DateProofs.
From Coq Require Import Lia ZifyBool.
Local Open Scope Z_scope.

Section Loop.
Context (part idx : Z -> Z) (agg : aggregate).
Context (Hstep : forall n, idx (n + 1) = idx n \/ idx (n + 1) = idx n + 1).
Context (Hpart : forall n, part (n + 1) = part n <-> idx (n + 1) = idx n).

Fixpoint pick (c day : Z) (d : cells) : cells :=
  match d with [] => [] | x :: r => (if idx day =? c then [x] else []) ++ pick c (day + 1) r end.

Lemma idx_mono n k : idx n <= idx (n + Z.of_nat k).
Proof. induction k as [|k IH]; [rewrite Z.add_0_r; lia|]. rewrite Nat2Z.inj_succ. unfold Z.succ. rewrite Z.add_assoc.
  destruct (Hstep (n + Z.of_nat k)); lia. Qed.

Lemma pick_none c : forall d day, (forall k, idx (day + Z.of_nat k) <> c) -> pick c day d = [].
Proof.
  induction d as [|x d IH]; intros day H; cbn [pick]; auto.
  replace (idx day =? c) with false. 2:{ specialize (H 0%nat). rewrite Z.add_0_r in H. lia. }
  apply IH. intros k. specialize (H (S k)). rewrite Nat2Z.inj_succ in H. replace (day + 1 + Z.of_nat k) with (day + Z.succ (Z.of_nat k)) by lia. auto.
Qed.

Lemma loop_exact : forall d day acc, acc <> [] ->
  let c := idx (day - 1) in
  let o := parts_loop part agg day d (part (day - 1)) acc in
  Z.of_nat (length o) = idx (day + Z.of_nat (length d) - 1) - c + 1 /\
  forall b, (b < length o)%nat -> nth_error o b = Some (agg ((if (b =? 0)%nat then acc else []) ++ pick (c + Z.of_nat b) day d)).
Proof.
  induction d as [|x d IH]; intros day acc Ha; cbv zeta; cbn [parts_loop pick].
  - destruct acc as [|a acc]; [congruence|]. cbn [length]. rewrite Z.add_0_r. split; [lia|].
    intros [|b] Hb; [|lia]. cbn. rewrite app_nil_r. reflexivity.
  - assert (P := Hpart (day - 1)). assert (SS := Hstep (day - 1)). rewrite Z.sub_add in P, SS.
    destruct (Z.eqb_spec (part day) (part (day - 1))) as [Q|Q].
    + specialize (IH (day + 1) (acc ++ [x]) ltac:(destruct acc; discriminate)). cbv zeta in IH. rewrite Z.add_simpl_r in IH.
      apply P in Q. destruct IH as (I1 & I2). rewrite Q in I1, I2. split.
      * rewrite I1. cbn [length]. rewrite Nat2Z.inj_succ. do 3 f_equal. lia.
      * intros b Hb. rewrite I2 by auto. rewrite Q. do 2 f_equal. destruct b as [|b]; cbn [Nat.eqb].
        { rewrite Z.add_0_r, Z.eqb_refl, <- app_assoc. reflexivity. }
        replace (idx (day - 1) =? idx (day - 1) + Z.of_nat (S b)) with false by lia. reflexivity.
    + specialize (IH (day + 1) [x] ltac:(discriminate)). cbv zeta in IH. rewrite Z.add_simpl_r in IH.
      assert (Q' : idx day = idx (day - 1) + 1) by (destruct SS as [SS|SS]; auto; exfalso; apply Q; tauto).
      destruct IH as (I1 & I2). cbn [length]. split.
      * rewrite Nat2Z.inj_succ, I1, Nat2Z.inj_succ. replace (day + 1 + Z.of_nat (length d) - 1) with (day + Z.succ (Z.of_nat (length d)) - 1) by lia. lia.
      * intros [|b] Hb; cbn [nth_error Nat.eqb].
        { rewrite Z.add_0_r, Q'. replace (idx (day - 1) + 1 =? idx (day - 1)) with false by lia. cbn [app].
          rewrite pick_none; [rewrite app_nil_r; reflexivity|]. intros k. pose proof (idx_mono day (1 + k)).
          replace (day + 1 + Z.of_nat k) with (day + Z.of_nat (1 + k)) by lia. lia. }
        rewrite I2 by lia. do 2 f_equal. rewrite Q'. replace (idx (day - 1) + 1 + Z.of_nat b) with (idx (day - 1) + Z.of_nat (S b)) by lia.
        destruct b as [|b]; cbn [Nat.eqb app].
        { replace (idx (day - 1) + 1 =? idx (day - 1) + Z.of_nat 1) with true by lia. reflexivity. }
        replace (idx (day - 1) + 1 =? idx (day - 1) + Z.of_nat (S (S b))) with false by lia. reflexivity.
Qed.

Lemma loop_start d day : d <> [] ->
  let o := parts_loop part agg day d (part day) [] in
  Z.of_nat (length o) = idx (day + Z.of_nat (length d) - 1) - idx day + 1 /\
  forall b, (b < length o)%nat -> nth_error o b = Some (agg (pick (idx day + Z.of_nat b) day d)).
Proof.
  intros Hd. destruct d as [|x d]; [congruence|]. cbv zeta. cbn [parts_loop]. rewrite Z.eqb_refl. cbn [app].
  destruct (loop_exact d (day + 1) [x] ltac:(discriminate)) as (I1 & I2). rewrite Z.add_simpl_r in I1, I2. split.
  - rewrite I1. cbn [length]. do 3 f_equal. lia.
  - intros b Hb. rewrite I2 by auto. do 2 f_equal. cbn [pick]. destruct b as [|b]; cbn [Nat.eqb app].
    { rewrite Z.add_0_r, Z.eqb_refl. reflexivity. }
    replace (idx day =? idx day + Z.of_nat (S b)) with false by lia. reflexivity.
Qed.

Lemma pick_filter v c : pick c (start_day v) (v_data v) =
  map (value_on v) (filter (fun d => idx d =? c) (map (fun k => start_day v + Z.of_nat k) (seq 0 (length (v_data v))))).
Proof.
  assert (G : forall d j, (forall i, nth_error (v_data v) (j + i) = nth_error d i) ->
    pick c (start_day v + Z.of_nat j) d = map (value_on v) (filter (fun d => idx d =? c) (map (fun k => start_day v + Z.of_nat k) (seq j (length d))))).
  { induction d as [|x d IH]; intros j Hj; cbn [pick length seq map filter]; auto.
    rewrite <- Z.add_assoc. replace (Z.of_nat j + 1) with (Z.of_nat (S j)) by lia. rewrite (IH (S j)).
    2:{ intros i. replace (S j + i)%nat with (j + S i)%nat by lia. rewrite Hj. reflexivity. }
    destruct (idx (start_day v + Z.of_nat j) =? c); cbn [map app]; auto. f_equal.
    unfold value_on. replace (start_day v + Z.of_nat j - start_day v) with (Z.of_nat j) by lia.
    replace (Z.of_nat j <? 0) with false by lia. rewrite Nat2Z.id. specialize (Hj 0%nat). rewrite Nat.add_0_r in Hj. rewrite Hj. reflexivity. }
  specialize (G (v_data v) 0%nat). rewrite Z.add_0_r in G. apply G. reflexivity.
Qed.

Lemma idx_hit n k c : idx n <= c <= idx (n + Z.of_nat k) -> exists j, (j <= k)%nat /\ idx (n + Z.of_nat j) = c.
Proof.
  induction k as [|k IH]; intros H; [exists 0%nat; split; [lia|]; rewrite Z.add_0_r in *; lia|].
  destruct (Z.eq_dec c (idx (n + Z.of_nat (S k)))) as [-> |]; [exists (S k); auto|].
  rewrite Nat2Z.inj_succ in *. unfold Z.succ in *. rewrite Z.add_assoc in *.
  destruct IH as (j & J1 & J2). { destruct (Hstep (n + Z.of_nat k)); lia. } exists j. split; auto.
Qed.
End Loop.

(** The general conversion: [x] periods per year. *)
Lemma by_period_ok (period : Z -> Z * Z) (x : Z) (part : Z -> Z) agg v w :
  1 <= x -> (forall n, 1 <= snd (period n) <= x) ->
  (forall n, let i k := fst (period k) * x + snd (period k) - 1 in (i (n + 1) = i n \/ i (n + 1) = i n + 1) /\ (part (n + 1) = part n <-> i (n + 1) = i n)) ->
  (exists y, yb_make (fst (period (start_day v))) x (snd (period (start_day v))) 1 = Ok y /\ v_start w = FY y) ->
  v_name w = v_name v -> v_data v <> [] ->
  v_data w = parts_loop part agg (start_day v) (v_data v) (part (start_day v)) [] ->
  by_period period agg v w.
Proof.
  intros Hx Hp Hs (y & Hy & Hw) HN HD HL.
  set (idx := fun k => fst (period k) * x + snd (period k) - 1).
  assert (S1 : forall n, idx (n + 1) = idx n \/ idx (n + 1) = idx n + 1) by (intros n; apply (Hs n)).
  assert (S2 : forall n, part (n + 1) = part n <-> idx (n + 1) = idx n) by (intros n; apply (Hs n)).
  destruct (loop_start part idx agg S1 S2 (v_data v) (start_day v) HD) as (L1 & L2). rewrite <- HL in L1, L2.
  destruct (yb_make_inv _ _ _ _ _ Hy) as (Y1 & Y2 & Y3 & Y4 & _).
  assert (IE : forall n c, 1 <= snd c <= x -> (fst (period n) =? fst c) && (snd (period n) =? snd c) = (idx n =? fst c * x + snd c - 1)).
  { intros n c Hc. unfold idx. specialize (Hp n). destruct (Z.eqb_spec (fst (period n)) (fst c)) as [E|E]; cbn [andb].
    - rewrite E. lia.
    - symmetry. apply Z.eqb_neq. intros E2. apply E. nia. }
  assert (YF : year_freq (v_start w)). { exists (fst (period (start_day v))), x, (snd (period (start_day v))), 1, y. rewrite Hw. auto using Z.le_refl. }
  assert (YP : forall b, exists g, date w b = Ok g /\ 1 <= snd (year_period g) <= x /\ fst (year_period g) * x + snd (year_period g) - 1 = idx (start_day v) + b).
  { intros b. unfold date. rewrite Hw. cbn [next]. eexists. split; [reflexivity|].
    rewrite yb_next_eq by (rewrite Y2, Y3; apply Hp). cbn [year_period yb_set yb_year yb_pos fst snd]. rewrite Y1, Y2, Y3, Y4.
    set (p := snd (period (start_day v)) - 1 + b).
    pose proof (Z.div_mod p x ltac:(lia)). pose proof (Z.mod_pos_bound p x ltac:(lia)). split; [lia|]. unfold idx. unfold p in *. lia. }
  split; auto. split; auto. split. { rewrite Hw. cbn [year_period]. rewrite Y1, Y3. destruct (period (start_day v)); reflexivity. }
  assert (LN : (0 < length (v_data v))%nat) by (destruct (v_data v); [congruence|simpl; lia]).
  split.
  - intros b Hb. destruct (YP (Z.of_nat b)) as (g & G1 & G2 & G3). exists g. split; auto.
    assert (EI : in_period period v (year_period g) = pick idx (idx (start_day v) + Z.of_nat b) (start_day v) (v_data v)).
    { rewrite pick_filter. unfold in_period. f_equal. apply filter_ext. intros n. rewrite IE by auto. f_equal. auto. }
    rewrite EI. split; [apply L2; auto|].
    destruct (idx_hit idx S1 (start_day v) (length (v_data v) - 1) (idx (start_day v) + Z.of_nat b)) as (j & J1 & J2).
    { replace (start_day v + Z.of_nat (length (v_data v) - 1)) with (start_day v + Z.of_nat (length (v_data v)) - 1) by lia. lia. }
    rewrite pick_filter. intros E. apply map_eq_nil in E.
    assert (In (start_day v + Z.of_nat j) (filter (fun d => idx d =? idx (start_day v) + Z.of_nat b)
        (map (fun k => start_day v + Z.of_nat k) (seq 0 (length (v_data v)))))) as I.
    { apply filter_In. split; [|lia]. apply in_map_iff. exists j. split; auto. apply in_seq. lia. }
    rewrite E in I. destruct I.
  - intros d Hd. unfold end_day in Hd.
    pose proof (idx_mono idx S1 (start_day v) (Z.to_nat (d - start_day v))) as M1.
    replace (start_day v + Z.of_nat (Z.to_nat (d - start_day v))) with d in M1 by lia.
    pose proof (idx_mono idx S1 d (Z.to_nat (start_day v + Z.of_nat (length (v_data v)) - 1 - d))) as M2.
    replace (d + Z.of_nat (Z.to_nat (start_day v + Z.of_nat (length (v_data v)) - 1 - d))) with (start_day v + Z.of_nat (length (v_data v)) - 1) in M2 by lia.
    destruct (YP (Z.of_nat (Z.to_nat (idx d - idx (start_day v))))) as (g & G1 & G2 & G3).
    exists (Z.to_nat (idx d - idx (start_day v))), g. split; [lia|]. split; auto.
    assert (E : idx d = fst (year_period g) * x + snd (year_period g) - 1) by lia.
    apply Z.eqb_eq in E. rewrite <- IE in E by auto. destruct (period d), (year_period g). cbn [fst snd] in E. f_equal; lia.
Qed.

Lemma month_period_div x q n : 1 <= x -> x <> 24 -> 12 = q * x ->
  1 <= snd (month_period x n) <= x /\ fst (month_period x n) * x + snd (month_period x n) - 1 = month_idx n / q.
Proof.
  intros Hx Hn Hq. unfold month_period, month_idx. cbn [fst snd]. replace (x =? 24) with false by lia.
  destruct (ymd_general n) as (M & _). set (t := from_day_number n) in *. assert (Q : 1 <= q) by nia.
  assert (E : (m_ t - 1) * x / 12 = (m_ t - 1) / q).
  { rewrite Hq. apply Z.div_mul_cancel_r; lia. }
  rewrite E. pose proof (Z.div_mod (m_ t - 1) q ltac:(lia)) as D. pose proof (Z.mod_pos_bound (m_ t - 1) q ltac:(lia)) as B.
  split. { nia. }
  assert (YQ : y_ t * x * q = 12 * y_ t) by (rewrite <- Z.mul_assoc, (Z.mul_comm x q), <- Hq; ring).
  replace (12 * y_ t + m_ t - 1) with ((m_ t - 1) + (y_ t * x) * q) by lia. rewrite Z.div_add by lia. lia.
Qed.

Theorem month_parts_exact result v x agg : is_daily v -> v_data v <> [] -> In x [1; 2; 3; 4; 6; 12; 24] ->
  exists w, to_xx_year_month result v x (Some agg) = Ok w /\ by_period (month_period x) agg v w.
Proof.
  intros Hd HD Hx. destruct (daily_inv v Hd) as (f & E1 & E2 & E3 & E4).
  assert (X1 : 1 <= x /\ (x = 24 \/ exists q, x <> 24 /\ 12 = q * x)).
  { repeat (destruct Hx as [<- |Hx]); [.. |destruct Hx]; (split; [lia|]); try (left; reflexivity); right;
    first [exists 12; split; [lia|reflexivity]|exists 6; split; [lia|reflexivity]|exists 4; split; [lia|reflexivity]|exists 3; split; [lia|reflexivity]|exists 2; split; [lia|reflexivity]|exists 1; split; [lia|reflexivity]]. }
  destruct X1 as (X1 & X2).
  assert (PM : forall n, get_part_month x n = Ok (if x =? 1 then y_ (from_day_number n) else snd (month_period x n))).
  { intros n. destruct (ymd_general n) as (M & _). unfold get_part_month, month_period. cbn [snd]. set (t := from_day_number n) in *.
    destruct X2 as [-> |_]; [reflexivity|].
    assert (MM : m_ t = 1 \/ m_ t = 2 \/ m_ t = 3 \/ m_ t = 4 \/ m_ t = 5 \/ m_ t = 6 \/ m_ t = 7 \/ m_ t = 8 \/ m_ t = 9 \/ m_ t = 10 \/ m_ t = 11 \/ m_ t = 12) by lia.
    repeat (destruct Hx as [<- |Hx]); [.. |destruct Hx]; try reflexivity;
    repeat (destruct MM as [MM|MM]; [rewrite MM; reflexivity|]); rewrite MM; reflexivity. }
  assert (PB : forall n, 1 <= snd (month_period x n) <= x).
  { intros n. destruct X2 as [-> |(q & Q1 & Q2)]; [|apply (month_period_div x q); auto].
    destruct (ymd_general n) as (M & _). unfold month_period. cbn [snd]. change (24 =? 24) with true. cbv iota.
    destruct (15 <? d_ (from_day_number n)); lia. }
  unfold to_xx_year_month. rewrite E1, E2. rewrite PM. cbn [bind].
  assert (YM : exists y, yb_make (fst (month_period x (start_day v))) x (snd (month_period x (start_day v))) 1 = Ok y).
  { unfold yb_make. specialize (PB (start_day v)). replace (x <=? 0) with false by lia. replace (_ <=? 0) with false by lia. replace (_ <? _) with false by lia. eauto. }
  destruct YM as (y & YM).
  assert (YM2 : (if x =? 1 then yb_make (y_ (from_day_number (w_day f))) 1 1 1
    else yb_make (y_ (from_day_number (w_day f))) x (if x =? 1 then y_ (from_day_number (w_day f)) else snd (month_period x (w_day f))) 1) = Ok y).
  { rewrite E4 in YM. destruct (Z.eqb_spec x 1) as [X|X]; [|exact YM]. subst x. rewrite <- YM. cbn [fst month_period]. f_equal.
    specialize (PB (w_day f)). lia. }
  rewrite YM2. cbn [bind]. eexists. split; [reflexivity|].
  apply (by_period_ok (month_period x) x (part_month x) agg v); auto.
  - intros n. cbv zeta.
    assert (PP : forall n, part_month x n = if x =? 1 then y_ (from_day_number n) else snd (month_period x n)).
    { intros k. unfold part_month. rewrite PM. reflexivity. }
    rewrite !PP. destruct (month_succ n) as [(S1 & S2)|(S1 & S2 & S3)]; destruct X2 as [-> |(q & Q1 & Q2)].
    + (* same month, halves *)
      unfold month_period. cbn [fst snd]. change (24 =? 24) with true. change (24 =? 1) with false. cbv iota.
      destruct (month_of n) as (A1 & A2 & _). destruct (month_of (n + 1)) as (B1 & B2 & _). rewrite A1, A2, B1, B2, S1, S2.
      destruct (15 <? d_ (from_day_number n) + 1) eqn:F1, (15 <? d_ (from_day_number n)) eqn:F2; lia.
    + destruct (month_period_div x q n X1 Q1 Q2) as (_ & A1). destruct (month_period_div x q (n + 1) X1 Q1 Q2) as (_ & B1).
      rewrite A1, B1, S1. split; auto. split; auto. intros _.
      destruct (month_of n) as (A2 & A3 & _). destruct (month_of (n + 1)) as (B2 & B3 & _). unfold month_period. cbn [snd].
      rewrite A2, A3, B2, B3, S1. replace (x =? 24) with false by lia. reflexivity.
    + unfold month_period. cbn [fst snd]. change (24 =? 24) with true. change (24 =? 1) with false. cbv iota.
      destruct (month_of n) as (A1 & A2 & _). destruct (month_of (n + 1)) as (B1 & B2 & _). rewrite A1, A2, B1, B2, S1, S2.
      replace (15 <? 1) with false by reflexivity. replace (15 <? d_ (from_day_number n)) with true by lia.
      set (k := month_idx n). pose proof (Z.div_mod k 12 ltac:(lia)). pose proof (Z.mod_pos_bound k 12 ltac:(lia)).
      pose proof (Z.div_mod (k + 1) 12 ltac:(lia)). pose proof (Z.mod_pos_bound (k + 1) 12 ltac:(lia)). lia.
    + destruct (month_period_div x q n X1 Q1 Q2) as (A0 & A1). destruct (month_period_div x q (n + 1) X1 Q1 Q2) as (B0 & B1).
      assert (Q : 1 <= q) by nia. set (i := fun k => fst (month_period x k) * x + snd (month_period x k) - 1) in *.
      assert (ST : i (n + 1) = i n \/ i (n + 1) = i n + 1).
      { unfold i. rewrite A1, B1, S1. pose proof (Z.div_mod (month_idx n) q ltac:(lia)) as D1. pose proof (Z.mod_pos_bound (month_idx n) q ltac:(lia)).
        pose proof (Z.div_mod (month_idx n + 1) q ltac:(lia)) as D2. pose proof (Z.mod_pos_bound (month_idx n + 1) q ltac:(lia)). nia. }
      fold (i n). fold (i (n + 1)). split; auto. split.
      * intros EQ. destruct ST as [ST|ST]; auto. exfalso. destruct (Z.eqb_spec x 1) as [X|X].
        { subst x. unfold i, month_period in ST. cbn [fst snd] in ST. unfold month_period in A0, B0. cbn [snd] in A0, B0. lia. }
        unfold i in ST. rewrite EQ in ST. clear -ST X X1. revert ST.
        generalize (fst (month_period x (n + 1))) as a, (fst (month_period x n)) as b, (snd (month_period x n)) as c. intros a b c ST.
        assert (D : (a - b) * x = 1) by lia. destruct (Z_le_gt_dec (a - b) 0); nia.
      * intros EQ. unfold i in EQ. destruct (Z.eqb_spec x 1) as [X|X].
        { subst x. unfold month_period in EQ, A0, B0. cbn [fst snd] in EQ, A0, B0. lia. }
        clear -EQ A0 B0 X1. revert EQ A0 B0.
        generalize (fst (month_period x (n + 1))) as a, (fst (month_period x n)) as b, (snd (month_period x n)) as c, (snd (month_period x (n + 1))) as c'.
        intros a b c c' EQ A0 B0. destruct (Z.lt_trichotomy a b) as [L|[->|L]]; nia.
  - exists y. rewrite <- YM. split; [reflexivity|]. cbn [converted v_start]. reflexivity.
  - cbn [converted v_data]. rewrite E4. f_equal. unfold part_month. rewrite PM. reflexivity.
Qed.

(** ** Equal parts of the days of a year *)
Lemma day_period_part x n : day_period x n = (y_ (from_day_number n), get_part x n).
Proof.
  unfold day_period, get_part, day_of_year. f_equal. fold (ystart (y_ (from_day_number n))). fold (ystart (y_ (from_day_number n) + 1)).
  rewrite ystart_succ. do 2 f_equal; [f_equal; lia|]. destruct (leap _); lia.
Qed.

Theorem day_parts_exact result v x agg : is_daily v -> v_data v <> [] -> 2 <= x <= 365 ->
  exists w, to_xx_year result v x (Some agg) = Ok w /\ by_period (day_period x) agg v w.
Proof.
  intros Hd HD Hx. destruct (daily_inv v Hd) as (f & E1 & E2 & E3 & E4).
  assert (DP : forall n, exists t D, (D = 365 \/ D = 366) /\ 0 <= t < D /\ get_part x n = t * x / D + 1 /\ t = n - ystart (y_ (from_day_number n)) /\ D = ystart (y_ (from_day_number n) + 1) - ystart (y_ (from_day_number n))).
  { intros n. pose proof (year_of n) as Y. cbv zeta in Y. set (yy := y_ (from_day_number n)) in *. pose proof (ystart_succ yy) as YS.
    exists (n - ystart yy), (ystart (yy + 1) - ystart yy). split; [destruct (leap yy); lia|]. split; [lia|]. split; [|auto].
    unfold get_part, day_of_year. fold yy. fold (ystart yy). do 2 f_equal; [f_equal; lia|]. destruct (leap yy); lia. }
  assert (PB : forall n, 1 <= get_part x n <= x).
  { intros n. destruct (DP n) as (t & D & HDD & Ht & -> & _). pose proof (Z.div_mod (t * x) D ltac:(lia)). pose proof (Z.mod_pos_bound (t * x) D ltac:(lia)). nia. }
  assert (YM : exists y, yb_make (y_ (from_day_number (w_day f))) x (get_part x (w_day f)) 1 = Ok y).
  { unfold yb_make. specialize (PB (w_day f)). replace (x <=? 0) with false by lia. replace (_ <=? 0) with false by lia. replace (_ <? _) with false by lia. eauto. }
  destruct YM as (y & YM). unfold to_xx_year. rewrite E1, E2, YM. cbn [bind]. eexists. split; [reflexivity|].
  apply (by_period_ok (day_period x) x (get_part x) agg v); auto; try lia.
  - intros n. rewrite day_period_part. apply PB.
  - intros n. cbv beta zeta. rewrite !day_period_part. cbn [fst snd].
    destruct (DP n) as (t & D & HDD & Ht & P1 & T1 & D1). destruct (DP (n + 1)) as (t' & D' & HDD' & Ht' & P2 & T2 & D2).
    pose proof (year_of n) as Y1. pose proof (year_of (n + 1)) as Y2. cbv zeta in Y1, Y2.
    set (a := y_ (from_day_number n)) in *. set (b := y_ (from_day_number (n + 1))) in *.
    assert (AB : (b = a /\ n + 1 < ystart (a + 1)) \/ (b = a + 1 /\ n + 1 = ystart (a + 1))).
    { assert (MONO : forall u w, u < w -> ystart u < ystart w).
      { intros u w0 H. rewrite !ystart_mstart. pose proof (mstart_lt (12 * u) (12 * w0)). lia. }
      destruct (Z.lt_trichotomy b a) as [L|[L|L]].
      - exfalso. destruct (Z.eq_dec (b + 1) a) as [Q|Q]; [rewrite <- Q in *; lia|]. specialize (MONO (b + 1) a). lia.
      - left. rewrite L in *. split; auto. lia.
      - right. destruct (Z.eq_dec b (a + 1)) as [Q|Q]; [rewrite Q in *; split; auto; lia|]. specialize (MONO (a + 1) b). lia. }
    rewrite P1, P2. pose proof (Z.div_mod (t * x) D ltac:(lia)) as M1. pose proof (Z.mod_pos_bound (t * x) D ltac:(lia)) as M2.
    destruct AB as [(AB1 & AB2)|(AB1 & AB2)].
    + assert (EDD : D' = D) by (rewrite D1, D2, AB1; reflexivity). assert (ETT : t' = t + 1) by (rewrite T1, T2, AB1; lia). rewrite EDD, ETT.
      pose proof (Z.div_mod ((t + 1) * x) D ltac:(lia)) as M3. pose proof (Z.mod_pos_bound ((t + 1) * x) D ltac:(lia)) as M4.
      rewrite AB1. assert (S1 : (t + 1) * x / D = t * x / D \/ (t + 1) * x / D = t * x / D + 1).
      { replace ((t + 1) * x) with (t * x + x) in M3, M4 |- * by lia. revert M1 M2 M3 M4. clear -Hx HDD.
        generalize (t * x / D) as q, (t * x mod D) as r, ((t * x + x) / D) as q', ((t * x + x) mod D) as r'. generalize (t * x) as z. intros z q r q' r' M1 M2 M3 M4.
        destruct HDD as [-> | ->]; lia. }
      clear -S1. revert S1. generalize ((t + 1) * x / D) as q', (t * x / D) as q, (a * x) as z. intros. lia.
    + assert (ETT : t' = 0) by (rewrite T2, AB1; lia). rewrite ETT. assert (t = D - 1) by lia. rewrite Z.mul_0_l, Z.div_0_l by lia.
      assert (E : t * x / D = x - 1) by (apply div_eq; nia). rewrite E, AB1. lia.
  - rewrite E4, day_period_part. cbn [fst snd]. exists y. split; auto.
  - cbn [converted v_data]. rewrite E4. reflexivity.
Qed.
