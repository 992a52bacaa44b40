(** Proofs about ArrModel: ranges and interpolation. *)
From Verif Require Import ArrModel ArrSpec.
Local Open Scope nat_scope.

Lemma nth_error_repeat_lt {A} (x : A) n j : j < n -> nth_error (repeat x n) j = Some x.
Proof. revert j; induction n as [|n IH]; intros [|j] H; simpl; try lia; auto. apply IH; lia. Qed.

Lemma nth_rep {A} (x : A) a l i : a <= i -> nth_error (repeat x a ++ l) i = nth_error l (i - a).
Proof. intros H. rewrite nth_error_app2 by (rewrite repeat_length; auto). rewrite repeat_length. reflexivity. Qed.

Lemma read_ok {A} (d : list A) (j : nat) x : nth_error d j = Some x -> read d (Z.of_nat j) = Ok x.
Proof. intros H. unfold read. replace (Z.of_nat j <? 0)%Z with false by (symmetry; apply Z.ltb_ge; lia).
  rewrite Nat2Z.id, H. reflexivity. Qed.

(** ** Shape of data with at least one known value *)
Lemma start_spec {A} (d : list (option A)) :
  (start_loop d = length d /\ d = repeat None (length d)) \/
  (exists v r, d = repeat None (start_loop d) ++ Some v :: r).
Proof.
  induction d as [|[x|] d IH]; simpl.
  - left; auto.
  - right; exists x, d; auto.
  - destruct IH as [[E1 E2]|(v & r & E)].
    + left; split; [lia|]. congruence.
    + right; exists v, r. simpl. congruence.
Qed.

Lemma end_spec {A} (d : list (option A)) n : n <= length d ->
  (end_loop d n = 0 /\ firstn n d = repeat None n) \/
  (exists v k, n = end_loop d n + 1 + k /\ nth_error d (end_loop d n) = Some (Some v) /\
     forall j, end_loop d n < j < n -> nth_error d j = Some None).
Proof.
  induction n as [|n IH]; intros H; simpl.
  - left; auto.
  - destruct (nth_error d n) as [[x|]|] eqn:E.
    + right; exists x, 0. split; [lia|]. split; auto. intros; lia.
    + destruct IH as [[E1 E2]|(v & k & E1 & E2 & E3)]; [lia| |].
      * left. split; auto.
        assert (F : firstn (S n) d = firstn n d ++ [None]).
        { clear -E. revert d E; induction n as [|n IH]; intros [|a d] E; simpl in *; try discriminate; auto.
          - congruence. - f_equal. apply IH. auto. }
        change (firstn (S n) d = repeat None (S n)). rewrite F, E2. symmetry. simpl. apply repeat_cons.
      * right; exists v, (S k). split; [lia|]. split; auto. intros j Hj.
        destruct (Nat.eq_dec j n) as [-> |N]; auto. apply E3; lia.
    + apply nth_error_None in E. lia.
Qed.

Lemma no_known_repeat {A} n j : ~ known (repeat (@None A) n) j.
Proof. intros [v H]. unfold val in H. apply nth_error_In, repeat_spec in H. discriminate. Qed.

Lemma first_of {A} (v : A) a r : first_known (repeat None a ++ Some v :: r) a.
Proof.
  split.
  - exists v. unfold val. rewrite nth_rep by lia.
    rewrite Nat.sub_diag. reflexivity.
  - intros j [w H]. unfold val in H. destruct (le_lt_dec a j) as [L|L]; auto.
    rewrite nth_error_app1 in H by (rewrite repeat_length; lia).
    rewrite nth_error_repeat_lt in H by auto. discriminate.
Qed.

(** Data with a known value: leading part, middle, trailing part. *)
Lemma shape {A} (d : list (option A)) :
  (d = repeat None (length d) /\ start_loop d = length d /\ end_loop d (length d) = 0) \/
  (exists v, d = repeat None (start_loop d) ++ [Some v] ++ repeat None (length d - start_loop d - 1) /\
      end_loop d (length d) = start_loop d) \/
  (exists v w m, d = repeat None (start_loop d) ++ (Some v :: m ++ [Some w]) ++
                     repeat None (length d - 1 - end_loop d (length d)) /\
      end_loop d (length d) = start_loop d + length m + 1).
Proof.
  destruct (start_spec d) as [[E1 E2]|(v & r & E)].
  - left; split; auto; split; auto.
    destruct (end_spec d (length d)) as [[E3 _]|(w & k & _ & E4 & _)]; auto.
    rewrite E2 in E4 at 1. apply nth_error_In, repeat_spec in E4. discriminate.
  - set (s := start_loop d) in *.
    assert (L : length d = s + 1 + length r).
    { rewrite E, app_length, repeat_length. simpl. lia. }
    destruct (end_spec d (length d) (le_n _)) as [[E3 E4]|(w & k & E3 & E4 & E5)].
    { exfalso. rewrite firstn_all in E4. destruct (first_of v s r) as [[w Hw] _].
      unfold val in Hw. rewrite <- E, E4 in Hw. apply nth_error_In, repeat_spec in Hw. discriminate. }
    set (e := end_loop d (length d)) in *.
    assert (S : s <= e).
    { assert (K : known d e) by (exists w; auto). rewrite E in K. apply (first_of v s r) in K. lia. }
    right. destruct (Nat.eq_dec e s) as [Q|Q].
    + left. exists v. split; auto. rewrite E at 1. f_equal. simpl. f_equal.
      apply list_ext_nth_error. intros j.
      destruct (le_lt_dec (length r) j) as [J|J].
      * rewrite (proj2 (nth_error_None _ _)) by auto. symmetry. apply nth_error_None.
        rewrite repeat_length. lia.
      * rewrite nth_error_repeat_lt by lia.
        specialize (E5 (s + 1 + j) ltac:(lia)). rewrite E in E5.
        rewrite nth_rep in E5 by lia.
        replace (s + 1 + j - s) with (Datatypes.S j) in E5 by lia. exact E5.
    + right. exists v, w, (firstn (e - s - 1) r). split.
      * rewrite E at 1. f_equal. simpl. f_equal.
        rewrite <- app_assoc. simpl.
        rewrite <- (firstn_skipn (e - s - 1) r) at 1. f_equal.
        assert (W : nth_error r (e - s - 1) = Some (Some w)).
        { rewrite E in E4. rewrite nth_rep in E4 by lia.
          replace (e - s) with (Datatypes.S (e - s - 1)) in E4 by lia. exact E4. }
        apply list_ext_nth_error. intros j.
        assert (N : forall i, nth_error (skipn (e - s - 1) r) i = nth_error r (e - s - 1 + i)).
        { clear. intros i. generalize (e - s - 1). intros n. revert r; induction n as [|n IH]; intros [|a r]; simpl; auto.
          destruct i; auto. }
        rewrite N. destruct j as [|j]; simpl.
        { rewrite Nat.add_0_r. exact W. }
        destruct (le_lt_dec (length r) (e - s - 1 + Datatypes.S j)) as [J|J].
        { rewrite (proj2 (nth_error_None _ _)) by auto. symmetry. apply nth_error_None.
          rewrite repeat_length. lia. }
        rewrite nth_error_repeat_lt by lia.
        specialize (E5 (e + 1 + j) ltac:(lia)). rewrite E in E5.
        rewrite nth_rep in E5 by lia.
        replace (e + 1 + j - s) with (Datatypes.S (e - s - 1 + Datatypes.S j)) in E5 by lia. exact E5.
      * rewrite firstn_length_le by lia. lia.
Qed.

Lemma missing_spec {A} (d : list (option A)) n : forall i, i + n <= length d ->
  exists m, missing_loop d i n = Ok m /\ (m = true <-> exists j, i <= j < i + n /\ missing d j).
Proof.
  induction n as [|n IH]; intros i H; simpl.
  - exists false. split; auto. split; [discriminate|intros (j & Hj & _); lia].
  - destruct (nth_error d i) as [x|] eqn:E; [|apply nth_error_None in E; lia].
    rewrite (read_ok _ _ _ E). simpl. destruct x as [x|].
    + destruct (IH (S i) ltac:(lia)) as (m & E1 & E2). exists m. split; auto. rewrite E2.
      split; intros (j & Hj & M).
      * exists j; split; auto; lia.
      * destruct (Nat.eq_dec i j) as [-> |N]; [unfold missing in M; congruence|].
        exists j; split; auto; lia.
    + exists true. split; auto. split; auto. intros _. exists i. split; [lia|exact E].
Qed.

Lemma irange_ok (a b : nat) : a <= b ->
  irange_make (Z.of_nat a) (Z.of_nat b) = {| i_start := Z.of_nat a; i_end := Z.of_nat b |}.
Proof. intros H. unfold irange_make.
  replace (_ || _ || _)%bool with false; auto. symmetry. rewrite !orb_false_iff, !Z.ltb_ge. lia. Qed.

Lemma known_repeat_app {A} a (m : list (option A)) b j :
  known (repeat None a ++ m ++ repeat None b) j -> a <= j < a + length m.
Proof.
  intros [v H]. unfold val in H.
  destruct (le_lt_dec a j) as [L|L].
  2:{ rewrite nth_error_app1 in H by (rewrite repeat_length; lia).
      rewrite nth_error_repeat_lt in H by auto. discriminate. }
  rewrite nth_rep in H by lia.
  destruct (le_lt_dec (length m) (j - a)) as [J|J]; [|lia].
  rewrite nth_error_app2 in H by lia. apply nth_error_In, repeat_spec in H. discriminate.
Qed.

Lemma range_cases {A} (d : list (option A)) :
  let s := start_loop d in let e := end_loop d (length d) in
  ((forall j, ~ known d j) /\ s = length d /\ e = 0) \/
  (first_known d s /\ last_known d e /\ s <= e < length d).
Proof.
  intros s e. destruct (shape d) as [(E1 & E2 & E3)|[(v & E1 & E2)|(v & w & m & E1 & E2)]].
  - left; split; [|split; auto]. intros j. rewrite E1. apply no_known_repeat.
  - right. fold s e in E1, E2.
    assert (K : known d s). { rewrite E1. apply first_of. }
    assert (B : forall j, known d j -> s <= j < s + 1). { intros j Hj. rewrite E1 in Hj. apply known_repeat_app in Hj. exact Hj. }
    assert (L : s < length d). { destruct K as [x K]. apply nth_error_Some. unfold val in K. congruence. }
    rewrite E2. repeat split; auto; try lia; intros j Hj; apply B in Hj; lia.
  - right. fold s e in E1, E2.
    assert (K : known d s). { rewrite E1. apply first_of. }
    assert (B : forall j, known d j -> s <= j < s + (2 + length m)).
    { intros j Hj. rewrite E1 in Hj. apply known_repeat_app in Hj. simpl in Hj. rewrite app_length in Hj; simpl in Hj. lia. }
    assert (K2 : known d e).
    { exists w. unfold val. rewrite E1. rewrite nth_rep by lia.
      rewrite nth_error_app1 by (simpl; rewrite app_length; simpl; lia).
      replace (e - s) with (S (length m)) by lia. simpl. rewrite nth_error_app2 by lia.
      rewrite Nat.sub_diag. reflexivity. }
    assert (L : e < length d). { destruct K2 as [x K2]. apply nth_error_Some. unfold val in K2. congruence. }
    repeat split; auto; try lia; intros j Hj; apply B in Hj; lia.
Qed.

(** C21 *)
Lemma range_exact {A} (d : list (option A)) : d <> [] ->
  exists r m, get_range d = r /\ get_range_m d = Ok (r, m) /\
   ((exists a b, first_known d a /\ last_known d b /\ is_not_valid r = false /\
        i_start r = Z.of_nat a /\ i_end r = Z.of_nat b /\
        (m = true <-> exists j, a < j < b /\ missing d j)) \/
    ((forall j, ~ known d j) /\ is_not_valid r = true /\ m = false)).
Proof.
  intros Hne. unfold get_range, get_range_m.
  destruct (range_cases d) as [(N & E1 & E2)|(F & L & B)].
  - rewrite E1, E2. assert (0 < length d) by (destruct d; simpl; [congruence|lia]).
    replace (0 <? length d) with true by (symmetry; apply Nat.ltb_lt; lia).
    eexists _, _. split; [reflexivity|]. split; [reflexivity|]. right. split; auto. split; auto.
    unfold irange_make, is_not_valid.
    replace (Z.of_nat 0 <? Z.of_nat (length d))%Z with true by (symmetry; apply Z.ltb_lt; lia). reflexivity.
  - set (s := start_loop d) in *. set (e := end_loop d (length d)) in *.
    replace (e <? s) with false by (symmetry; apply Nat.ltb_ge; lia).
    destruct (missing_spec d (e - s + 1) s ltac:(lia)) as (m & E1 & E2). rewrite E1. cbn [bind].
    eexists _, _. split; [reflexivity|]. split; [reflexivity|]. left. exists s, e.
    rewrite irange_ok by lia. split; auto. split; auto. unfold is_not_valid. cbn [i_start i_end].
    split; [apply Z.ltb_ge; lia|]. split; auto. split; auto. rewrite E2.
    split; intros (j & Hj & M).
    + exists j. split; auto. destruct F as [[v F] _]. destruct L as [[w L] _]. unfold val, missing in *.
      destruct (Nat.eq_dec j s) as [-> |]; [congruence|]. destruct (Nat.eq_dec j e) as [-> |]; [congruence|lia].
    + exists j. split; auto. lia.
Qed.

Lemma range_empty {A} : is_not_valid (get_range (@nil (option A))) = false /\ get_range_m (@nil (option A)) = UB.
Proof. split; reflexivity. Qed.

(** ** Interpolation *)
Lemma write_mid {A} (l1 : list A) x y l2 : write (l1 ++ x :: l2) (Z.of_nat (length l1)) y = Ok (l1 ++ y :: l2).
Proof.
  unfold write. replace (_ || _)%bool with false.
  - rewrite Nat2Z.id. f_equal. rewrite <- (Nat.add_0_r (length l1)) at 1. rewrite upd_app_r. reflexivity.
  - symmetry. rewrite orb_false_iff, Z.ltb_ge, Z.leb_gt. rewrite app_length. simpl. lia.
Qed.

(** The cells written for a gap of [g] cells before the value [v]: multiples g, ..., 1 of the step. *)
Fixpoint ramp (v step : Qc) (p n : nat) : cells :=
  match n with O => [] | S m => ramp v step (S p) m ++ [Some (v - qn p * step)%Qc] end.

Lemma fill_ramp v step n : forall p A X1 X2 B i count, length X1 = n -> S (length X2) = p ->
  i = length A + n + length X2 ->
  fill_loop (A ++ X1 ++ X2 ++ B) (Z.of_nat i) v step (Z.of_nat p) n count
  = Ok (A ++ ramp v step p n ++ X2 ++ B, (count + Z.of_nat n)%Z).
Proof.
  induction n as [|n IH]; intros p A X1 X2 B i count H1 H2 H3.
  - destruct X1; [|discriminate]. simpl. rewrite Z.add_0_r. reflexivity.
  - destruct (@exists_last _ X1) as (Y & y & E). { destruct X1; [discriminate|congruence]. }
    subst X1. rewrite app_length in H1. simpl in H1. cbn [fill_loop ramp].
    replace (A ++ (Y ++ [y]) ++ X2 ++ B) with ((A ++ Y) ++ y :: X2 ++ B) by (rewrite <- !app_assoc; reflexivity).
    replace (Z.of_nat i - Z.of_nat p)%Z with (Z.of_nat (length (A ++ Y))) by (rewrite app_length; lia).
    rewrite write_mid. cbn [bind].
    replace (Z.of_nat p + 1)%Z with (Z.of_nat (S p)) by lia.
    replace ((A ++ Y) ++ Some (v - qz (Z.of_nat p) * step)%Qc :: X2 ++ B)
      with (A ++ Y ++ (Some (v - qz (Z.of_nat p) * step)%Qc :: X2) ++ B) by (rewrite <- !app_assoc; reflexivity).
    rewrite IH; [|lia|simpl; lia|simpl; lia].
    f_equal. f_equal; [|lia]. f_equal. rewrite <- !app_assoc. reflexivity.
Qed.

(** Reference function: what the loop makes of the data after a known value [f] and [g] missing cells. *)
Fixpoint fill (f : Qc) (g : nat) (r : cells) : cells :=
  match r with
  | [] => repeat None g
  | None :: r' => fill f (S g) r'
  | Some v :: r' => ramp v ((v - f) / qn (S g)) 1 g ++ Some v :: fill v 0 r'
  end.
Fixpoint filled (g : nat) (r : cells) : nat :=
  match r with [] => 0 | None :: r' => filled (S g) r' | Some _ :: r' => g + filled 0 r' end.
Fixpoint itp (d : cells) : cells :=
  match d with [] => [] | None :: r => None :: itp r | Some v :: r => Some v :: fill v 0 r end.

Lemma ramp_length v s n : forall p, length (ramp v s p n) = n.
Proof. induction n; intros; simpl; auto. rewrite app_length, IHn. simpl. lia. Qed.

Lemma loop_fill (T : cells) : forall R P f g fo count i,
  (g > 0 -> fo = Some f) -> i = length P + 1 + g ->
  interp_loop (P ++ Some f :: repeat None g ++ R ++ T) (Z.of_nat i) (length R)
     (negb (g =? 0)) fo (Z.of_nat (S g)) count
  = Ok (P ++ Some f :: fill f g R ++ T, (count + Z.of_nat (filled g R))%Z).
Proof.
  induction R as [|[v|] R IH]; intros P f g fo count i Hfo Hi.
  - simpl. rewrite Z.add_0_r. reflexivity.
  - cbn [interp_loop length]. rewrite (read_ok _ _ (Some v)).
    2:{ rewrite nth_error_app2 by lia. replace (i - length P) with (S g) by lia. simpl.
        rewrite nth_rep by lia. rewrite Nat.sub_diag. reflexivity. }
    cbn [bind]. destruct g as [|g]; cbn [Nat.eqb negb].
    + cbn [repeat app fill ramp filled].
      change (P ++ Some f :: Some v :: R ++ T) with (P ++ [Some f] ++ (Some v :: R ++ T)).
      rewrite app_assoc. replace (Z.of_nat i + 1)%Z with (Z.of_nat (S i)) by lia.
      specialize (IH (P ++ [Some f]) v 0 fo count (S i)). cbn [Nat.eqb negb repeat app] in IH.
      rewrite IH; [|lia|rewrite app_length; simpl; lia].
      rewrite <- app_assoc. reflexivity.
    + rewrite Hfo by lia.
      change (Some v :: R) with ([Some v] ++ R).
      assert (E : P ++ Some f :: repeat None (S g) ++ ([Some v] ++ R) ++ T
                = (P ++ [Some f]) ++ repeat None (S g) ++ [] ++ (Some v :: R ++ T)).
      { rewrite <- !app_assoc. reflexivity. }
      rewrite E. replace (Z.to_nat (Z.of_nat (S (S g)) - 1)) with (S g) by lia.
      rewrite (fill_ramp v _ (S g) 1 (P ++ [Some f]) (repeat None (S g)) []);
        [|apply repeat_length|reflexivity|rewrite app_length; simpl; lia].
      cbn [bind app]. set (rp := ramp _ _ 1 (S g)).
      replace (Z.of_nat i + 1)%Z with (Z.of_nat (S i)) by lia.
      replace ((P ++ [Some f]) ++ rp ++ Some v :: R ++ T)
        with ((P ++ [Some f] ++ rp) ++ Some v :: repeat None 0 ++ R ++ T) by (simpl; rewrite <- !app_assoc; reflexivity).
      specialize (IH (P ++ [Some f] ++ rp) v 0 (Some f) (count + Z.of_nat (S g))%Z (S i)).
      cbn [Nat.eqb negb] in IH.
      change (Z.of_nat 1) with 1%Z in IH. rewrite IH; [|lia|].
      * cbn [fill filled]. unfold rp. f_equal. f_equal; [|lia].
        rewrite <- !app_assoc. simpl. rewrite <- !app_assoc. reflexivity.
      * rewrite !app_length. unfold rp. rewrite ramp_length. simpl. lia.
  - cbn [interp_loop length]. rewrite (read_ok _ _ None).
    2:{ rewrite nth_error_app2 by lia. replace (i - length P) with (S g) by lia. simpl.
        rewrite nth_rep by lia. rewrite Nat.sub_diag. reflexivity. }
    cbn [bind fill filled].
    assert (E : repeat None g ++ (None :: R) ++ T = repeat (@None Qc) (S g) ++ R ++ T).
    { cbn [repeat]. rewrite repeat_cons. rewrite <- !app_assoc. reflexivity. }
    replace (Z.of_nat i + 1)%Z with (Z.of_nat (S i)) by lia.
    replace (Z.of_nat (S g) + 1)%Z with (Z.of_nat (S (S g))) by lia.
    destruct (Nat.eqb_spec g 0) as [G|G]; cbn [negb].
    + subst g. rewrite E. replace (Z.of_nat i - 1)%Z with (Z.of_nat (length P)) by lia.
      rewrite (read_ok _ _ (Some f)).
      2:{ rewrite nth_error_app2, Nat.sub_diag by lia. reflexivity. }
      cbn [bind]. apply (IH P f 1 (Some f) count (S i)); auto. lia.
    + rewrite E. apply (IH P f (S g) fo count (S i)); [intros; apply Hfo; lia|lia].
Qed.

Lemma fill_trailing f : forall R g b w, fill f g ((R ++ [Some w]) ++ repeat None b) = fill f g (R ++ [Some w]) ++ repeat None b.
Proof.
  intros R; revert f; induction R as [|[v|] R IH]; intros f g b w.
  - simpl. rewrite <- app_assoc. simpl. f_equal. f_equal.
    assert (Q : forall h k, fill w h (repeat None k) = repeat None (h + k)).
    { intros h k; revert h; induction k as [|k IH]; intros h; simpl.
      - f_equal; lia. - rewrite IH. f_equal; lia. }
    rewrite Q. reflexivity.
  - simpl. rewrite IH. rewrite <- app_assoc. reflexivity.
  - simpl. apply IH.
Qed.

Lemma itp_repeat_app a (d : cells) : itp (repeat None a ++ d) = repeat None a ++ itp d.
Proof. induction a; simpl; congruence. Qed.

Lemma num_known_app {A} (a b : list (option A)) : num_known (a ++ b) = num_known a + num_known b.
Proof. unfold num_known. rewrite filter_app, app_length. reflexivity. Qed.
Lemma num_known_repeat {A} n : num_known (repeat (@None A) n) = 0.
Proof. induction n; auto. Qed.
Lemma num_known_ramp v s n : forall p, num_known (ramp v s p n) = n.
Proof. induction n; intros; simpl; auto. rewrite num_known_app, IHn. simpl. unfold num_known. simpl. lia. Qed.

Lemma filled_count : forall R f g, num_known (fill f g R) = num_known R + filled g R.
Proof.
  induction R as [|[v|] R IH]; intros f g; cbn [fill filled].
  - apply num_known_repeat.
  - rewrite num_known_app, num_known_ramp.
    change (Some v :: fill v 0 R) with ([Some v] ++ fill v 0 R). change (Some v :: R) with ([Some v] ++ R).
    rewrite !num_known_app, IH. lia.
  - rewrite IH. reflexivity.
Qed.

Lemma filled_zero : forall R f, (forall j, ~ missing R j) -> fill f 0 R = R.
Proof.
  induction R as [|[v|] R IH]; intros f H; simpl; auto.
  - f_equal. apply IH. intros j Hj. exact (H (S j) Hj).
  - destruct (H 0). reflexivity.
Qed.

Lemma filled_trailing b : forall R g w, filled g ((R ++ [Some w]) ++ repeat None b) = filled g (R ++ [Some w]).
Proof.
  induction R as [|[v|] R IH]; intros g w; simpl.
  - f_equal. generalize 0 at 1. induction b as [|b IH]; intros h; simpl; auto.
  - rewrite IH. reflexivity.
  - apply IH.
Qed.

Lemma interpolate_itp (d : cells) : d <> [] ->
  exists r c, interpolate d = Ok (r, itp d, c) /\ (Z.of_nat (num_known (itp d)) = Z.of_nat (num_known d) + c)%Z.
Proof.
  intros Hne. destruct (range_exact d Hne) as (r & m & E1 & E2 & H).
  unfold interpolate. rewrite E2. cbn [bind].
  assert (Heq : r = irange_make (Z.of_nat (start_loop d)) (Z.of_nat (end_loop d (length d)))) by (symmetry; exact E1).
  clear E1 E2. destruct (shape d) as [(S1 & S2 & S3)|[(v & S1 & S2)|(v & w & mid & S1 & S2)]].
  - assert (m = false).
    { destruct H as [(a & b & [F _] & _)|(_ & _ & M)]; auto. rewrite S1 in F. exfalso. exact (no_known_repeat _ _ F). }
    subst m. exists r, 0%Z. split.
    + f_equal. f_equal. f_equal. rewrite S1. rewrite <- (app_nil_r (repeat None _)), itp_repeat_app. reflexivity.
    + rewrite Z.add_0_r. f_equal. f_equal. rewrite S1. rewrite <- (app_nil_r (repeat None _)), itp_repeat_app. reflexivity.
  - assert (I : itp d = d).
    { rewrite S1. rewrite itp_repeat_app. f_equal. simpl. f_equal.
      generalize (length d - start_loop d - 1). intros n.
      assert (Q : forall h k, fill v h (repeat None k) = repeat None (h + k)).
      { intros h k; revert h; induction k as [|k IH]; intros h; simpl.
        - f_equal; lia. - rewrite IH. f_equal; lia. }
      apply (Q 0). }
    assert (m = false).
    { destruct H as [(a & b & F & L & _ & Ra & Rb & M)|(_ & _ & M)]; auto.
      rewrite Heq, S2, irange_ok in Ra, Rb by lia. simpl in Ra, Rb.
      destruct m; auto. destruct M as [M _]. destruct (M eq_refl) as (j & Hj & _). lia. }
    subst m. exists r, 0%Z. rewrite I. split; auto. lia.
  - set (s := start_loop d) in *. set (e := end_loop d (length d)) in *.
    rewrite Heq, irange_ok by lia. cbn [i_start i_end].
    assert (I : itp d = repeat None s ++ Some v :: fill v 0 (mid ++ [Some w]) ++ repeat None (length d - 1 - e)).
    { rewrite S1 at 1. rewrite itp_repeat_app. f_equal. simpl. f_equal. apply fill_trailing. }
    assert (C : num_known (itp d) = num_known d + filled 0 (mid ++ [Some w])).
    { rewrite I. pose proof (f_equal num_known S1) as K. rewrite K. clear K. rewrite !num_known_app, !num_known_repeat.
      change (Some v :: fill v 0 (mid ++ [Some w]) ++ repeat None (length d - 1 - e))
        with ([Some v] ++ fill v 0 (mid ++ [Some w]) ++ repeat None (length d - 1 - e)).
      change ((Some v :: mid ++ [Some w])) with ([Some v] ++ mid ++ [Some w]).
      rewrite ?num_known_app, ?num_known_repeat, filled_count, ?num_known_app. lia. }
    destruct m.
    + exists {| i_start := Z.of_nat s; i_end := Z.of_nat e |}, (Z.of_nat (filled 0 (mid ++ [Some w]))).
      split; [|lia].
      assert (Hloop : interp_loop d (Z.of_nat s) (Z.to_nat (Z.of_nat e - Z.of_nat s + 1)) false None 1 0
        = Ok (itp d, Z.of_nat (filled 0 (mid ++ [Some w])))).
      { replace (Z.to_nat (Z.of_nat e - Z.of_nat s + 1)) with (S (length (mid ++ [Some w])))
          by (rewrite app_length; simpl; lia).
        cbn [interp_loop].
        rewrite (read_ok _ _ (Some v)).
        2:{ rewrite S1. rewrite nth_rep by lia. rewrite Nat.sub_diag. reflexivity. }
        cbn [bind]. rewrite I.
        replace (Z.of_nat s + 1)%Z with (Z.of_nat (S s)) by lia.
        rewrite S1 at 1.
        pose proof (loop_fill (repeat None (length d - 1 - e)) (mid ++ [Some w]) (repeat None s) v 0 None 0%Z (S s)) as L.
        cbn [Nat.eqb negb repeat] in L. change (Z.of_nat 1) with 1%Z in L.
        change ((Some v :: mid ++ [Some w]) ++ repeat None (length d - 1 - e))
          with (Some v :: (mid ++ [Some w]) ++ repeat None (length d - 1 - e)).
        simpl app at 2 in L. rewrite L; [reflexivity|lia|rewrite repeat_length; lia]. }
      rewrite Hloop. reflexivity.
    + exists {| i_start := Z.of_nat s; i_end := Z.of_nat e |}, 0%Z.
      assert (Z0 : fill v 0 (mid ++ [Some w]) = mid ++ [Some w]).
      { apply filled_zero. intros j Hj.
        destruct H as [(a & b & F & L & _ & Ra & Rb & M)|(N & _)].
        - rewrite Heq, irange_ok in Ra, Rb by lia. simpl in Ra, Rb.
          assert (a = s) by lia. assert (b = e) by lia. subst a b.
          assert (false = true); [apply M|discriminate].
          assert (J : j < length mid).
          { unfold missing in Hj. destruct (le_lt_dec (length mid) j) as [Q|Q]; auto.
            rewrite nth_error_app2 in Hj by auto. destruct (j - length mid) as [|[|q]]; simpl in Hj; discriminate. }
          exists (s + 1 + j). split; [lia|]. unfold missing. rewrite S1.
          rewrite nth_rep by lia.
          replace (s + 1 + j - s) with (S j) by lia. simpl.
          rewrite nth_error_app1 by (rewrite app_length; simpl; lia). exact Hj.
        - apply (N s). rewrite S1. apply first_of. }
      assert (Id : itp d = d). { rewrite I, Z0. symmetry. exact S1. }
      rewrite Id. split; auto. lia.
Qed.

(** ** The reference function meets the specification *)
Lemma nth_ramp v s n : forall p j, j < n -> nth_error (ramp v s p n) j = Some (Some (v - qn (p + (n - 1 - j)) * s)%Qc).
Proof.
  induction n as [|n IH]; intros p j H; [lia|]. cbn [ramp].
  destruct (Nat.eq_dec j n) as [-> |N].
  - rewrite nth_error_app2; rewrite ramp_length; [|lia]. rewrite Nat.sub_diag. cbn [nth_error].
    replace (p + (S n - 1 - n)) with p by lia. reflexivity.
  - rewrite nth_error_app1 by (rewrite ramp_length; lia). rewrite IH by lia.
    replace (S p + (n - 1 - j)) with (p + (S n - 1 - j)) by lia. reflexivity.
Qed.

Lemma fill_length : forall R f g, length (fill f g R) = g + length R.
Proof.
  induction R as [|[v|] R IH]; intros f g; cbn [fill].
  - rewrite repeat_length. simpl. lia.
  - rewrite app_length, ramp_length. cbn [length]. rewrite IH. lia.
  - rewrite IH. simpl. lia.
Qed.

Lemma nth_cat_l {A} (l1 l2 : list A) j : j < length l1 -> nth_error (l1 ++ l2) j = nth_error l1 j.
Proof. apply nth_error_app1. Qed.
Lemma nth_cat_r {A} (l1 l2 : list A) j : nth_error (l1 ++ l2) (length l1 + j) = nth_error l2 j.
Proof. rewrite nth_error_app2 by lia. f_equal. lia. Qed.


Lemma qn_add a b : qn (a + b) = (qn a + qn b)%Qc.
Proof. unfold qn. rewrite Nat2Z.inj_add, qz_add. reflexivity. Qed.

Lemma on_line_shift k a b j va vb : on_line (k + a) (k + b) (k + j) va vb = on_line a b j va vb.
Proof.
  unfold on_line. rewrite !qn_add.
  replace (qn k + qn j - (qn k + qn a))%Qc with (qn j - qn a)%Qc by ring.
  replace (qn k + qn b - (qn k + qn a))%Qc with (qn b - qn a)%Qc by ring. reflexivity.
Qed.

Lemma ramp_line f v g j : 1 <= j <= g ->
  (v - qn (1 + (g - 1 - (j - 1))) * ((v - f) / qn (S g)) = on_line 0 (S g) j f v)%Qc.
Proof.
  intros H. unfold on_line. change (qn 0) with 0%Qc.
  replace (1 + (g - 1 - (j - 1))) with (S g - j) by lia.
  assert (E : (qn (S g) = qn (S g - j) + qn j)%Qc).
  { rewrite <- qn_add. f_equal. lia. }
  assert (P : qn (S g) <> 0%Qc).
  { intros Q. pose proof (qn_pos (S g) ltac:(lia)) as L. rewrite Q in L. discriminate L. }
  replace (qn (S g - j)) with (qn (S g) - qn j)%Qc by (rewrite E; ring).
  field. exact P.
Qed.

(** The specification, cut at a known value. *)
Lemma interpolated_glue f v g R R' :
  interpolated (Some v :: R) (Some v :: R') ->
  interpolated ((Some f :: repeat None g) ++ Some v :: R)
               ((Some f :: ramp v ((v - f) / qn (S g)) 1 g) ++ Some v :: R').
Proof.
  intros [HL HK HG HO].
  set (X := Some f :: repeat None g). set (X' := Some f :: ramp v ((v - f) / qn (S g)) 1 g).
  assert (LX : length X = S g) by (simpl; rewrite repeat_length; auto).
  assert (LX' : length X' = S g) by (simpl; rewrite ramp_length; auto).
  assert (N0 : nth_error (X ++ Some v :: R) (S g) = Some (Some v)).
  { rewrite <- LX, <- (Nat.add_0_r (length X)), nth_cat_r. reflexivity. }
  assert (NX : forall j, 0 < j <= g -> nth_error (X ++ Some v :: R) j = Some None).
  { intros j Hj. rewrite nth_cat_l by lia. destruct j; [lia|]. simpl. apply nth_error_repeat_lt. lia. }
  assert (NR : forall j, nth_error (X ++ Some v :: R) (S g + j) = nth_error (Some v :: R) j).
  { intros j. rewrite <- LX. apply nth_cat_r. }
  assert (NR' : forall j, nth_error (X' ++ Some v :: R') (S g + j) = nth_error (Some v :: R') j).
  { intros j. rewrite <- LX'. apply nth_cat_r. }
  split.
  - rewrite !app_length, LX, LX'. simpl in HL |- *. lia.
  - intros j w H. unfold val in *. destruct (le_lt_dec (S g) j) as [J|J].
    + replace j with (S g + (j - S g)) in H |- * by lia. rewrite NR in H. rewrite NR'. apply HK. exact H.
    + destruct j as [|j]; [exact H|]. rewrite NX in H by lia. discriminate.
  - intros a j b va vb Hab Ha Hb Hm. unfold val, missing in *.
    destruct (le_lt_dec (S g) a) as [J|J].
    + replace a with (S g + (a - S g)) by lia. replace b with (S g + (b - S g)) by lia.
      replace j with (S g + (j - S g)) by lia. rewrite NR', on_line_shift.
      apply HG; try lia.
      * rewrite <- NR. replace (S g + (a - S g)) with a by lia. exact Ha.
      * rewrite <- NR. replace (S g + (b - S g)) with b by lia. exact Hb.
      * intros i Hi. rewrite <- NR. apply Hm. lia.
    + destruct a as [|a]; [|rewrite NX in Ha by lia; discriminate].
      simpl in Ha. injection Ha as <-.
      assert (b = S g).
      { destruct (Nat.lt_trichotomy b (S g)) as [L|[L|L]]; auto.
        - rewrite NX in Hb by lia. discriminate.
        - specialize (Hm (S g) ltac:(lia)). congruence. }
      subst b. rewrite N0 in Hb. injection Hb as <-.
      rewrite nth_cat_l by lia. destruct j as [|j]; [lia|]. simpl. rewrite nth_ramp by lia.
      rewrite <- (ramp_line f v g (S j)) by lia.
      replace (S j - 1) with j by lia. reflexivity.
  - intros j Hj Ho. unfold missing in *. destruct (le_lt_dec (S g) j) as [J|J].
    + replace j with (S g + (j - S g)) in Hj |- * by lia. rewrite NR in Hj. rewrite NR'. apply HO; auto.
      destruct Ho as [Ho|Ho]; [left|right]; intros i [w Hi].
      * specialize (Ho (S g + i) ltac:(exists w; unfold val; rewrite NR; exact Hi)). lia.
      * specialize (Ho (S g + i) ltac:(exists w; unfold val; rewrite NR; exact Hi)). lia.
    + exfalso. destruct j as [|j]; [discriminate|]. destruct Ho as [Ho|Ho].
      * specialize (Ho 0 ltac:(exists f; reflexivity)). lia.
      * specialize (Ho (S g) ltac:(exists v; exact N0)). lia.
Qed.

Lemma fill_interpolated : forall R f g, interpolated (Some f :: repeat None g ++ R) (Some f :: fill f g R).
Proof.
  induction R as [|[v|] R IH]; intros f g.
  - simpl. rewrite app_nil_r. split; auto.
    intros a j b va vb Hab Ha Hb _. exfalso. unfold val in Hb. destruct b; [lia|].
    simpl in Hb. apply nth_error_In, repeat_spec in Hb. discriminate.
  - cbn [fill]. apply interpolated_glue. apply (IH v 0).
  - cbn [fill]. replace (repeat None g ++ None :: R) with (repeat (@None Qc) (S g) ++ R); auto.
    cbn [repeat]. rewrite repeat_cons, <- app_assoc. reflexivity.
Qed.

Lemma itp_interpolated : forall d, interpolated d (itp d).
Proof.
  induction d as [|[v|] d IH]; cbn [itp].
  - split; auto. intros a j b va vb _ Ha. unfold val in Ha. destruct a; discriminate.
  - apply (fill_interpolated d v 0).
  - destruct IH as [HL HK HG HO]. split.
    + simpl. lia.
    + intros [|j] w H; [discriminate|]. apply HK. exact H.
    + intros a j b va vb Hab Ha Hb Hm. destruct a as [|a]; [discriminate|]. destruct j as [|j]; [lia|].
      destruct b as [|b]; [lia|]. change (on_line (S a) (S b) (S j) va vb) with (on_line (1 + a) (1 + b) (1 + j) va vb).
      rewrite on_line_shift. apply HG; auto; try lia. intros i Hi. apply (Hm (S i)). lia.
    + intros [|j] Hj Ho; [reflexivity|]. apply HO; auto. destruct Ho as [Ho|Ho].
      * left. intros i Hi. specialize (Ho (S i) Hi). lia.
      * right. intros i Hi. specialize (Ho (S i) Hi). lia.
Qed.

Lemma interpolate_exact (d : cells) : d <> [] ->
  exists r d' c, interpolate d = Ok (r, d', c) /\ interpolated d d' /\
     (Z.of_nat (num_known d') = Z.of_nat (num_known d) + c)%Z.
Proof.
  intros H. destruct (interpolate_itp d H) as (r & c & E1 & E2).
  exists r, (itp d), c. split; auto. split; auto. apply itp_interpolated.
Qed.

Lemma interpolate_empty : interpolate [] = UB.
Proof. reflexivity. Qed.
