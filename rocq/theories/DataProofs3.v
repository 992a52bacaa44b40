From Verif Require Import DataSpec DataModel MatProofs MatProofs2 MatProofs3 MatProofs4 MatProofs5 MatProofs6 MatDotProofs ArrSpec ArrProofs DataProofs DataProofs2.
From Coq Require Import Lia ZifyBool.
Local Open Scope Z_scope.

Lemma narrow_fold : forall l s0 e0, let '(s, e) := fold_left narrow l (s0, e0) in
  (forall t, s <= t <= e <-> s0 <= t <= e0 /\ forall r, In r l -> i_start r <= t <= i_end r) /\
  (s = s0 \/ exists r, In r l /\ s = i_start r) /\ s0 <= s /\ (e = e0 \/ exists r, In r l /\ e = i_end r) /\ e <= e0.
Proof.
  induction l as [|r l IH]; intros s0 e0.
  - cbn. split; [|lia]. intros t. split; [|tauto]. intros H. split; [auto|tauto].
  - cbn [fold_left]. unfold narrow at 2. cbn [fst snd]. specialize (IH (if s0 <? i_start r then i_start r else s0) (if i_end r <? e0 then i_end r else e0)).
    destruct (fold_left narrow l _) as (s, e). destruct IH as (H1 & H2 & H3 & H4 & H5).
    split; [|split; [|split; [|split]]].
    + intros t. rewrite H1. split.
      * intros (Ha & Hb). split; [destruct (s0 <? i_start r) eqn:?, (i_end r <? e0) eqn:?; lia|]. intros r' [<-|Hr]; [destruct (s0 <? i_start r) eqn:?, (i_end r <? e0) eqn:?; lia|auto].
      * intros (Ha & Hb). pose proof (Hb r (or_introl eq_refl)). split; [destruct (s0 <? i_start r) eqn:?, (i_end r <? e0) eqn:?; lia|]. intros r' Hr. apply Hb. right. auto.
    + destruct H2 as [-> |(r' & Hr & ->)]; [|right; exists r'; split; [right|]; auto]. destruct (s0 <? i_start r); [right; exists r; split; [left|]; auto|left; auto].
    + destruct (s0 <? i_start r) eqn:?; lia.
    + destruct H4 as [-> |(r' & Hr & ->)]; [|right; exists r'; split; [right|]; auto]. destruct (i_end r <? e0); [right; exists r; split; [left|]; auto|left; auto].
    + destruct (i_end r <? e0) eqn:?; lia.
Qed.

Lemma Forall2_nth {A B} (P : A -> B -> Prop) : forall l r, Forall2 P l r -> forall k x, nth_error l k = Some x -> exists y, nth_error r k = Some y /\ P x y.
Proof. induction 1 as [|x y l r H F IH]; intros [|k] z E; cbn in *; try discriminate; [injection E as <-; eauto|eauto]. Qed.
Lemma Forall2_in_r {A B} (P : A -> B -> Prop) : forall l r, Forall2 P l r -> forall y, In y r -> exists x, In x l /\ P x y.
Proof. induction 1 as [|x y l r H F IH]; intros z []; [subst; exists x; split; [left|]; auto|]. destruct (IH z H0) as (u & Hu & Pu). exists u. split; [right|]; auto. Qed.
Lemma Forall2_in_l {A B} (P : A -> B -> Prop) : forall l r, Forall2 P l r -> forall x, In x l -> exists y, In y r /\ P x y.
Proof. induction 1 as [|x y l r H F IH]; intros z []; [subst; exists y; split; [left|]; auto|]. destruct (IH z H0) as (u & Hu & Pu). exists u. split; [right|]; auto. Qed.

Section Ts.
Context {A : Type}.
Variable by_row : bool.
Variable M : mat (option A).
Hypothesis W : mat_ok M.
Hypothesis HT : 0 < n_times by_row M.
Notation nv := (n_vars by_row M).
Notation nt := (n_times by_row M).
Notation good := (good_range by_row M).

Lemma covered_iff i r t : good i r -> (covered by_row M i t <-> i_start r <= t <= i_end r).
Proof.
  intros (_ & Ks & Ke & B). split.
  - intros (a & b & Hab & Ka & Kb). pose proof (B _ Ka). pose proof (B _ Kb). lia.
  - intros H. exists (i_start r), (i_end r). auto.
Qed.
Lemma all_known_good : forall is rs, Forall2 (range_for by_row M) is rs -> (forall i, In i is -> exists t, known_at by_row M i t) ->
  Forall2 good is rs /\ existsb is_not_valid rs = false.
Proof.
  induction 1 as [|i r is rs H F IH]; intros K; [split; auto|]. destruct IH as (F' & E); [intros; apply K; right; auto|].
  destruct H as [H|(_ & N)]; [|destruct (K i (or_introl eq_refl)) as (t & Kt); exfalso; eapply N; eauto].
  split; [constructor; auto|]. cbn [existsb]. destruct H as (V & _). rewrite V, E. auto.
Qed.
Lemma data_ok st : (forall i, 0 <= i < nv -> exists t, known_at by_row M i t) ->
  exists st' ms, ts_data by_row true M st = Ok st' /\ Forall2 good (zrange 0 nv) (ts_ranges st') /\
    ts_missing st' = ts_missing st ++ ms /\ (forall i, In i ms <-> 0 <= i < nv /\ has_gap by_row M i) /\
    ts_has_missing st' = ts_has_missing st || negb (match ms with [] => true | _ => false end).
Proof.
  intros K. unfold ts_data. fold nv.
  destruct (data_loop_ok by_row M W HT (zrange 0 nv) {| ts_ranges := []; ts_has_missing := ts_has_missing st; ts_missing := ts_missing st |} (zrange_Forall nv)) as (st' & rs & ms & E & R & F2 & Ms & G & Hm).
  rewrite E. cbn [bind]. cbn in R, Ms, Hm.
  destruct (all_known_good _ _ F2) as (F3 & V). { intros i Hi. apply in_zrange in Hi. apply K. lia. }
  rewrite R, V. exists st', ms. rewrite R. split; auto. split; auto. split; auto. split; auto. intros i. rewrite G, in_zrange. split; intros (H1 & H2); split; auto; lia.
Qed.
Lemma data_throw st i : 0 <= i < nv -> (forall t, ~ known_at by_row M i t) -> ts_data by_row true M st = Throw.
Proof.
  intros Hi N. unfold ts_data. fold nv.
  destruct (data_loop_ok by_row M W HT (zrange 0 nv) {| ts_ranges := []; ts_has_missing := ts_has_missing st; ts_missing := ts_missing st |} (zrange_Forall nv)) as (st' & rs & ms & E & R & F2 & _).
  rewrite E. cbn [bind]. cbn in R. rewrite R.
  destruct (Forall2_in_l _ _ _ F2 i) as (r & Hr & P). { apply in_zrange. lia. }
  replace (existsb is_not_valid rs) with true; auto. symmetry. apply existsb_exists. exists r. split; auto.
  destruct P as [(_ & Ks & _)|(V & _)]; auto. exfalso. eapply N; eauto.
Qed.

Lemma range_bounds i r : good i r -> 0 <= i_start r < nt /\ 0 <= i_end r < nt.
Proof. intros (_ & Ks & Ke & _). split; [apply (known_in by_row M HT i _ Ks)|apply (known_in by_row M HT i _ Ke)]. Qed.
Lemma biggest_ok rs idx ix : nt <= int_max -> Forall2 good (zrange 0 nv) rs ->
  match idx with Some l => l = ix | None => ix = zrange 0 nv end ->
  Forall (fun i => 0 <= i < nv) ix -> ix <> [] ->
  exists s e, biggest rs idx = Ok (s, e) /\ (forall t, s <= t <= e <-> forall i, In i ix -> covered by_row M i t) /\ 0 <= s < nt /\ 0 <= e < nt.
Proof.
  intros HI F2 Hix Fix Ne.
  assert (G : exists l, (match idx with Some ix => rmap (at_range rs) ix | None => Ok rs end) = Ok l /\ Forall2 good ix l).
  { destruct idx as [l|].
    - subst l. clear Ne. induction ix as [|i t IH]; [exists []; auto|]. apply Forall_cons_iff in Fix. destruct Fix as (Hi & Fix). destruct IH as (l & El & Fl); auto.
      destruct (Forall2_nth _ _ _ F2 (Z.to_nat i) i) as (r & Er & Gr). { rewrite zrange_nth by lia. f_equal. lia. }
      exists (r :: l). cbn [rmap]. unfold at_range at 1. replace (i <? 0) with false by lia. rewrite Er. cbn [bind]. rewrite El. cbn [bind]. split; auto.
    - subst ix. exists rs. auto. }
  destruct G as (l & El & Fl). unfold biggest. rewrite El. cbn [bind]. pose proof (narrow_fold l 0 int_max) as NF.
  destruct (fold_left narrow l (0, int_max)) as (s, e). destruct NF as (H1 & H2 & H3 & H4 & H5). exists s, e. split; auto.
  assert (B : exists i r, In i ix /\ In r l /\ good i r). { destruct Fl as [|i r ix' l' Gr Fl]; [congruence|]. exists i, r. split; [left; auto|]. split; [left|]; auto. }
  destruct B as (i0 & r0 & Hi0 & Hr0 & G0). pose proof (range_bounds _ _ G0) as B0.
  split; [|split].
  - intros t. rewrite H1. split.
    + intros (_ & H) i Hi. destruct (Forall2_in_l _ _ _ Fl i Hi) as (r & Hr & Gr). apply (covered_iff i r); auto.
    + intros H. split. { pose proof (H i0 Hi0) as C. apply (covered_iff i0 r0) in C; auto. lia. }
      intros r Hr. destruct (Forall2_in_r _ _ _ Fl r Hr) as (i & Hi & Gr). apply (covered_iff i r); auto.
  - split; [lia|]. destruct H2 as [-> |(r & Hr & ->)]; [lia|]. destruct (Forall2_in_r _ _ _ Fl r Hr) as (i & Hi & Gr). apply (range_bounds i r Gr).
  - destruct H4 as [-> |(r & Hr & ->)].
    + split; [unfold int_max; lia|]. exfalso. destruct (Z.eq_dec int_max (i_end r0)) as [Q|Q]; [lia|].
      pose proof (proj1 (H1 (Z.max s int_max))). destruct (Z.le_gt_cases s int_max) as [L|L].
      * destruct (proj1 (H1 int_max) ltac:(lia)) as (_ & H6). pose proof (H6 r0 Hr0). lia.
      * destruct H2 as [-> |(r & Hr & ->)]; [unfold int_max in *; lia|]. destruct (Forall2_in_r _ _ _ Fl r Hr) as (i & Hi & Gr). pose proof (range_bounds i r Gr). lia.
    + destruct (Forall2_in_r _ _ _ Fl r Hr) as (i & Hi & Gr). apply (range_bounds i r Gr).
Qed.

Lemma update_ok (has_nan select : bool) st idx storage ix : nt <= int_max ->
  (has_nan = true -> Forall2 good (zrange 0 nv) (ts_ranges st)) ->
  (if select then idx = Some ix else ix = upto nv) ->
  Forall (fun i => 0 <= i < nv) ix -> ix <> [] -> (has_nan || select = true) ->
  (Z.to_nat nt * length ix <= length storage)%nat ->
  exists T d, ts_update by_row has_nan select M st idx (Some storage) = Ok T /\ t_store T = Some d /\
    (forall t, t_start T <= t <= t_end T <-> if has_nan then (forall i, In i ix -> covered by_row M i t) else 0 <= t < nt) /\
    (if by_row then t_rows T else t_cols T) = Z.of_nat (length ix) /\ (if by_row then t_cols T else t_rows T) = t_end T - t_start T + 1 /\
    0 <= t_start T < nt /\ 0 <= t_end T < nt /\
    forall k t, 0 <= k < Z.of_nat (length ix) -> t_start T <= t <= t_end T ->
      obs by_row (Mat (Z.to_nat (t_rows T)) (Z.to_nat (t_cols T)) d) k (t - t_start T) = obs by_row M (at_index ix k) t.
Proof.
  intros HI G Hsel F Ne Hor Hst.
  assert (WIN : exists s e, (if has_nan then biggest (ts_ranges st) (if select then Some ix else None) else Ok (0, nt - 1)) = Ok (s, e) /\
     (forall t, s <= t <= e <-> if has_nan then (forall i, In i ix -> covered by_row M i t) else 0 <= t < nt) /\ 0 <= s < nt /\ 0 <= e < nt).
  { destruct has_nan.
    - destruct (biggest_ok (ts_ranges st) (if select then Some ix else None) ix HI (G eq_refl)) as (s & e & E & H1 & H2 & H3); auto.
      { destruct select; auto. }
      exists s, e. auto.
    - exists 0, (nt - 1). split; auto. split; [intros; lia|]. lia. }
  destruct WIN as (s & e & E & H1 & H2 & H3).
  assert (WC : window_count s e = Ok (e - s + 1)). { unfold window_count. replace (int_max <? e - s + 1) with false by lia. auto. }
  unfold ts_update. destruct select.
  - subst idx.
    replace (if has_nan then biggest (ts_ranges st) (Some ix) else Ok (0, (if by_row then ncols M else nrows M) - 1)) with (@Ok (Z * Z) (s, e)) by (rewrite <- E; destruct has_nan; auto).
    cbn [bind]. rewrite WC. cbn [bind]. set (n := e - s + 1) in *. set (k := Z.of_nat (length ix)) in *.
    destruct (Z.le_gt_cases 0 n) as [Hn|Hn].
    + destruct (get_sub_idx_ok M (if by_row then Mat (length ix) (Z.to_nat n) storage else Mat (Z.to_nat n) (length ix) storage) s n ix (negb by_row) 0 0 false) as (R & ER & B); auto; try lia.
      { unfold mat_ok. destruct by_row; cbn [rows cols data]; nia. }
      { unfold n_times in *. destruct by_row; cbn [negb]; lia. }
      { unfold n_vars in F. destruct by_row; cbn [negb]; auto. }
      { destruct by_row; cbn [negb]; rewrite nrows_mk; unfold chosen; lia. }
      { destruct by_row; cbn [negb]; rewrite ncols_mk; unfold chosen; lia. }
      exists (TsR s e (if by_row then k else n) (if by_row then n else k) (Some (data R))), (data R).
      split. { unfold ts_store. destruct by_row; cbn [negb] in *.
        - replace ((k <? 0) || (n <? 0)) with false by lia. unfold k at 1. rewrite Nat2Z.id. rewrite ER. reflexivity.
        - replace ((n <? 0) || (k <? 0)) with false by lia. unfold k at 1. rewrite Nat2Z.id. rewrite ER. reflexivity. }
      cbn [t_start t_end t_rows t_cols t_store]. split; auto. split; auto. split; [destruct by_row; auto|]. split; [destruct by_row; auto|]. split; auto. split; auto.
      intros q t Hq Ht. destruct B as [B1 B2 _ B3 _]. unfold obs. destruct by_row; cbn [negb] in *; cbn [rows cols] in B1, B2.
      * replace (Mat (Z.to_nat k) (Z.to_nat n) (data R)) with R by (destruct R; cbn in *; f_equal; lia).
        rewrite B3 by (split; rewrite ?nrows_mk, ?ncols_mk; lia). unfold in_block, chosen. fold k. replace ((0 <=? q) && (q <? 0 + k) && (0 <=? t - s) && (t - s <? 0 + n)) with true by lia.
        rewrite !Z.sub_0_r. f_equal. lia.
      * replace (Mat (Z.to_nat n) (Z.to_nat k) (data R)) with R by (destruct R; cbn in *; f_equal; lia).
        rewrite B3 by (split; rewrite ?nrows_mk, ?ncols_mk; lia). unfold in_block, chosen. fold k. replace ((0 <=? t - s) && (t - s <? 0 + n) && (0 <=? q) && (q <? 0 + k)) with true by lia.
        rewrite !Z.sub_0_r. f_equal. lia.
    + exists (TsR s e (if by_row then k else n) (if by_row then n else k) (Some storage)), storage.
      split. { unfold ts_store. destruct by_row; [replace ((k <? 0) || (n <? 0)) with true by lia|replace ((n <? 0) || (k <? 0)) with true by lia]; reflexivity. }
      cbn [t_start t_end t_rows t_cols t_store]. split; auto. split; auto. split; [destruct by_row; auto|]. split; [destruct by_row; auto|]. split; auto. split; auto. intros; lia.
  - destruct has_nan; [|discriminate]. rewrite E. cbn [bind]. rewrite WC. cbn [bind]. set (n := e - s + 1) in *.
    assert (Ek : Z.of_nat (length ix) = nv). { subst ix. rewrite upto_length. destruct (Z.le_gt_cases 0 nv); [lia|]. unfold n_vars, nrows, ncols in *. destruct by_row; lia. }
    assert (AT : forall q, 0 <= q < nv -> at_index ix q = q). { intros q Hq. subst ix. apply at_upto. auto. }
    destruct (Z.le_gt_cases 0 n) as [Hn|Hn].
    + destruct (get_sub_ok M (if by_row then Mat (rows M) (Z.to_nat n) storage else Mat (Z.to_nat n) (cols M) storage) (if by_row then 0 else s) (if by_row then s else 0) (if by_row then nrows M else n) (if by_row then n else ncols M) 0 0) as (R & ER & B); auto; try lia.
      { unfold mat_ok. unfold n_vars, n_times, nrows, ncols in *. destruct by_row; cbn [rows cols data]; nia. }
      all: try (unfold n_times, n_vars in *; destruct by_row; rewrite ?nrows_mk, ?ncols_mk; unfold nrows, ncols in *; lia).
      exists (TsR s e (if by_row then nrows M else n) (if by_row then n else ncols M) (Some (data R))), (data R).
      split. { unfold ts_store. destruct by_row.
        - replace ((nrows M <? 0) || (n <? 0)) with false by (unfold nrows; lia). replace (Z.to_nat (nrows M)) with (rows M) by (unfold nrows; lia). rewrite ER. reflexivity.
        - replace ((n <? 0) || (ncols M <? 0)) with false by (unfold ncols; lia). replace (Z.to_nat (ncols M)) with (cols M) by (unfold ncols; lia). rewrite ER. reflexivity. }
      cbn [t_start t_end t_rows t_cols t_store]. split; auto. split; auto. split; [rewrite Ek; unfold n_vars; destruct by_row; auto|]. split; [destruct by_row; auto|]. split; auto. split; auto.
      intros q t Hq Ht. rewrite AT by lia. destruct B as [B1 B2 _ B3 _]. unfold obs, n_vars, n_times in *. destruct by_row; cbn [rows cols] in B1, B2.
      * replace (Mat (Z.to_nat (nrows M)) (Z.to_nat n) (data R)) with R by (destruct R; cbn in *; unfold nrows; f_equal; lia).
        rewrite B3 by (split; rewrite ?nrows_mk, ?ncols_mk; unfold nrows in *; lia). unfold in_block. replace ((0 <=? q) && (q <? 0 + nrows M) && (0 <=? t - s) && (t - s <? 0 + n)) with true by lia.
        f_equal; lia.
      * replace (Mat (Z.to_nat n) (Z.to_nat (ncols M)) (data R)) with R by (destruct R; cbn in *; unfold ncols; f_equal; lia).
        rewrite B3 by (split; rewrite ?nrows_mk, ?ncols_mk; unfold ncols in *; lia). unfold in_block. replace ((0 <=? t - s) && (t - s <? 0 + n) && (0 <=? q) && (q <? 0 + ncols M)) with true by lia.
        f_equal; lia.
    + exists (TsR s e (if by_row then nrows M else n) (if by_row then n else ncols M) (Some storage)), storage.
      split. { unfold ts_store. destruct by_row; [replace ((nrows M <? 0) || (n <? 0)) with true by lia|replace ((n <? 0) || (ncols M <? 0)) with true by lia]; reflexivity. }
      cbn [t_start t_end t_rows t_cols t_store]. split; auto. split; auto. split; [rewrite Ek; unfold n_vars; destruct by_row; auto|]. split; [destruct by_row; auto|]. split; auto. split; auto. intros; lia.
Qed.
End Ts.
