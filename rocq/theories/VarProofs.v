(** Proofs about VarModel: timelines, Trim, the table of variables. *)
From Verif Require Import ArrModel ArrSpec ArrProofs ArrProofs2 DateProofs FreqModel FreqSpec FreqProofs FreqProofs2 FreqProofs3 FreqProofs4 VarModel VarSpec.
From Coq Require Import ZifyBool.
Local Open Scope Z_scope.

Lemma regular_step f n : regular f ->
  exists g, next n f = Ok g /\ regular g /\ (forall m, next m g = next (n + m) f) /\ next 0 f = Ok f /\
    minus g f = Ok n /\ is_newer g f = Ok (0 <? n) /\ is_older g f = Ok (n <? 0).
Proof.
  intros H. destruct f as [p|b|w|b|l|l]; cbn [regular] in H; try contradiction.
  - exists (FCs (p + n)). cbn [next]. split; auto. split; [exact I|]. split. { intros m. do 2 f_equal. lia. }
    split. { rewrite Z.add_0_r. reflexivity. }
    split. { unfold minus. replace (check_class (FCs (p + n)) (FCs p)) with (@Ok unit tt) by reflexivity. cbn [bind]. f_equal. lia. }
    unfold is_newer, is_older, compare. replace (check_class (FCs (p + n)) (FCs p)) with (@Ok unit tt) by reflexivity. cbn [bind].
    destruct (p <? p + n) eqn:E1; [|destruct (p + n <? p) eqn:E2]; split; f_equal; lia.
  - destruct (year_steps (FY b) n 0 H) as (g & h & H1 & H2 & H3 & H0 & H4 & H5 & H6 & H7).
    exists g. split; auto. split. { destruct g; try (destruct H6 as (? & ? & ? & ? & ? & _ & _ & E); discriminate E). exact H6. }
    split. { intros m. destruct (year_steps (FY b) n m H) as (g' & h' & A1 & A2 & A3 & _). congruence. }
    split; auto. split; auto.
    destruct (year_order g (FY b) H6 H H7) as (d & D1 & _ & _ & _ & _ & D2 & D3 & _). assert (d = n) by congruence. subst d. auto.
  - destruct H as [Hv Hn]. pose proof (w_valid_ok w Hv) as Hok.
    assert (E : forall m, next m (FW w) = Ok (FW (wb_set w (wb_shift w m)))). { intros m. cbn [next]. rewrite wb_next_eq by auto. reflexivity. }
    exists (FW (wb_set w (wb_shift w n))). split; auto.
    split. { split; [exact (w_valid_shift w n Hv)|exact Hn]. }
    split. { intros m. rewrite E. cbn [next]. rewrite wb_next_eq by (apply wb_shift_ok; auto). cbn [bind]. rewrite wb_shift_add by auto. reflexivity. }
    split. { rewrite E, wb_shift_0, wb_set_same by auto. reflexivity. }
    apply not_single_iff in Hn.
    assert (HS : wb_same (wb_set w (wb_shift w n)) w = true) by (apply wb_same_mk; reflexivity).
    destruct (wb_pair (wb_set w (wb_shift w n)) w n Hok HS eq_refl) as (P1 & P2 & _). rewrite Hn in P1.
    assert (CK : check_class (FW (wb_set w (wb_shift w n))) (FW w) = Ok tt) by (apply check_same; auto using wb_shift_ok).
    split. { unfold minus. rewrite CK. exact P1. }
    assert (HC : compare (FW (wb_set w (wb_shift w n))) (FW w) = Ok (Z.sgn n)). { unfold compare. rewrite CK. cbn [bind]. rewrite P2. reflexivity. }
    destruct (wrappers _ _ _ HC) as (_ & A & B & _). auto.
  - destruct H as [Hd Hn].
    destruct (day_steps (FD b) n 0 Hd) as (g & h & H1 & H2 & H3 & H0 & H4 & H5 & H6 & H7 & (k & K1 & K2) & H8).
    destruct (H8 Hn) as (M1 & _ & _ & _ & M2 & M3 & _).
    exists g. split; auto.
    split. { cbn [next] in H1. destruct (db_next n b) as [b'| |] eqn:E; try discriminate. cbn [bind] in H1. injection H1 as <-. cbn [regular].
      split; auto. apply day_freq_ok in Hd. destruct Hd as (b0 & _ & Hb & E0). injection E0 as <-.
      rewrite db_next_eq in E by auto. injection E as <-. exact Hn. }
    split. { intros m. destruct (day_steps (FD b) n m Hd) as (g' & h' & A1 & A2 & A3 & _). congruence. }
    auto.
Qed.

(** Frequencies that differ only in how the day was moved behave alike. *)
Definition nolist (f : freq) : Prop := match f with FLs _ | FLd _ => False | _ => True end.
Lemma regular_nolist f : regular f -> nolist f. Proof. destruct f; simpl; auto. Qed.

Lemma plain_nolist f : nolist (plain f) <-> nolist f.
Proof. destruct f as [p|b|w|b|l|l]; simpl; try tauto; destruct (l_out l =? 0); simpl; tauto. Qed.

Lemma next_plain n f : nolist f -> next n (plain f) = match next n f with Ok g => Ok (plain g) | Throw => Throw | UB => UB end.
Proof.
  assert (W : forall m w, wb_next m (plain_w w) = match wb_next m w with Ok g => Ok (plain_w g) | Throw => Throw | UB => UB end).
  { intros m [d r fw mu c]. unfold wb_next, plain_w. cbn [w_class w_day w_multi w_range].
    destruct c; try reflexivity; match goal with |- context [bind ?d _] => destruct d; reflexivity end. }
  destruct f as [p|b|w|b|l|l]; cbn [nolist plain next]; try contradiction; auto.
  - intros _. rewrite W. destruct (wb_next n w); reflexivity.
  - intros _. unfold db_next. cbn [h_day h_part h_pos h_class]. rewrite !W.
    destruct (0 <? n).
    + destruct (h_part b <? _); [destruct (wb_next _ (h_day b))|destruct (wb_next _ (h_day b))]; reflexivity.
    + destruct (_ <=? 0); [destruct (wb_next _ (h_day b))|destruct (wb_next _ (h_day b))]; reflexivity.
Qed.

Lemma check_plain f g : nolist f -> nolist g -> check_class (plain f) (plain g) = check_class f g.
Proof. destruct f, g; cbn [nolist]; try contradiction; reflexivity. Qed.
Lemma minus_plain f g : nolist f -> nolist g -> minus (plain f) (plain g) = minus f g.
Proof.
  intros Hf Hg. unfold minus. rewrite check_plain by auto.
  destruct (check_class f g) as [[]| |]; auto. cbn [bind]. destruct f, g; cbn [nolist] in *; try contradiction; reflexivity.
Qed.
Lemma compare_plain f g : nolist f -> nolist g -> compare (plain f) (plain g) = compare f g.
Proof.
  intros Hf Hg. unfold compare. rewrite check_plain by auto.
  destruct (check_class f g) as [[]| |]; auto. cbn [bind]. destruct f, g; cbn [nolist] in *; try contradiction; reflexivity.
Qed.

Lemma nolist_same f g : same_date f g -> nolist g -> nolist f.
Proof. unfold same_date. intros H Hg. apply plain_nolist. rewrite H. apply plain_nolist. auto. Qed.

(** A position on the timeline of [f0]. *)
Definition on (f0 : freq) (t : Z) (f : freq) : Prop := exists g, next t f0 = Ok g /\ same_date f g.

Lemma on_nolist f0 t f : regular f0 -> on f0 t f -> nolist f.
Proof. intros H (g & E & S). destruct (regular_step f0 t H) as (g' & E' & R & _). assert (g = g') by congruence. subst.
  eapply nolist_same; eauto. apply regular_nolist; auto. Qed.

Lemma on_next f0 t f n : regular f0 -> on f0 t f -> exists f', next n f = Ok f' /\ on f0 (t + n) f'.
Proof.
  intros H Ho. assert (NL := on_nolist _ _ _ H Ho). destruct Ho as (g & E & S).
  destruct (regular_step f0 t H) as (g' & E' & R & A & _). assert (g' = g) by congruence. subst g'.
  destruct (regular_step g n R) as (h & Eh & Rh & _).
  assert (P := next_plain n f NL). assert (Q := next_plain n g (regular_nolist _ R)). rewrite S, Q, Eh in P.
  destruct (next n f) as [f'| |]; try discriminate. injection P as P. exists f'. split; auto.
  exists h. split; [rewrite <- A; exact Eh|]. unfold same_date. auto.
Qed.

Lemma on_pair f0 a b fa fb : regular f0 -> on f0 a fa -> on f0 b fb ->
  minus fb fa = Ok (b - a) /\ is_newer fb fa = Ok (0 <? b - a) /\ is_older fb fa = Ok (b - a <? 0).
Proof.
  intros H Ha Hb. assert (Na := on_nolist _ _ _ H Ha). assert (Nb := on_nolist _ _ _ H Hb).
  destruct Ha as (ga & Ea & Sa). destruct Hb as (gb & Eb & Sb).
  destruct (regular_step f0 a H) as (g' & E' & R & A & _). assert (g' = ga) by congruence. subst g'.
  destruct (regular_step ga (b - a) R) as (h & Eh & Rh & _ & _ & M & N & O).
  assert (h = gb). { rewrite A in Eh. replace (a + (b - a)) with b in Eh by lia. congruence. } subst h.
  unfold same_date in *. rewrite <- minus_plain by auto. rewrite Sa, Sb, minus_plain by (apply regular_nolist; auto).
  split; auto. unfold is_newer, is_older in *. rewrite <- (compare_plain fb fa) by auto.
  rewrite Sa, Sb, compare_plain by (apply regular_nolist; auto). auto.
Qed.

Lemma on_unique f0 a b f f' : regular f0 -> on f0 a f -> on f0 b f' -> (a = b <-> same_date f f').
Proof.
  intros H Ha Hb. split.
  - intros <-. destruct Ha as (g & E & S). destruct Hb as (g' & E' & S'). unfold same_date in *. congruence.
  - intros S. destruct (on_pair f0 a b f f' H Ha Hb) as (M & _).
    assert (Hb' : on f0 b f). { destruct Hb as (g & E & S'). exists g. split; auto. unfold same_date in *. congruence. }
    destruct (on_pair f0 a b f f H Ha Hb') as (M2 & _). destruct (on_pair f0 a a f f H Ha Ha) as (M3 & _).
    rewrite M2 in M3. injection M3. lia.
Qed.

(** ** The table of variables *)
Section Table.
Context (f0 : freq) (Hf0 : regular f0).

Lemma span_ok vars ts : Forall2 (fun v t => on f0 t (v_start v)) vars ts -> forall s e a b,
  on f0 a s -> on f0 b e ->
  exists s' e', span_loop vars s e = Ok (s', e') /\
    on f0 (fold_left Z.min ts a) s' /\
    on f0 (fold_left Z.max (map (fun vt => snd vt + len (v_data (fst vt))) (combine vars ts)) b) e' /\
    (s' = s \/ exists v, In v vars /\ s' = v_start v).
Proof.
  induction 1 as [|v t vars ts Hv H IH]; intros s e a b Hs He; cbn [span_loop].
  - exists s, e. simpl. auto.
  - destruct (on_pair f0 t a (v_start v) s Hf0 Hv Hs) as (_ & N & _). rewrite N. cbn [bind].
    destruct (on_next f0 t (v_start v) (len (v_data v)) Hf0 Hv) as (te & E & Ht). unfold end_freq. rewrite E. cbn [bind].
    destruct (on_pair f0 _ b te e Hf0 Ht He) as (_ & _ & O). rewrite O. cbn [bind].
    set (s1 := if 0 <? a - t then v_start v else s). set (e1 := if b - (t + len (v_data v)) <? 0 then te else e).
    assert (Hs1 : on f0 (Z.min a t) s1).
    { unfold s1. destruct (0 <? a - t) eqn:Q; [replace (Z.min a t) with t by lia|replace (Z.min a t) with a by lia]; auto. }
    assert (He1 : on f0 (Z.max b (t + len (v_data v))) e1).
    { unfold e1. destruct (b - (t + len (v_data v)) <? 0) eqn:Q; [rewrite Z.max_r by lia|rewrite Z.max_l by lia]; auto. }
    destruct (IH s1 e1 _ _ Hs1 He1) as (s' & e' & E1 & E2 & E3 & E4). exists s', e'. split; auto. simpl.
    split; auto. split; auto. destruct E4 as [-> |(w & W1 & W2)].
    + unfold s1. destruct (0 <? a - t); [right; exists v; auto|auto].
    + right. exists w. auto.
Qed.

Lemma column_ok s e v a b t : on f0 a s -> on f0 b e -> on f0 t (v_start v) -> a <= t -> t + len (v_data v) <= b ->
  column s e v = Ok (repeat None (Z.to_nat (t - a)) ++ v_data v ++ repeat None (Z.to_nat (b - (t + len (v_data v))))).
Proof.
  intros Hs He Hv L1 L2. unfold column. destruct (on_pair f0 a t s (v_start v) Hf0 Hs Hv) as (M & _). rewrite M. cbn [bind].
  destruct (on_next f0 t (v_start v) (len (v_data v)) Hf0 Hv) as (te & E & Ht). unfold end_freq. rewrite E. cbn [bind].
  destruct (on_pair f0 _ b te e Hf0 Ht He) as (M2 & _). rewrite M2. reflexivity.
Qed.

Lemma columns_ok s e a b : on f0 a s -> on f0 b e -> forall vars ts,
  Forall2 (fun v t => on f0 t (v_start v)) vars ts ->
  Forall2 (fun v t => a <= t /\ t + len (v_data v) <= b) vars ts ->
  exists d, columns s e vars = Ok d /\ List.length d = (List.length vars * Z.to_nat (b - a))%nat /\
   (forall j v t r, nth_error vars j = Some v -> nth_error ts j = Some t -> 0 <= r < b - a ->
      nth_error d (j * Z.to_nat (b - a) + Z.to_nat r) =
        Some (if (a + r - t <? 0) then None else match nth_error (v_data v) (Z.to_nat (a + r - t)) with Some x => x | None => None end)).
Proof.
  intros Hs He vars ts H. induction H as [|v t vars ts Hv H IH]; intros HB; cbn [columns].
  - exists []. split; auto. split; auto. intros [|j] v t r E; discriminate.
  - inversion HB as [|? ? ? ? [B1 B2] HB']; subst. rewrite (column_ok s e v a b t) by auto. cbn [bind].
    destruct (IH HB') as (d & E1 & E2 & E3). rewrite E1. cbn [bind].
    set (c := repeat None (Z.to_nat (t - a)) ++ v_data v ++ repeat None (Z.to_nat (b - (t + len (v_data v))))).
    assert (LC : List.length c = Z.to_nat (b - a)).
    { unfold c. rewrite !app_length, !repeat_length. unfold len in *. lia. }
    exists (c ++ d). split; auto. split; [rewrite app_length, E2, LC; simpl; lia|].
    intros [|j] w u r Hw Hu Hr; simpl in Hw, Hu.
    + injection Hw as <-. injection Hu as <-. simpl. rewrite nth_error_app1 by lia. unfold c.
      destruct (Z.ltb_spec (a + r - t) 0) as [Q|Q].
      * rewrite nth_error_app1 by (rewrite repeat_length; lia). apply nth_error_repeat_lt. lia.
      * rewrite nth_rep by lia. replace (Z.to_nat r - Z.to_nat (t - a))%nat with (Z.to_nat (a + r - t)) by lia.
        destruct (nth_error (v_data v) (Z.to_nat (a + r - t))) as [x|] eqn:E.
        { rewrite nth_error_app1; auto. apply nth_error_Some. congruence. }
        { apply nth_error_None in E. rewrite nth_error_app2 by auto. apply nth_error_repeat_lt. unfold len in *. lia. }
    + rewrite nth_error_app2 by (rewrite LC; simpl; lia).
      rewrite LC. replace (S j * Z.to_nat (b - a) + Z.to_nat r - Z.to_nat (b - a))%nat with (j * Z.to_nat (b - a) + Z.to_nat r)%nat by (simpl; lia).
      apply E3; auto.
Qed.
End Table.

Lemma fold_min_le l : forall a, fold_left Z.min l a <= a /\ (forall x, In x l -> fold_left Z.min l a <= x) /\
  (fold_left Z.min l a = a \/ In (fold_left Z.min l a) l).
Proof.
  induction l as [|y l IH]; intros a; simpl; [split; [lia|split; [tauto|auto]]|].
  destruct (IH (Z.min a y)) as (A & B & C). split; [lia|]. split.
  - intros x [<- |Hx]; [lia|auto].
  - destruct C as [C|C]; auto. rewrite C. destruct (Z.min_spec a y) as [[? ->]|[? ->]]; auto.
Qed.
Lemma fold_max_ge l : forall a, a <= fold_left Z.max l a /\ (forall x, In x l -> x <= fold_left Z.max l a) /\
  (fold_left Z.max l a = a \/ In (fold_left Z.max l a) l).
Proof.
  induction l as [|y l IH]; intros a; simpl; [split; [lia|split; [tauto|auto]]|].
  destruct (IH (Z.max a y)) as (A & B & C). split; [lia|]. split.
  - intros x [<- |Hx]; [lia|auto].
  - destruct C as [C|C]; auto. rewrite C. destruct (Z.max_spec a y) as [[? ->]|[? ->]]; auto.
Qed.

Lemma Forall2_nth {A B} (R : A -> B -> Prop) l l' : Forall2 R l l' -> forall j v, nth_error l j = Some v ->
  exists t, nth_error l' j = Some t /\ R v t.
Proof. induction 1 as [|v t l l' P Q IH]; intros [|j] w Hj; simpl in *; try discriminate.
  - injection Hj as <-. exists t; auto. - apply IH; auto. Qed.
Lemma Forall2_combine {A B} (R : A -> B -> Prop) l l' : Forall2 R l l' -> forall v t, In (v, t) (combine l l') -> R v t.
Proof. induction 1 as [|v t l l' P Q IH]; simpl; intros w u; [tauto|].
  intros [E|E]; [injection E as <- <-; auto|apply IH; auto]. Qed.
Lemma Forall2_in_r {A B} (R : A -> B -> Prop) l l' : Forall2 R l l' -> forall t, In t l' -> exists v, In v l /\ R v t.
Proof. induction 1 as [|v t l l' P Q IH]; simpl; intros u; [tauto|].
  intros [<- |E]; [exists v; auto|]. destruct (IH u E) as (w & ? & ?). exists w; auto. Qed.

Lemma timeline_ts vars f0 : (forall v, In v vars -> exists t g, next t f0 = Ok g /\ same_date (v_start v) g) ->
  exists ts, Forall2 (fun v t => on f0 t (v_start v)) vars ts.
Proof.
  induction vars as [|v vars IH]; intros H; [exists []; constructor|].
  destruct IH as (ts & Hts). { intros w Hw. apply H. right; auto. }
  destruct (H v (or_introl eq_refl)) as (t & g & E). exists (t :: ts). constructor; auto. exists g; auto.
Qed.

Theorem table_exact vars : one_timeline vars -> (exists v, In v vars /\ v_data v <> []) ->
  exists V, make_variables vars = Ok V /\ vs_names V = map v_name vars /\
    Z.of_nat (List.length (vs_data V)) = vs_nobs V * len vars /\
    (* the table starts with the earliest start and ends with the latest end *)
    (exists v, In v vars /\ vs_start V = v_start v) /\
    (forall v, In v vars -> exists k, 0 <= k /\ k + len (v_data v) <= vs_nobs V /\
        exists g, next k (vs_start V) = Ok g /\ same_date g (v_start v)) /\
    (exists v k g, In v vars /\ next k (vs_start V) = Ok g /\ same_date g (v_start v) /\ k + len (v_data v) = vs_nobs V) /\
    (* every observation is on the row of its date *)
    (forall j v i x, nth_error vars j = Some v -> nth_error (v_data v) i = Some x ->
        exists r g h, cell V j r = Some x /\ next r (vs_start V) = Ok g /\ date v (Z.of_nat i) = Ok h /\ same_date g h) /\
    (* every known cell is an observation of that date *)
    (forall j v r x, nth_error vars j = Some v -> cell V j r = Some (Some x) ->
        exists i g h, nth_error (v_data v) i = Some (Some x) /\ next r (vs_start V) = Ok g /\ date v (Z.of_nat i) = Ok h /\ same_date g h).
Proof.
  intros (f0 & Hf0 & H) (vd & Hvd & Hne). destruct (timeline_ts vars f0 H) as (ts & Hts).
  destruct vars as [|v0 vars]; [contradiction|]. inversion Hts as [|? t0 ? ts' Hv0 Hts']; subst. unfold make_variables.
  destruct (on_next f0 t0 (v_start v0) (len (v_data v0)) Hf0 Hv0) as (e0 & E0 & He0). unfold end_freq at 1. rewrite E0. cbn [bind].
  destruct (span_ok f0 Hf0 _ _ Hts _ _ _ _ Hv0 He0) as (s & e & E1 & Hs & He & HS). rewrite E1. cbn [bind].
  set (all := v0 :: vars) in *. set (ts := t0 :: ts') in *.
  set (ends := map (fun vt => snd vt + len (v_data (fst vt))) (combine all ts)) in *.
  set (a := fold_left Z.min ts t0) in *. set (b := fold_left Z.max ends (t0 + len (v_data v0))) in *.
  destruct (fold_min_le ts t0) as (A1 & A2 & A3). fold a in A1, A2, A3.
  destruct (fold_max_ge ends (t0 + len (v_data v0))) as (B1 & B2 & B3). fold b in B1, B2, B3.
  assert (BND : Forall2 (fun v t => a <= t /\ t + len (v_data v) <= b) all ts).
  { assert (Q : forall (l : list variable) (l' : list Z), Forall2 (fun v t => on f0 t (v_start v)) l l' ->
      (forall t, In t l' -> a <= t) -> (forall x, In x (map (fun vt => snd vt + len (v_data (fst vt))) (combine l l')) -> x <= b) ->
      Forall2 (fun v t => a <= t /\ t + len (v_data v) <= b) l l').
    { induction 1; intros Q1 Q2; constructor; [split; [apply Q1; simpl; auto|apply Q2; simpl; auto]|].
      apply IHForall2; [intros; apply Q1; simpl; auto|intros; apply Q2; simpl; auto]. }
    apply Q; auto. }
  destruct (on_pair f0 a b s e Hf0 Hs He) as (M & _). rewrite M. cbn [bind].
  assert (POS : 0 < b - a).
  { destruct (In_nth_error _ _ Hvd) as (j & Hj).
    destruct (Forall2_nth _ _ _ BND j vd Hj) as (t & _ & T1 & T2).
    assert (0 < len (v_data vd)) by (unfold len; destruct (v_data vd); [congruence|simpl; lia]). lia. }
  replace (b - a =? 0) with false by lia. cbv zeta.
  replace ((b - a) * len all <? 0) with false by (symmetry; apply Z.ltb_ge; unfold len; nia).
  destruct (columns_ok f0 Hf0 s e a b Hs He all ts Hts BND) as (d & D1 & D2 & D3). rewrite D1. cbn [bind].
  assert (LD : len d = (b - a) * len all). { unfold len. rewrite D2, Nat2Z.inj_mul, Z2Nat.id by lia. lia. }
  rewrite LD, Z.ltb_irrefl, Z.sub_diag. simpl repeat. rewrite app_nil_r.
  eexists. split; [reflexivity|]. cbn [vs_names vs_data vs_nobs vs_start].
  assert (IN : forall j v, nth_error all j = Some v -> exists t, nth_error ts j = Some t /\ on f0 t (v_start v) /\ a <= t /\ t + len (v_data v) <= b).
  { intros j v Hj. destruct (Forall2_nth _ _ _ BND j v Hj) as (t & T1 & T2).
    destruct (Forall2_nth _ _ _ Hts j v Hj) as (t' & T3 & T4). assert (t' = t) by congruence. subst t'. exists t. auto. }
  split; auto. split; auto.
  split. { destruct HS as [-> |(v & V1 & V2)]; [exists v0; split; [left; auto|auto]|exists v; auto]. }
  assert (MOVE : forall t v, on f0 t (v_start v) -> exists g, next (t - a) s = Ok g /\ same_date g (v_start v)).
  { intros t v Ht. destruct (on_next f0 a s (t - a) Hf0 Hs) as (g & G1 & G2). exists g. split; auto.
    replace (a + (t - a)) with t in G2 by lia. apply (on_unique f0 t t g (v_start v) Hf0 G2 Ht). reflexivity. }
  split. { intros v Hv. destruct (In_nth_error _ _ Hv) as (j & Hj). destruct (IN j v Hj) as (t & T1 & T2 & T3 & T4).
    exists (t - a). split; [lia|]. split; [lia|]. apply MOVE; auto. }
  split. { assert (LAST : exists v t, In v all /\ on f0 t (v_start v) /\ t + len (v_data v) = b).
    { destruct B3 as [B3|B3].
      - exists v0, t0. split; [left; auto|]. auto.
      - unfold ends in B3. apply in_map_iff in B3. destruct B3 as ((v & t) & B4 & B5). simpl in B4.
        exists v, t. split; [eapply in_combine_l; eauto|]. split; [|unfold b, ends; exact B4].
        apply (Forall2_combine _ _ _ Hts _ _ B5). }
    destruct LAST as (v & t & L1 & L2 & L3). destruct (MOVE t v L2) as (g & G1 & G2). exists v, (t - a), g. split; auto. split; auto. split; auto. lia. }
  split.
  - intros j v i x Hj Hi. destruct (IN j v Hj) as (t & T1 & T2 & T3 & T4).
    assert (Hlt : Z.of_nat i < len (v_data v)). { unfold len. assert (i < List.length (v_data v))%nat by (apply nth_error_Some; congruence). lia. }
    exists (t - a + Z.of_nat i). unfold cell. cbn [vs_nobs vs_data].
    replace ((0 <=? t - a + Z.of_nat i) && (t - a + Z.of_nat i <? b - a)) with true by lia.
    destruct (on_next f0 a s (t - a + Z.of_nat i) Hf0 Hs) as (g & G1 & G2).
    destruct (on_next f0 t (v_start v) (Z.of_nat i) Hf0 T2) as (h & H1 & H2). exists g, h.
    split. { rewrite (D3 j v t) by (auto; lia). replace (a + (t - a + Z.of_nat i) - t) with (Z.of_nat i) by lia.
      replace (Z.of_nat i <? 0) with false by lia. rewrite Nat2Z.id, Hi. reflexivity. }
    split; auto. split; auto. apply (on_unique f0 _ _ g h Hf0 G2 H2). lia.
  - intros j v r x Hj Hc. destruct (IN j v Hj) as (t & T1 & T2 & T3 & T4).
    unfold cell in Hc. cbn [vs_nobs vs_data] in Hc.
    destruct ((0 <=? r) && (r <? b - a)) eqn:Q; [|discriminate].
    rewrite (D3 j v t) in Hc by (auto; lia). injection Hc as Hc.
    destruct (Z.ltb_spec (a + r - t) 0) as [L|L]; [discriminate|].
    destruct (nth_error (v_data v) (Z.to_nat (a + r - t))) as [y|] eqn:E; [|discriminate]. subst y.
    destruct (on_next f0 a s r Hf0 Hs) as (g & G1 & G2).
    destruct (on_next f0 t (v_start v) (a + r - t) Hf0 T2) as (h & H1 & H2).
    exists (Z.to_nat (a + r - t)), g, h. split; auto. split; auto. unfold date. rewrite Z2Nat.id by lia. split; auto.
    apply (on_unique f0 _ _ g h Hf0 G2 H2). lia.
Qed.

Theorem table_empty vars : one_timeline vars -> (forall v, In v vars -> v_data v = []) -> 
  (forall v w, In v vars -> In w vars -> same_date (v_start v) (v_start w)) -> make_variables vars = Throw.
Proof.
  intros (f0 & Hf0 & H) He HS. destruct (timeline_ts vars f0 H) as (ts & Hts).
  destruct vars as [|v0 vars]; [reflexivity|]. inversion Hts as [|? t0 ? ts' Hv0 Hts']; subst. unfold make_variables.
  destruct (on_next f0 t0 (v_start v0) (len (v_data v0)) Hf0 Hv0) as (e0 & E0 & He0). unfold end_freq at 1. rewrite E0. cbn [bind].
  destruct (span_ok f0 Hf0 _ _ Hts _ _ _ _ Hv0 He0) as (s & e & E1 & Hs & Hee & _). rewrite E1. cbn [bind].
  set (all := v0 :: vars) in *. set (ts := t0 :: ts') in *.
  assert (AT : forall t, In t ts -> t = t0).
  { intros t Ht. destruct (Forall2_in_r _ _ _ Hts t Ht) as (v & V1 & V2).
    apply (on_unique f0 t t0 (v_start v) (v_start v0) Hf0 V2 Hv0). apply HS; auto. left; auto. }
  assert (fold_left Z.min ts t0 = t0).
  { destruct (fold_min_le ts t0) as (_ & _ & [A|A]); auto. }
  assert (fold_left Z.max (map (fun vt => snd vt + len (v_data (fst vt))) (combine all ts)) (t0 + len (v_data v0)) = t0).
  { rewrite (He v0) by (left; auto). replace (t0 + len []) with t0 by (unfold len; simpl; lia).
    destruct (fold_max_ge (map (fun vt => snd vt + len (v_data (fst vt))) (combine all ts)) t0) as (_ & _ & [A|A]); auto.
    apply in_map_iff in A. destruct A as ((v & t) & A1 & A2). cbn [fst snd] in A1.
    rewrite (He v) in A1 by (eapply in_combine_l; eauto). unfold len in A1 at 1. simpl Datatypes.length in A1.
    assert (t = t0) by (apply AT; eapply in_combine_r; eauto). lia. }
  rewrite H0 in Hs. rewrite H1 in Hee. destruct (on_pair f0 _ _ s e Hf0 Hs Hee) as (M & _). rewrite M. cbn [bind].
  rewrite Z.sub_diag. reflexivity.
Qed.
