(** The text of a variable can be read back. *)
From Verif Require Import VarTextSpec VarProofs3 StrProofs DateProofs FreqProofs FreqProofs2 FreqProofs3 FreqProofs4.
From Coq Require Import Lia ZifyBool QArith Qabs.
Local Open Scope Z_scope.

(** ** Numbers *)
Lemma pad_digits_digits k : forall n, 0 <= n -> Forall is_digit (pad_digits k n).
Proof.
  induction k as [|k IH]; intros n Hn; cbn [pad_digits]; [constructor|]. apply Forall_app. split.
  - apply IH. apply Z.div_pos; lia.
  - constructor; [|constructor]. exists (n mod 10). split; [apply Z.mod_pos_bound; lia|reflexivity].
Qed.
Lemma pad_digits_length k : forall n, List.length (pad_digits k n) = k.
Proof. induction k as [|k IH]; intros n; cbn [pad_digits]; auto. rewrite app_length, IH. simpl. lia. Qed.
Lemma pad_digits_val k : forall n acc, 0 <= n < 10 ^ Z.of_nat k -> digits acc (pad_digits k n) = acc * 10 ^ Z.of_nat k + n.
Proof.
  induction k as [|k IH]; intros n acc Hn; cbn [pad_digits].
  - change (10 ^ Z.of_nat 0) with 1 in *. cbn [digits]. lia.
  - rewrite Nat2Z.inj_succ, Z.pow_succ_r in * by lia.
    pose proof (Z.div_mod n 10 ltac:(lia)). pose proof (Z.mod_pos_bound n 10 ltac:(lia)).
    rewrite digits_app by (apply pad_digits_digits; apply Z.div_pos; lia). rewrite IH by (split; [apply Z.div_pos; lia|apply Z.div_lt_upper_bound; lia]).
    cbn [digits]. rewrite digit_val_digit by lia. lia.
Qed.

Lemma span_digits_app a r : Forall is_digit a -> (match r with c :: _ => digit_val c = None | [] => True end) -> span_digits (a ++ r) = (a, r).
Proof.
  intros H Hr. induction H as [|c a Hc H IH].
  - destruct r as [|c r]; cbn [app span_digits]; auto. rewrite Hr. reflexivity.
  - cbn [app span_digits]. destruct (is_digit_val c Hc) as (d & -> & _). rewrite IH. reflexivity.
Qed.

Lemma round_even_close a b : 0 <= a -> 0 < b -> 0 <= round_even a b /\ - b <= 2 * b * round_even a b - 2 * a <= b.
Proof.
  intros Ha Hb. unfold round_even. pose proof (Z.div_mod (2 * a + b) (2 * b) ltac:(lia)) as D.
  pose proof (Z.mod_pos_bound (2 * a + b) (2 * b) ltac:(lia)) as B. set (r := (2 * a + b) / (2 * b)) in *. set (m := (2 * a + b) mod (2 * b)) in *.
  assert (0 <= r) by (apply Z.div_pos; lia).
  destruct ((m =? 0) && Z.odd r) eqn:E; [|split; lia].
  apply andb_prop in E. destruct E as [E1 E2]. assert (r <> 0) by (intros ->; discriminate). split; [lia|].
  replace (2 * b * (r - 1)) with (2 * b * r - 2 * b) by lia. lia.
Qed.

Lemma dec_nat_ne n : exists c l, dec_nat n = c :: l.
Proof. pose proof (dec_nat_nonempty n). destruct (dec_nat n) as [|c l]; [congruence|eauto]. Qed.

Lemma digit_not_nan c l : is_digit c -> iequals (firstn 3 (c :: l)) (s_ "nan") = false.
Proof.
  intros Hc. destruct (iequals (firstn 3 (c :: l)) (s_ "nan")) eqn:E; auto. apply iequals_eq in E. cbn [firstn map] in E.
  assert (U : upper c = c) by (apply upper_dec_char; left; auto). rewrite U in E.
  destruct (is_digit_val c Hc) as (d & X & _). injection E as E _. rewrite E in X. discriminate X.
Qed.

Lemma stod_fixed x : exists y, stod (fixed16 x) = Ok (Some y) /\ close (Some x) (Some y).
Proof.
  unfold fixed16. set (a := Qnum (this x)). set (b := Zpos (Qden (this x))).
  destruct (round_even_close (Z.abs a * p16) b ltac:(unfold p16; lia) ltac:(unfold b; lia)) as (R0 & R1).
  set (r := round_even (Z.abs a * p16) b) in *.
  assert (P16 : 0 < p16) by reflexivity.
  pose proof (Z.div_mod r p16 ltac:(lia)) as DM. pose proof (Z.mod_pos_bound r p16 ltac:(lia)) as MB.
  assert (Hi : 0 <= r / p16) by (apply Z.div_pos; lia).
  set (I := dec_nat (r / p16)). set (F := pad_digits 16 (r mod p16)).
  assert (HI : Forall is_digit I) by (apply dec_nat_digits; auto).
  assert (HF : Forall is_digit F) by (apply pad_digits_digits; lia).
  assert (LF : List.length F = 16%nat) by apply pad_digits_length.
  assert (VAL : digits 0 (I ++ F) = r).
  { rewrite digits_app by auto. unfold I, F. rewrite dec_nat_val by auto. rewrite pad_digits_val; [|exact MB]. fold p16. change (10 ^ Z.of_nat 16) with p16. lia. }
  assert (BODY : forall neg : bool, (if iequals (firstn 3 (I ++ "."%char :: F)) (s_ "nan") then Ok None else
      let '(i, r0) := span_digits (I ++ "."%char :: F) in
      let f := match r0 with c :: r' => if ascii_dec c "." then fst (span_digits r') else [] | [] => [] end in
      match i ++ f with [] => Throw | ds => let n := digits 0 ds in
        Ok (Some (Q2Qc ((if neg then - n else n) # Z.to_pos (10 ^ Z.of_nat (List.length f))))) end) = Ok (Some (Q2Qc ((if neg then - r else r) # Z.to_pos p16)))).
  { intros neg. destruct (dec_nat_ne (r / p16)) as (c & l & EI). fold I in EI.
    assert (Hc : is_digit c) by (rewrite EI in HI; inversion HI; auto).
    rewrite EI. cbn [app]. rewrite digit_not_nan by auto.
    change (c :: l ++ "."%char :: F) with ((c :: l) ++ "."%char :: F). rewrite <- EI.
    rewrite span_digits_app by (auto; reflexivity). destruct (ascii_dec "." ".") as [_|N]; [|congruence].
    replace (span_digits F) with (F, @nil ascii). 2:{ rewrite <- (app_nil_r F) at 2. rewrite span_digits_app; auto. }
    cbn [fst]. cbv zeta. rewrite LF. change (10 ^ Z.of_nat 16) with p16. destruct (I ++ F) as [|z zs] eqn:E; [rewrite EI in E; discriminate|].
    rewrite VAL. reflexivity. }
  exists (Q2Qc ((if a <? 0 then - r else r) # Z.to_pos p16)). split.
  - unfold stod. destruct (a <? 0) eqn:Sg; cbn [app].
    + change (skip_space ("-"%char :: I ++ "."%char :: F)) with ("-"%char :: I ++ "."%char :: F).
      destruct (ascii_dec "-" "-") as [_|N]; [|congruence]. apply BODY.
    + destruct (dec_nat_ne (r / p16)) as (c & l & EI). fold I in EI.
      assert (Hc : is_digit c) by (rewrite EI in HI; inversion HI; auto).
      assert (SK : skip_space (I ++ "."%char :: F) = I ++ "."%char :: F).
      { rewrite EI. cbn [app skip_space]. rewrite digit_not_space by auto. reflexivity. }
      rewrite SK. specialize (BODY false). rewrite EI in *. cbn [app] in *.
      destruct (ascii_dec c "-") as [->|N1]; [exfalso; destruct (is_digit_val _ Hc) as (d & X & _); discriminate X|].
      destruct (ascii_dec c "+") as [->|N2]; [exfalso; destruct (is_digit_val _ Hc) as (d & X & _); discriminate X|].
      exact BODY.
  - cbn [close]. cbn [this Q2Qc]. rewrite (Qred_correct ((if a <? 0 then - r else r) # Z.to_pos p16)).
    assert (EX : (this x == a # (Qden (this x)))%Q) by (unfold a; destruct (this x); reflexivity). rewrite EX. 
    assert (RR : - b <= 2 * b * (if a <? 0 then - r else r) - 2 * (a * p16) <= b).
    { destruct (Z.ltb_spec a 0) as [L|L]; [rewrite Z.abs_neq in R1 by lia|rewrite Z.abs_eq in R1 by lia]; lia. }
    set (s := if a <? 0 then - r else r) in *. clearbody s. unfold b in *. change (Z.to_pos p16) with (10000000000000000%positive).
    unfold Qle, Qminus, Qplus, Qopp. cbn [Qnum Qden]. rewrite !Pos2Z.inj_mul. change p16 with 10000000000000000 in *.
    set (q := Zpos (Qden (this x))) in *. assert (0 < q) by (unfold q; lia). clearbody q. split; lia.
Qed.

Lemma stod_num x : exists y, stod (num_text x) = Ok y /\ close x y.
Proof. destruct x as [x|]; [|exists None; split; reflexivity]. destruct (stod_fixed x) as (y & H1 & H2). exists (Some y). auto. Qed.

(** ** Separators *)
Lemma no_char_app c a b : no_char c (a ++ b) <-> no_char c a /\ no_char c b.
Proof. apply Forall_app. Qed.
Lemma digits_no_char c s : Forall is_digit s -> digit_val c = None -> no_char c s.
Proof. intros H Hc. eapply Forall_impl; [|exact H]. intros x Hx. apply digit_neq; auto. Qed.
Lemma dec_no_char c n : digit_val c = None -> c <> "-"%char -> no_char c (dec n).
Proof. intros H1 H2. eapply Forall_impl; [|apply dec_chars]. intros x [Hx|Hx]; [apply digit_neq; auto|subst x; congruence]. Qed.
Lemma iso_no_char c n : valid_day n = true -> digit_val c = None -> no_char c (iso n).
Proof. intros V H. apply digits_no_char; auto. apply iso_chars. auto. Qed.

Lemma num_no_char c x : digit_val c = None -> c <> "-"%char -> c <> "."%char -> c <> "n"%char -> c <> "a"%char -> no_char c (num_text x).
Proof.
  intros H1 H2 H3 H4 H5. destruct x as [x|]; cbn [num_text].
  - unfold fixed16. cbv zeta. set (r := round_even _ _).
    assert (0 <= r) by (apply round_even_close; unfold p16; lia).
    apply no_char_app. split. { destruct (_ <? 0); [constructor; [congruence|constructor]|constructor]. }
    apply no_char_app. split. { apply digits_no_char; auto. apply dec_nat_digits. apply Z.div_pos; [lia|reflexivity]. }
    constructor; [congruence|]. apply digits_no_char; auto. apply pad_digits_digits. apply Z.mod_pos_bound. reflexivity.
  - repeat constructor; congruence.
Qed.

Lemma free_single c s : no_char c s -> free_of [c] s.
Proof.
  unfold free_of. intros H. induction H as [|x s Hx H IH]; cbn [app find_str starts_with].
  - destruct (ascii_dec c c); [reflexivity|congruence].
  - destruct (ascii_dec c x); [congruence|]. cbn [andb]. rewrite IH. reflexivity.
Qed.

Lemma no_char_cons c x s : x <> c -> no_char c s -> no_char c (x :: s). Proof. constructor; auto. Qed.
Lemma no_char_nil c : no_char c []. Proof. constructor. Qed.
Ltac nochar := repeat match goal with
  | |- no_char _ [] => apply no_char_nil
  | |- no_char _ (_ :: _) => apply no_char_cons; [discriminate|]
  | |- no_char _ (dec _) => apply dec_no_char; [reflexivity|discriminate]
  | |- no_char _ (_ ++ _) => apply no_char_app; split
  end.

Lemma yb_no_tab b : (forall s, yb_string b = Ok s -> no_char tab s) /\ (forall s, yb_class_string b = Ok s -> no_char tab s).
Proof.
  unfold yb_string, yb_class_string. split; destruct (yb_class b); intros s E; try discriminate; injection E as <-.
  all: cbn [app s_ list_ascii_of_string]; nochar.
Qed.
Lemma rng_no_tab r s : rng_string r = Ok s -> no_char tab s.
Proof.
  assert (D : forall d x, dow_name d = Ok x -> no_char tab x).
  { intros d x. unfold dow_name.
    destruct d as [|p|p]; [|do 3 (try destruct p as [p|p|])|]; intros E; try discriminate; injection E as <-; repeat constructor; discriminate. }
  unfold rng_string. destruct (dow_name (r_start r)) as [x| |] eqn:E1; try discriminate. destruct (dow_name (r_end r)) as [y| |] eqn:E2; try discriminate.
  cbn [bind]. intros E. injection E as <-. apply no_char_app. split; [eauto|]. apply no_char_cons; [discriminate|eauto].
Qed.
Lemma wb_no_tab w : (forall s, wb_string w = Ok s -> no_char tab s) /\ (forall s, wb_class_string w = Ok s -> no_char tab s).
Proof.
  split; intros s E.
  - unfold wb_string in E. destruct (valid_day (w_day w)) eqn:V; [|discriminate]. injection E as <-. apply iso_no_char; auto.
  - unfold wb_class_string in E. destruct (w_class w); try discriminate; try (injection E as <-);
      try solve [repeat constructor; discriminate]; try (constructor; [discriminate|]; apply dec_no_char; [reflexivity|discriminate]).
    destruct (rng_string (w_range w)) as [x| |] eqn:R; try discriminate. injection E as <-.
    constructor; [discriminate|]. constructor; [discriminate|]. eapply rng_no_tab; eauto.
Qed.
Lemma db_no_tab b : (forall s, db_string b = Ok s -> no_char tab s) /\ (forall s, db_class_string b = Ok s -> no_char tab s).
Proof.
  destruct (wb_no_tab (h_day b)) as (W1 & W2). split; intros s E.
  - unfold db_string in E. destruct (wb_string (h_day b)) as [x| |]; destruct (h_class b); try discriminate; injection E as <-;
      (apply no_char_app; split; [apply W1; auto|]); (constructor; [discriminate|]); (apply dec_no_char; [reflexivity|discriminate]).
  - unfold db_class_string in E. destruct (wb_class_string (h_day b)) as [x| |]; [|discriminate|discriminate]. cbn [bind] in E.
    specialize (W2 x eq_refl). destruct (h_class b); try discriminate; injection E as <-;
      repeat (constructor; [discriminate|]); auto.
    apply no_char_app. split; [apply dec_no_char; [reflexivity|discriminate]|]. constructor; [discriminate|]. auto.
Qed.
Lemma join_no_char c d l : Forall (no_char c) l -> no_char c d -> no_char c (join d l).
Proof.
  intros H Hd. induction H as [|a l Ha H IH]; cbn [join]; [constructor|]. destruct l as [|b l]; auto.
  apply no_char_app. split; auto. apply no_char_app. split; auto.
Qed.

Lemma freq_round v0 f : freq_text f -> exists s c g,
  to_string f = Ok s /\ class_string true f = Ok c /\ no_char tab s /\ no_char tab c /\ plain f = plain g /\
  (do '(k, h) <- parse v0 s c; match k with kListString => parse_list_s s c [] | kListDate => parse_list_d v0 s c [] | _ => Ok (k, h) end) = Ok (class_of f, g).
Proof.
  assert (PP : forall f, plain (plain f) = plain f).
  { intros [p|b|w|b|l|l]; cbn [plain]; auto; destruct (l_out l =? 0) eqn:E; cbn [plain l_out]; rewrite E; reflexivity. }
  intros H. destruct f as [p|b|w|b|l|l]; cbn [freq_text] in H.
  - destruct (other_round_trip v0 (FCs p) true I H) as (s & c & E1 & E2 & E3). exists s, c, (plain (FCs p)). rewrite PP, E3.
    cbn [to_string class_string] in E1, E2. injection E1 as <-. injection E2 as <-.
    do 2 (split; [reflexivity|]). split; [apply dec_no_char; [reflexivity|discriminate]|]. split; [repeat constructor; discriminate|]. auto.
  - destruct H as (H & HI). destruct (year_round_trip v0 (FY b) true H HI) as (s & c & E1 & E2 & E3). exists s, c, (FY b). rewrite E3.
    destruct (yb_no_tab b) as (T1 & T2). split; auto. split; auto. split; [apply T1; auto|]. split; [apply T2; auto|]. split; auto.
    apply year_freq_ok in H. destruct H as (b' & Hb & Q). injection Q as <-.
    unfold yb_ok, yb_make in Hb. destruct Hb as (_ & Hb). destruct (_ <=? 0); try discriminate. destruct (_ <=? 0); try discriminate. destruct (_ <? _); try discriminate.
    injection Hb as Hb. rewrite <- Hb. cbn [class_of yb_class bind].
    repeat match goal with |- context [if ?b then _ else _] => destruct b end; reflexivity.
  - destruct H as (H & HI). destruct (other_round_trip v0 (FW w) true H HI) as (s & c & E1 & E2 & E3). exists s, c, (plain (FW w)). rewrite PP, E3.
    destruct (wb_no_tab w) as (T1 & T2). split; auto. split; auto. split; [apply T1; auto|]. split; [apply T2; auto|]. split; auto.
    cbn [bind class_of]. destruct (class_fw w (w_valid_ok w H)) as [E|[E|[E|[E|E]]]]; rewrite E; reflexivity.
  - destruct H as (H & HI). destruct (other_round_trip v0 (FD b) true H) as (s & c & E1 & E2 & E3).
    { destruct HI as (A & B & C). split; [split|]; auto. }
    exists s, c, (plain (FD b)). rewrite PP, E3.
    destruct (db_no_tab b) as (T1 & T2). split; auto. split; auto. split; [apply T1; auto|]. split; [apply T2; auto|]. split; auto.
    cbn [bind class_of]. apply day_freq_ok in H. destruct H as (b' & _ & Hb & Q). injection Q as <-.
    destruct (db_class_cases b Hb) as [E|[E|[E|E]]]; rewrite E; reflexivity.
  - destruct H as (its & HI & NE & HF & IO & SW & NT).
    assert (LT : list_text (FLs l)).
    { exists its. do 2 (split; auto). split. { eapply Forall_impl; [|exact HF]. intros x (X & _). exact X. } auto. }
    destruct (list_round_trip (FLs l) LT) as (s & c & E1 & E2 & E3). exists s, c, (plain (FLs l)). rewrite PP.
    split; auto. split; auto. cbn [to_string class_string] in E1, E2. rewrite HI in E2. injection E2 as <-.
    split. { destruct (negb (l_out l =? 0)); injection E1 as <-; auto. repeat (constructor; [discriminate|]). apply dec_no_char; [reflexivity|discriminate]. }
    split. { repeat (constructor; [discriminate|]). apply join_no_char; [|repeat constructor; discriminate]. eapply Forall_impl; [|exact HF]. intros x (_ & X). exact X. }
    split; auto.
    assert (EP : exists h, parse v0 s (s_ "Ls:" ++ join (s_ ";") its) = Ok (kListString, h)).
    { unfold parse. change (get_class _) with (Ok kListString). cbn [bind]. unfold ls_parse.
      destruct (l_out l =? 0) eqn:E0; cbn [negb] in E1; injection E1 as <-.
      - rewrite SW. cbn [bind]. eauto.
      - change ("o"%char :: "u"%char :: "t"%char :: "_"%char :: "i"%char :: "t"%char :: "e"%char :: "m"%char :: ":"%char :: dec (l_out l)) with (s_ "out_item:" ++ dec (l_out l)).
        rewrite starts_with_refl_app. cbn [app s_ list_ascii_of_string skipn].
        rewrite stoi_dec0 by auto. cbn [bind]. eauto. }
    destruct EP as (h & EP). cbn [app s_ list_ascii_of_string] in *. rewrite EP. cbn [bind]. exact E3.
  - destruct H as (its & HI & NE & HF & IO & VD).
    assert (LT : list_text (FLd l)) by (exists its; auto).
    destruct (list_round_trip (FLd l) LT) as (s & c & E1 & E2 & E3).
    cbn [to_string class_string] in E1, E2. rewrite HI in E2. injection E2 as <-. rewrite VD in E1.
    assert (NS : no_char tab s).
    { destruct (negb (l_out l =? 0)); injection E1 as <-; [|apply iso_no_char; auto]. repeat (constructor; [discriminate|]). apply dec_no_char; [reflexivity|discriminate]. }
    assert (NSW : l_out l =? 0 = true -> starts_with (s_ "out_item:") (iso (l_value l)) = false).
    { intros _. destruct (starts_with (s_ "out_item:") (iso (l_value l))) eqn:E; auto. apply starts_with_app in E. destruct E as (r & E).
      destruct (iso_chars _ VD) as (F & _). rewrite E in F. inversion F as [|x y Hx _]; subst. destruct (is_digit_val _ Hx) as (d & X & _). discriminate X. }
    assert (EP : exists h, parse v0 s (s_ "Ld:" ++ join (s_ ";") (map iso its)) = Ok (kListDate, h)).
    { unfold parse. change (get_class _) with (Ok kListDate). cbn [bind]. unfold ld_parse.
      destruct (l_out l =? 0) eqn:E0; cbn [negb] in E1; injection E1 as <-.
      - rewrite NSW by auto. cbn [bind]. change (0 =? 0) with true. cbv iota. rewrite iso_parse_iso by auto. cbn [bind]. eauto.
      - change ("o"%char :: "u"%char :: "t"%char :: "_"%char :: "i"%char :: "t"%char :: "e"%char :: "m"%char :: ":"%char :: dec (l_out l)) with (s_ "out_item:" ++ dec (l_out l)).
        rewrite starts_with_refl_app. cbn [app s_ list_ascii_of_string skipn].
        rewrite stoi_dec0 by auto. cbn [bind]. rewrite E0. cbn [bind]. eauto. }
    destruct EP as (h & EP).
    assert (E4 : exists g, parse_list_d v0 s (s_ "Ld:" ++ join (s_ ";") (map iso its)) [] = Ok (kListDate, g) /\ plain (FLd l) = plain g).
    { unfold parse_list_d, ld_parse in *. change (get_class _) with (Ok kListDate) in *. cbn [bind] in *.
      destruct (if starts_with (s_ "out_item:") s then stoi (skipn 9 s) else Ok 0) as [o| |]; try discriminate. cbn [bind] in *.
      destruct (o =? 0) eqn:E0.
      - exists (plain (FLd l)). rewrite PP. split; auto.
      - cbn [bind] in *. destruct (if (2 <? _)%nat then _ else _) as [it| |]; try discriminate. cbn [bind l_value l_out] in *.
        eexists. split; [reflexivity|]. injection E3 as E3. transitivity (plain (plain (FLd l))); [symmetry; apply PP|]. change (FLd l) with (FLd l) in E3. cbn [plain] in E3 |- *. rewrite <- E3. cbn [plain l_out l_items]. rewrite E0. reflexivity. }
    destruct E4 as (g & E4 & E5). exists s, (s_ "Ld:" ++ join (s_ ";") (map iso its)), g.
    split; [cbn [to_string]; rewrite VD; exact E1|]. split; [cbn [class_string]; rewrite HI; reflexivity|]. split; auto. split.
    { repeat (constructor; [discriminate|]). apply join_no_char; [|repeat constructor; discriminate]. apply Forall_map.
      eapply Forall_impl; [|exact HF]. intros d Hd. apply iso_no_char; auto. }
    split; auto. rewrite EP. cbn [bind]. exact E4.
Qed.

(** ** Fields *)
Lemma ltb_trans : forall a b c, str_ltb a b = true -> str_ltb b c = true -> str_ltb a c = true.
Proof.
  induction a as [|x a IH]; intros [|y b] [|z c] H1 H2; try discriminate; auto. cbn [str_ltb] in *.
  destruct (Nat.ltb_spec (nat_of_ascii x) (nat_of_ascii y)); [|destruct (Nat.ltb_spec (nat_of_ascii y) (nat_of_ascii x)); [discriminate|]];
  (destruct (Nat.ltb_spec (nat_of_ascii y) (nat_of_ascii z)); [|destruct (Nat.ltb_spec (nat_of_ascii z) (nat_of_ascii y)); [discriminate|]]);
  (destruct (Nat.ltb_spec (nat_of_ascii x) (nat_of_ascii z)); [auto|]); try lia.
  destruct (Nat.ltb_spec (nat_of_ascii z) (nat_of_ascii x)); [lia|]. eauto.
Qed.
Lemma ltb_asym : forall a b, str_ltb a b = true -> str_ltb b a = false.
Proof.
  induction a as [|x a IH]; intros [|y b] H; try discriminate; auto. cbn [str_ltb] in *.
  destruct (Nat.ltb_spec (nat_of_ascii x) (nat_of_ascii y)); destruct (Nat.ltb_spec (nat_of_ascii y) (nat_of_ascii x)); auto; try lia; try discriminate.
Qed.
Lemma insert_last k v l : Forall (fun kv => str_ltb (fst kv) k = true) l -> insert_field k v l = l ++ [(k, v)].
Proof.
  intros H. induction H as [|[k' v'] l Hk H IH]; auto. cbn [insert_field fst app] in *. rewrite (ltb_asym _ _ Hk), Hk, IH. reflexivity.
Qed.
Lemma fields_fold l : forall acc, sorted_keys (acc ++ l) -> fold_left (fun m kv => insert_field (fst kv) (snd kv) m) l acc = acc ++ l.
Proof.
  induction l as [|[k v] l IH]; intros acc H; cbn [fold_left]; [rewrite app_nil_r; auto|].
  cbn [fst snd]. rewrite insert_last.
  - rewrite IH; rewrite <- app_assoc; auto.
  - clear IH. 
    assert (G : forall acc, sorted_keys (acc ++ (k, v) :: l) -> Forall (fun kv => str_ltb (fst kv) k = true) acc).
    { clear. induction acc as [|a acc IH]; intros H; [constructor|]. cbn [app sorted_keys] in H. destruct H as (H1 & H2).
      specialize (IH H2). constructor; auto. destruct acc as [|b acc]; cbn [app] in H1; auto.
      inversion IH; subst. eapply ltb_trans; eauto. }
    auto.
Qed.
Lemma field_parse k v : no_char ";" k -> parse_field (k ++ s_ ";" ++ v) = (k, v).
Proof.
  intros H. unfold parse_field. rewrite find_str_free by (apply free_single; auto).
  rewrite firstn_app, firstn_all, Nat.sub_diag. cbn [firstn]. rewrite app_nil_r. f_equal.
  change (s_ ";" ++ v) with (";"%char :: v). rewrite skipn_app, skipn_all2 by lia. replace (List.length k + 1 - List.length k)%nat with 1%nat by lia. reflexivity.
Qed.

Lemma join_cons d a l : l <> [] -> join d (a :: l) = a ++ d ++ join d l.
Proof. destruct l; [congruence|reflexivity]. Qed.

Lemma nums_round l : exists l', map_res stod (map num_text l) = Ok l' /\ Forall2 close l l'.
Proof.
  induction l as [|x l (l' & IH1 & IH2)]; [exists []; split; constructor|].
  destruct (stod_num x) as (y & E & C). exists (y :: l'). cbn [map map_res]. rewrite E. cbn [bind]. rewrite IH1. split; [reflexivity|constructor; auto].
Qed.

Theorem text_round v0 v : text_ok v -> exists s v', to_text v = Ok s /\ parse_text v0 s = Ok v' /\
  v_name v' = v_name v /\ same_date (v_start v) (v_start v') /\ Forall2 close (v_data v) (v_data v') /\ v_fields v' = v_fields v.
Proof.
  intros (HN & HF & HD & HFN & HS & HFF). destruct (freq_round v0 _ HF) as (s & c & g & E1 & E2 & N1 & N2 & SP & EP).
  unfold to_text. rewrite E2. cbn [bind]. rewrite E1. cbn [bind].
  set (D := join (s_ ";") (map num_text (v_data v))). set (FS := map (fun kv : str * str => fst kv ++ s_ ";" ++ snd kv) (v_fields v)).
  destruct (nums_round (v_data v)) as (d' & ED & CD).
  exists (join [tab] (v_name v :: c :: s :: D :: FS)), {| v_name := v_name v; v_data := d'; v_start := g; v_fields := v_fields v |}.
  assert (FS <> []) by (unfold FS; destruct (v_fields v); [congruence|discriminate]).
  split. { f_equal. rewrite 3 join_cons by discriminate. rewrite join_cons by auto. reflexivity. }
  cbn [v_name v_start v_data v_fields]. split; [|auto].
  unfold parse_text. rewrite split_join; [|discriminate|discriminate|].
  2:{ assert (X : Forall (no_char tab) (v_name v :: c :: s :: D :: FS)).
      { constructor; auto. constructor; auto. constructor; auto. constructor.
        - apply join_no_char; [|repeat constructor; discriminate]. apply Forall_map. apply Forall_forall. intros x _. apply num_no_char; try reflexivity; discriminate.
        - apply Forall_map. eapply Forall_impl; [|exact HFF]. intros kv (A & B & C). apply no_char_app. split; auto. constructor; [discriminate|auto]. }
      eapply Forall_impl; [|exact X]. intros x. apply free_single. }
  cbn [bind]. assert (LF : (0 < List.length FS)%nat) by (destruct FS; [congruence|cbn; lia]).
  assert (L5 : (List.length (v_name v :: c :: s :: D :: FS) <? 5)%nat = false) by (clearbody FS; destruct FS; [congruence|reflexivity]). rewrite L5.
  change (at_ (v_name v :: c :: s :: D :: FS) 0) with (Ok (v_name v)). change (at_ (v_name v :: c :: s :: D :: FS) 1) with (Ok c).
  change (at_ (v_name v :: c :: s :: D :: FS) 2) with (Ok s). change (at_ (v_name v :: c :: s :: D :: FS) 3) with (Ok D). cbn [bind].
  destruct (parse v0 s c) as [[k h]| |]; [|discriminate EP|discriminate EP]. cbn [bind] in EP |- *. rewrite EP. cbn [bind].
  unfold D. rewrite split_join; [|discriminate| |].
  2:{ destruct (v_data v); [congruence|discriminate]. }
  2:{ apply Forall_map. apply Forall_forall. intros x _. apply free_single, num_no_char; try reflexivity; discriminate. }
  cbn [bind]. rewrite ED. cbn [bind]. cbn [skipn]. do 2 f_equal. unfold FS. rewrite map_map.
  replace (map _ (v_fields v)) with (v_fields v).
  - rewrite fields_fold; auto.
  - clear -HFF. induction HFF as [|[k x] l (A & B & C) H IH]; auto. cbn [map fst snd] in *. rewrite field_parse by auto. f_equal; auto.
Qed.

Lemma ltb_total : forall a b, str_ltb a b = false -> str_ltb b a = false -> a = b.
Proof.
  induction a as [|x a IH]; intros [|y b] H1 H2; try discriminate; auto. cbn [str_ltb] in *.
  destruct (Nat.ltb_spec (nat_of_ascii x) (nat_of_ascii y)); [discriminate|].
  destruct (Nat.ltb_spec (nat_of_ascii y) (nat_of_ascii x)); [discriminate|].
  f_equal; [|auto]. rewrite <- (ascii_nat_embedding x), <- (ascii_nat_embedding y). f_equal. lia.
Qed.
Lemma ltb_irrefl a : str_ltb a a = false.
Proof. destruct (str_ltb a a) eqn:E; auto. rewrite (ltb_asym _ _ E) in E. discriminate. Qed.
Lemma sorted_below k v l : sorted_keys ((k, v) :: l) -> Forall (fun kv => str_ltb k (fst kv) = true) l.
Proof.
  revert k v. induction l as [|[k' v'] l IH]; intros k v H; [constructor|]. cbn [sorted_keys fst] in H. destruct H as (H1 & H2).
  constructor; auto. specialize (IH k' v' H2). eapply Forall_impl; [|exact IH]. intros kv Hkv. eapply ltb_trans; eauto.
Qed.
Lemma value_absent k l : Forall (fun kv => fst kv <> k) l -> value_of k l = None.
Proof. induction 1 as [|kv l H _ IH]; auto. simpl. destruct (str_dec (fst kv) k); [contradiction|auto]. Qed.
Lemma insert_value k v l : sorted_keys l -> sorted_keys (insert_field k v l) /\
  forall k', value_of k' (insert_field k v l) = match value_of k' l with Some x => Some x | None => if str_dec k k' then Some v else None end.
Proof.
  induction l as [|[k1 v1] l IH]; intros H.
  - split; [simpl; auto|]. intros k'. simpl. reflexivity.
  - cbn [insert_field]. destruct (str_ltb k k1) eqn:E1.
    + split; [split; auto|]. intros k'. cbn [value_of fst snd].
      destruct (str_dec k k') as [->|Hne].
      * destruct (str_dec k1 k') as [->|H1]; [rewrite ltb_irrefl in E1; discriminate|].
        rewrite value_absent; auto. eapply Forall_impl; [|eapply sorted_below; eauto]. cbv beta. intros kv Hkv <-.
        pose proof (ltb_asym _ _ Hkv) as C. congruence.
      * destruct (str_dec k1 k'); auto. destruct (value_of k' l); auto.
    + destruct (str_ltb k1 k) eqn:E2.
      * cbn [sorted_keys] in H. destruct H as (H1 & H2). destruct (IH H2) as (S1 & S2). split.
        -- cbn [sorted_keys]. split; auto. destruct l as [|[k2 v2] l]; cbn [insert_field]; auto.
           destruct (str_ltb k k2); auto. destruct (str_ltb k2 k); auto.
        -- intros k'. cbn [value_of fst snd]. destruct (str_dec k1 k'); auto.
      * pose proof (ltb_total _ _ E1 E2) as ->. split; auto. intros k'. cbn [value_of fst snd].
        destruct (str_dec k1 k'); auto. destruct (value_of k' l); auto.
Qed.
Lemma insert_all fs k : value_of k (fold_left (fun m kv => insert_field (fst kv) (snd kv) m) fs []) = value_of k fs.
Proof.
  assert (G : forall fs acc, sorted_keys acc -> value_of k (fold_left (fun m kv => insert_field (fst kv) (snd kv) m) fs acc)
     = match value_of k acc with Some x => Some x | None => value_of k fs end).
  { clear. induction fs as [|[k1 v1] fs IH]; intros acc H; cbn [fold_left fst snd]; [destruct (value_of k acc); auto|].
    destruct (insert_value k1 v1 acc H) as (S1 & S2). rewrite IH, S2 by auto. cbn [value_of fst snd].
    destruct (value_of k acc); auto. destruct (str_dec k1 k); auto. }
  apply G. exact I.
Qed.
Theorem parse_fields_any_order v0 s v' : parse_text v0 s = Ok v' ->
  exists parts, StrModel.split [tab] s = Ok parts /\ forall k, value_of k (v_fields v') = value_of k (map parse_field (skipn 4 parts)).
Proof.
  intros H. unfold parse_text in H. destruct (StrModel.split [tab] s) as [parts| |]; try discriminate. exists parts. split; auto.
  cbn [bind] in H. destruct (List.length parts <? 5)%nat; [discriminate|].
  repeat match type of H with bind ?e _ = _ => destruct e as [?| |]; try discriminate; cbn [bind] in H
    | (let '(_, _) := ?p in _) = _ => destruct p end.
  injection H as <-. cbn [v_fields]. intros k. apply insert_all.
Qed.
