(** List frequencies, text round trips, class strings. *)
From Verif Require Import StrModel StrProofs DateProofs FreqModel FreqSpec FreqProofs FreqProofs2 FreqProofs3.
From Coq Require Import ZifyBool.
Local Open Scope Z_scope.

(** ** Lists *)
Section Lists.
Context {A : Type} (eqb : A -> A -> bool) (Heq : forall a b, eqb a b = true <-> a = b).

Lemma at_place_next its (l : lst A) i n : NoDup its -> its <> [] -> l_items l = Some its -> at_place l its i ->
  exists g, l_next eqb n l = Ok g /\ l_items g = Some its /\ at_place g its (i + n).
Proof.
  intros ND NE HI HP. unfold l_next. rewrite HI. set (size := Z.of_nat (List.length its)) in *.
  assert (Hs : 0 < size) by (unfold size; destruct its; [congruence|simpl; lia]).
  assert (Ei : (let i0 := if l_out l =? 0 then index_of eqb (l_value l) its else -1 in
     if i0 =? -1 then (if 0 <? l_out l then l_out l + (size - 1) else l_out l) else i0) = i).
  { destruct HP as [(H1 & H2 & H3)|[(H1 & H2)|(H1 & H2)]].
    - rewrite H2. cbn [Z.eqb]. rewrite (index_of_nth eqb its Heq _ _ ND H3). rewrite Z2Nat.id by lia.
      cbv zeta. replace (i =? -1) with false by lia. reflexivity.
    - rewrite H2. replace (i =? 0) with false by lia. cbv zeta. change (-1 =? -1) with true. cbv iota.
      replace (0 <? i) with false by lia. reflexivity.
    - fold size in H1, H2. rewrite H2. replace (i - size + 1 =? 0) with false by lia. cbv zeta. change (-1 =? -1) with true. cbv iota.
      replace (0 <? i - size + 1) with true by lia. lia. }
  cbv zeta in Ei |- *. rewrite Ei. destruct ((i + n <? size) && (0 <=? i + n)) eqn:E.
  - destruct (nth_error its (Z.to_nat (i + n))) as [v|] eqn:EN.
    + unfold at_. rewrite EN. cbn [bind]. eexists. split; [reflexivity|]. split; [reflexivity|].
      left. cbn [l_out l_value]. fold size. split; [lia|auto].
    + apply nth_error_None in EN. lia.
  - eexists. split; [reflexivity|]. split; [reflexivity|]. right. cbn [l_out]. fold size.
    destruct (size <=? i + n) eqn:E2; [right|left]; lia.
Qed.

Lemma at_place_unique its (l : lst A) i j : NoDup its -> at_place l its i -> at_place l its j -> i = j.
Proof.
  intros ND [(H1 & H2 & H3)|[(H1 & H2)|(H1 & H2)]] [(K1 & K2 & K3)|[(K1 & K2)|(K1 & K2)]]; try lia.
  apply (index_of_nth eqb its Heq _ _ ND) in H3, K3. lia.
Qed.

Lemma l_minus_place its (l g : lst A) i j : NoDup its -> l_items l = Some its -> l_items g = Some its ->
  at_place l its i -> at_place g its j -> l_minus eqb l g = Ok (i - j).
Proof.
  intros ND HI HI' HP HP'. unfold l_minus. rewrite HI, HI'. cbv zeta.
  assert (E : forall (x : lst A) k, at_place x its k -> (if l_out x =? 0 then index_of eqb (l_value x) its
     else if 0 <? l_out x then l_out x + Z.of_nat (List.length its) - 1 else l_out x) = k).
  { intros x k [(H1 & H2 & H3)|[(H1 & H2)|(H1 & H2)]]; rewrite H2.
    - cbn [Z.eqb]. rewrite (index_of_nth eqb its Heq _ _ ND H3). lia.
    - replace (k =? 0) with false by lia. replace (0 <? k) with false by lia. reflexivity.
    - replace (k - Z.of_nat (List.length its) + 1 =? 0) with false by lia.
      replace (0 <? k - Z.of_nat (List.length its) + 1) with true by lia. lia. }
  rewrite (E l i HP), (E g j HP'). reflexivity.
Qed.

Lemma l_cmp_inside its (l g : lst A) i j : NoDup its -> l_items l = Some its -> l_items g = Some its ->
  at_place l its i -> at_place g its j -> l_out l = 0 -> l_out g = 0 -> l_cmp eqb l g = Ok (Z.sgn (i - j)).
Proof.
  intros ND HI HI' HP HP' O1 O2. unfold l_cmp, l_index. rewrite HI, HI'. cbn [bind].
  assert (E : forall (x : lst A) k, at_place x its k -> l_out x = 0 -> index_of eqb (l_value x) its = k).
  { intros x k [(H1 & H2 & H3)|[(H1 & H2)|(H1 & H2)]] O; try lia.
    rewrite (index_of_nth eqb its Heq _ _ ND H3). lia. }
  rewrite (E l i), (E g j) by auto. f_equal.
  destruct (j <? i) eqn:E1; [|destruct (i <? j) eqn:E2]; lia.
Qed.
End Lists.

Lemma Zeqb_spec a b : Z.eqb a b = true <-> a = b. Proof. apply Z.eqb_eq. Qed.

Lemma in_place {A} (v : A) its : In v its -> exists i, at_place {| l_value := v; l_items := Some its; l_out := 0 |} its i.
Proof.
  intros H. apply In_nth_error in H. destruct H as (k & Hk). exists (Z.of_nat k). left. cbn [l_out l_value].
  assert (k < List.length its)%nat by (apply nth_error_Some; congruence).
  rewrite Nat2Z.id. split; [lia|auto].
Qed.

Lemma list_freq_ok its f : list_freq its f -> NoDup its /\ its <> [] /\ exists l, f = FLs l /\ l_items l = Some its /\ exists i, at_place l its i.
Proof.
  intros (v & n & ND & HI & HN). split; auto. assert (NE : its <> []) by (intros ->; destruct HI). split; auto.
  destruct (in_place v its HI) as (i & Hi). destruct (at_place_next str_eqb str_eqb_eq its {| l_value := v; l_items := Some its; l_out := 0 |} i n ND NE eq_refl Hi) as (g & G1 & G2 & G3).
  cbn [next] in HN. rewrite G1 in HN. cbn [bind] in HN. injection HN as <-. eauto 6.
Qed.
Lemma list_freq_d_ok its f : list_freq_d its f -> NoDup its /\ its <> [] /\ exists l, f = FLd l /\ l_items l = Some its /\ exists i, at_place l its i.
Proof.
  intros (v & n & ND & HI & HN). split; auto. assert (NE : its <> []) by (intros ->; destruct HI). split; auto.
  destruct (in_place v its HI) as (i & Hi). destruct (at_place_next Z.eqb Zeqb_spec its {| l_value := v; l_items := Some its; l_out := 0 |} i n ND NE eq_refl Hi) as (g & G1 & G2 & G3).
  cbn [next] in HN. rewrite G1 in HN. cbn [bind] in HN. injection HN as <-. eauto 6.
Qed.

Lemma place_same_text its (l l' : lst str) i : at_place l its i -> at_place l' its i ->
  to_string (FLs l) = to_string (FLs l') /\ (l_out l = 0 -> l_value l = l_value l') /\ l_out l = l_out l'.
Proof.
  intros [(H1 & H2 & H3)|[(H1 & H2)|(H1 & H2)]] [(K1 & K2 & K3)|[(K1 & K2)|(K1 & K2)]]; try lia.
  - rewrite H3 in K3. injection K3 as E. cbn [to_string]. rewrite H2, K2, E. auto.
  - cbn [to_string]. rewrite H2, K2. replace (i =? 0) with false by lia. split; auto. split; auto. lia.
  - cbn [to_string]. rewrite H2, K2. replace (i - Z.of_nat (List.length its) + 1 =? 0) with false by lia. split; auto. split; auto. lia.
Qed.
Lemma place_same_text_d its (l l' : lst Z) i : at_place l its i -> at_place l' its i ->
  to_string (FLd l) = to_string (FLd l') /\ (l_out l = 0 -> l_value l = l_value l') /\ l_out l = l_out l'.
Proof.
  intros [(H1 & H2 & H3)|[(H1 & H2)|(H1 & H2)]] [(K1 & K2 & K3)|[(K1 & K2)|(K1 & K2)]]; try lia.
  - rewrite H3 in K3. injection K3 as E. cbn [to_string]. rewrite H2, K2, E. auto.
  - cbn [to_string]. rewrite H2, K2. replace (i =? 0) with false by lia. split; auto. split; auto. lia.
  - cbn [to_string]. rewrite H2, K2. replace (i - Z.of_nat (List.length its) + 1 =? 0) with false by lia. split; auto. split; auto. lia.
Qed.

(** Next from place [i] leads to place [i + n]; going there in two steps gives the same place and the
    same text; Minus is the number of steps. *)
Theorem list_steps its f n m i : list_freq its f -> place f i ->
  exists g h h' k, next n f = Ok g /\ next m g = Ok h /\ next (n + m) f = Ok h' /\ next (- n) g = Ok k /\
    place g (i + n) /\ place h (i + n + m) /\ place h' (i + n + m) /\ place k i /\
    to_string h = to_string h' /\ to_string k = to_string f /\ plain h = plain h' /\ plain k = plain f /\
    minus g f = Ok n /\ minus f g = Ok (- n).
Proof.
  intros Hf Hi. destruct (list_freq_ok its f Hf) as (ND & NE & l & -> & HI & j & Hj).
  destruct Hi as (its' & HI' & Hi). rewrite HI in HI'. injection HI' as <-. clear j Hj.
  destruct (at_place_next str_eqb str_eqb_eq its l i n ND NE HI Hi) as (g & G1 & G2 & G3).
  destruct (at_place_next str_eqb str_eqb_eq its g _ m ND NE G2 G3) as (h & H1 & H2 & H3).
  destruct (at_place_next str_eqb str_eqb_eq its l i (n + m) ND NE HI Hi) as (h' & K1 & K2 & K3).
  destruct (at_place_next str_eqb str_eqb_eq its g _ (- n) ND NE G2 G3) as (k & L1 & L2 & L3).
  replace (i + n + - n) with i in L3 by lia. rewrite Z.add_assoc in K3.
  assert (PL : forall a b x, l_items a = Some its -> l_items b = Some its -> at_place a its x -> at_place b its x -> plain (FLs a) = plain (FLs b)).
  { intros a b x I1 I2 P1 P2. destruct (place_same_text its a b x P1 P2) as (_ & V & O). cbn [plain].
    destruct a as [va ia oa], b as [vb ib ob]. cbn [l_out l_items l_value] in *. subst ob ia ib.
    destruct (oa =? 0) eqn:E; [rewrite V by lia|]; reflexivity. }
  exists (FLs g), (FLs h), (FLs h'), (FLs k). cbn [next]. rewrite G1, H1, K1, L1. cbn [bind].
  do 4 (split; [reflexivity|]).
  split; [exists its; auto|]. split; [exists its; auto|]. split; [exists its; auto|]. split; [exists its; auto|].
  split; [eapply place_same_text; eauto|]. split; [eapply place_same_text; eauto|].
  split; [eapply PL; eauto|]. split; [eapply PL; eauto|].
  unfold minus. change (check_class (FLs g) (FLs l)) with (Ok tt). change (check_class (FLs l) (FLs g)) with (Ok tt). cbn [bind].
  rewrite (l_minus_place str_eqb str_eqb_eq its g l (i + n) i) by auto.
  rewrite (l_minus_place str_eqb str_eqb_eq its l g i (i + n)) by auto.
  split; f_equal; lia.
Qed.

Theorem list_steps_d its f n m i : list_freq_d its f -> place f i ->
  exists g h h' k, next n f = Ok g /\ next m g = Ok h /\ next (n + m) f = Ok h' /\ next (- n) g = Ok k /\
    place g (i + n) /\ place h (i + n + m) /\ place h' (i + n + m) /\ place k i /\
    to_string h = to_string h' /\ to_string k = to_string f /\ plain h = plain h' /\ plain k = plain f /\
    minus g f = Ok n /\ minus f g = Ok (- n).
Proof.
  intros Hf Hi. destruct (list_freq_d_ok its f Hf) as (ND & NE & l & -> & HI & j & Hj).
  destruct Hi as (its' & HI' & Hi). rewrite HI in HI'. injection HI' as <-. clear j Hj.
  destruct (at_place_next Z.eqb Zeqb_spec its l i n ND NE HI Hi) as (g & G1 & G2 & G3).
  destruct (at_place_next Z.eqb Zeqb_spec its g _ m ND NE G2 G3) as (h & H1 & H2 & H3).
  destruct (at_place_next Z.eqb Zeqb_spec its l i (n + m) ND NE HI Hi) as (h' & K1 & K2 & K3).
  destruct (at_place_next Z.eqb Zeqb_spec its g _ (- n) ND NE G2 G3) as (k & L1 & L2 & L3).
  replace (i + n + - n) with i in L3 by lia. rewrite Z.add_assoc in K3.
  assert (PL : forall a b x, l_items a = Some its -> l_items b = Some its -> at_place a its x -> at_place b its x -> plain (FLd a) = plain (FLd b)).
  { intros a b x I1 I2 P1 P2. destruct (place_same_text_d its a b x P1 P2) as (_ & V & O). cbn [plain].
    destruct a as [va ia oa], b as [vb ib ob]. cbn [l_out l_items l_value] in *. subst ob ia ib.
    destruct (oa =? 0) eqn:E; [rewrite V by lia|]; reflexivity. }
  exists (FLd g), (FLd h), (FLd h'), (FLd k). cbn [next]. rewrite G1, H1, K1, L1. cbn [bind].
  do 4 (split; [reflexivity|]).
  split; [exists its; auto|]. split; [exists its; auto|]. split; [exists its; auto|]. split; [exists its; auto|].
  split; [eapply place_same_text_d; eauto|]. split; [eapply place_same_text_d; eauto|].
  split; [eapply PL; eauto|]. split; [eapply PL; eauto|].
  unfold minus. change (check_class (FLd g) (FLd l)) with (Ok tt). change (check_class (FLd l) (FLd g)) with (Ok tt). cbn [bind].
  rewrite (l_minus_place Z.eqb Zeqb_spec its g l (i + n) i) by auto.
  rewrite (l_minus_place Z.eqb Zeqb_spec its l g i (i + n)) by auto.
  split; f_equal; lia.
Qed.

Theorem list_place its f : list_freq its f -> exists i, place f i /\ forall j, place f j -> j = i.
Proof.
  intros Hf. destruct (list_freq_ok its f Hf) as (ND & NE & l & -> & HI & i & Hi). exists i. split; [exists its; auto|].
  intros j (its' & HI' & Hj). rewrite HI in HI'. injection HI' as <-. eapply (at_place_unique str_eqb str_eqb_eq); eauto.
Qed.

(** Inside the list the comparison agrees with the distance. *)
Theorem list_compare_inside its f g i j : list_freq its f -> list_freq its g -> place f i -> place g j ->
  0 <= i < Z.of_nat (List.length its) -> 0 <= j < Z.of_nat (List.length its) ->
  minus f g = Ok (i - j) /\ compare f g = Ok (Z.sgn (i - j)).
Proof.
  intros Hf Hg Hi Hj Ri Rj. destruct (list_freq_ok its f Hf) as (ND & NE & l & -> & HI & _).
  destruct (list_freq_ok its g Hg) as (_ & _ & k & -> & HK & _).
  destruct Hi as (its' & HI' & Hi). rewrite HI in HI'. injection HI' as <-.
  destruct Hj as (its' & HJ' & Hj). rewrite HK in HJ'. injection HJ' as <-.
  unfold minus, compare. change (check_class (FLs l) (FLs k)) with (Ok tt). cbn [bind]. split.
  - apply (l_minus_place str_eqb str_eqb_eq its); auto.
  - apply (l_cmp_inside str_eqb str_eqb_eq its); auto.
    + destruct Hi as [(_ & O & _)|[H|H]]; lia.
    + destruct Hj as [(_ & O & _)|[H|H]]; lia.
Qed.

(** ** Class strings *)
Lemma digit_ne_alpha c d : dec_char c -> digit_val d = None -> d <> "-"%char -> c <> d.
Proof. intros [H| ->] Hd Hm; [apply digit_neq; auto|congruence]. Qed.

Lemma dec_cons n : exists c r, dec n = c :: r /\ dec_char c.
Proof. pose proof (dec_chars n) as H. pose proof (dec_nonempty n). destruct (dec n); [congruence|]. inversion H; subst. eauto. Qed.

Lemma get_class_year b : yb_ok b -> exists s, yb_class_string b = Ok s /\ get_class s = Ok (yb_class b).
Proof.
  intros (Hm & H). apply yb_make_inv in H. destruct H as (_ & _ & _ & _ & Hq & H).
  unfold yb_make in H. destruct (_ <=? 0); [discriminate|]. destruct (_ <=? 0); [discriminate|]. destruct (_ <? _); [discriminate|].
  injection H as H. assert (Hc := f_equal yb_class H). cbn [yb_class] in Hc. rewrite <- Hc. unfold yb_class_string. rewrite <- Hc.
  destruct (dec_cons (yb_multi b)) as (x & r & Ex & Cx). destruct (dec_cons (yb_part b)) as (y & t & Ey & Cy).
  destruct (yb_multi b =? 1); destruct (yb_part b =? 1); try destruct (yb_part b =? 4); try destruct (yb_part b =? 12);
    eexists; (split; [reflexivity|]); try reflexivity.
  - rewrite Ey. reflexivity.
Qed.

Lemma get_class_week b : wb_ok b -> exists s, wb_class_string b = Ok s /\ get_class s = Ok (w_class b).
Proof.
  intros H. destruct (dec_cons (w_multi b)) as (x & r & Ex & Cx). destruct H as [b Hm Hr Hf Hc|b Hc Hm Hr Hi].
  - unfold wb_class_string. destruct Hc as [[-> E]|[[-> E]|[[-> E]|[-> E]]]]; eexists; (split; [reflexivity|]); try reflexivity.
    + rewrite Ex. reflexivity.
    + rewrite Ex. cbv [get_class]. cbn [app s_ list_ascii_of_string].
      assert (x <> "a"%char) by (apply digit_ne_alpha; [auto|reflexivity|discriminate]).
      cbn [starts_with]. destruct (ascii_dec "a" x); [congruence|]. reflexivity.
  - destruct (rng_string_ok (w_range b) Hr) as (s & E & _). unfold wb_class_string. rewrite Hc, E. eexists. split; [reflexivity|].
    reflexivity.
Qed.

Lemma get_class_day b : db_ok b -> exists s, db_class_string b = Ok s /\ get_class s = Ok (h_class b).
Proof.
  intros H. assert (HC := db_class_cases b H). destruct H as (Hw & _ & _). destruct (get_class_week _ Hw) as (s & E & _).
  unfold db_class_string. rewrite E. cbn [bind]. destruct HC as [-> | [-> | [-> | ->]]]; eexists; split; reflexivity.
Qed.

(** All frequencies: cross-section, year-based, week-based, day-based, lists. *)
Definition any_freq (f : freq) : Prop :=
  match f with
  | FCs _ => True
  | FY _ => year_freq f
  | FW _ => week_freq f \/ exists r, dw_freq r f
  | FD _ => day_freq f
  | FLs l => exists its, l_items l = Some its
  | FLd l => exists its, l_items l = Some its
  end.

Theorem class_identified f details : any_freq f ->
  exists s, class_string details f = Ok s /\ get_class s = Ok (class_of f).
Proof.
  destruct f as [p|b|w|b|l|l]; cbn [any_freq class_string class_of]; intros H.
  - eexists. split; reflexivity.
  - apply year_freq_ok in H. destruct H as (b' & Hb & E). injection E as ->. apply get_class_year; auto.
  - apply get_class_week. apply w_valid_ok; auto.
  - apply day_freq_ok in H. destruct H as (b' & _ & Hb & E). injection E as ->. apply get_class_day; auto.
  - destruct H as (its & ->). destruct details; eexists; split; reflexivity.
  - destruct H as (its & ->). destruct details; eexists; split; reflexivity.
Qed.

(** ** Round trips *)
Lemma dec_free delims n : (forall c, In c delims -> digit_val c = None /\ c <> "-"%char) -> Forall (fun x => ~ In x delims) (dec n).
Proof.
  intros H. eapply Forall_impl; [|apply dec_chars]. intros c Hc HI. destruct (H c HI) as (H1 & H2).
  apply (digit_ne_alpha c c Hc H1 H2 eq_refl).
Qed.
Lemma digits_free delims s : (forall c, In c delims -> digit_val c = None) -> Forall is_digit s -> Forall (fun x => ~ In x delims) s.
Proof.
  intros H F. eapply Forall_impl; [|exact F]. intros c Hc HI. destruct (is_digit_val c Hc) as (d & E & _). rewrite (H c HI) in E. discriminate.
Qed.

Definition year_ints (f : freq) : Prop :=
  match f with FY b => in_int (yb_year b) = true /\ in_int (yb_multi b) = true /\ in_int (yb_part b) = true | _ => False end.

Lemma in_int_le a b : 0 <= a <= b -> in_int b = true -> in_int a = true.
Proof. unfold in_int, int_min, int_max. intros. lia. Qed.

Theorem year_round_trip v0 f details : year_freq f -> year_ints f ->
  exists s c, to_string f = Ok s /\ class_string details f = Ok c /\ parse v0 s c = Ok (class_of f, f).
Proof.
  intros Hf. apply year_freq_ok in Hf. destruct Hf as (b & Hb & ->). intros (I1 & I2 & I3).
  assert (HY : year_freq (FY b)) by (apply year_freq_ok; eauto).
  destruct (class_identified (FY b) details HY) as (c & Ec & Gc). cbn [class_of] in *.
  assert (I4 : in_int (yb_pos b) = true). { assert (Hp := yb_ok_pos b Hb). eapply in_int_le; [|exact I3]. lia. }
  destruct Hb as (Hm & Hk). assert (Hk0 := Hk). apply yb_make_inv in Hk0. destruct Hk0 as (_ & _ & _ & _ & Hq & _).
  assert (DF : forall n, Forall (fun x => ~ In x (s_ "QqMm:")) (dec n)).
  { intros n. apply dec_free. intros x Hx. simpl in Hx. intuition (subst; try reflexivity; discriminate). }
  assert (DZ : forall n, Forall (fun x => ~ In x (s_ "z")) (dec n)).
  { intros n. apply dec_free. intros x Hx. simpl in Hx. intuition (subst; try reflexivity; discriminate). }
  assert (Split : forall x, In x (s_ "QqMm:") -> splitm (s_ "QqMm:") (dec (yb_year b) ++ x :: dec (yb_pos b)) = [dec (yb_year b); dec (yb_pos b)]).
  { intros x Hx. rewrite splitm_app by auto. rewrite splitm_none by auto. reflexivity. }
  unfold yb_make in Hk. destruct (yb_part b <=? 0) eqn:T1; [discriminate|]. destruct (yb_pos b <=? 0) eqn:T2; [discriminate|].
  destruct (yb_part b <? yb_pos b) eqn:T3; [discriminate|]. injection Hk as HE.
  assert (Hc := f_equal yb_class HE). cbn [yb_class] in Hc.
  enough (exists s, to_string (FY b) = Ok s /\ parse v0 s c = Ok (yb_class b, FY b)) as (s & Q1 & Q2) by (exists s, c; auto).
  cbn [class_string] in Ec. cbn [to_string]. unfold yb_string, yb_class_string in *. rewrite <- Hc in *.
  assert (Fin : forall yy mm pp qq cc, yy = yb_year b -> mm = yb_multi b -> pp = yb_part b -> qq = yb_pos b -> cc = yb_class b ->
     {| yb_year := yy; yb_multi := mm; yb_part := pp; yb_pos := qq; yb_class := cc |} = b).
  { intros; subst. destruct b; reflexivity. }
  destruct (yb_multi b =? 1) eqn:M1; [destruct (yb_part b =? 1) eqn:P1; [|destruct (yb_part b =? 4) eqn:P4; [|destruct (yb_part b =? 12) eqn:P12]]|
    destruct (yb_part b =? 1) eqn:P1]; injection Ec as <-;
   eexists; (split; [reflexivity|]); unfold parse; rewrite Gc; cbn [bind];
   unfold yb_parse; rewrite split_multiple_eq; cbn [bind].
  - rewrite splitm_none by auto. cbn [at_ nth_error bind]. rewrite stoi_dec0 by auto. cbn [bind]. do 3 f_equal. apply Fin; auto; lia.
  - cbn [app s_ list_ascii_of_string]. change (list_ascii_of_string "QqMm:") with (s_ "QqMm:"). rewrite Split by (simpl; auto).
    cbn [at_ nth_error bind]. rewrite !stoi_dec0 by auto. cbn [bind]. do 3 f_equal. apply Fin; auto; lia.
  - cbn [app s_ list_ascii_of_string]. change (list_ascii_of_string "QqMm:") with (s_ "QqMm:"). rewrite Split by (simpl; auto).
    cbn [at_ nth_error bind]. rewrite !stoi_dec0 by auto. cbn [bind]. do 3 f_equal. apply Fin; auto; lia.
  - cbn [app s_ list_ascii_of_string]. change (list_ascii_of_string "QqMm:") with (s_ "QqMm:"). rewrite Split by (simpl; auto 6).
    cbn [at_ nth_error bind]. rewrite !stoi_dec0 by auto. cbn [bind skipn]. rewrite split_multiple_eq.
    change (list_ascii_of_string "z") with (s_ "z"). rewrite splitm_none by auto.
    cbn [at_ nth_error bind]. rewrite !stoi_dec0 by auto. cbn [bind]. do 3 f_equal. apply Fin; auto; lia.
  - rewrite splitm_none by auto. cbn [at_ nth_error bind]. rewrite stoi_dec0 by auto. cbn [bind app s_ list_ascii_of_string skipn].
    rewrite split_multiple_eq. change (list_ascii_of_string "z") with (s_ "z"). rewrite splitm_none by auto.
    cbn [at_ nth_error bind]. rewrite !stoi_dec0 by auto. cbn [bind]. do 3 f_equal. apply Fin; auto; lia.
  - cbn [app s_ list_ascii_of_string]. change (list_ascii_of_string "QqMm:") with (s_ "QqMm:"). rewrite Split by (simpl; auto 6).
    cbn [at_ nth_error bind]. rewrite !stoi_dec0 by auto. cbn [bind skipn]. rewrite split_multiple_eq.
    change (list_ascii_of_string "z") with (s_ "z"). rewrite splitm_app by (auto; simpl; auto). rewrite splitm_none by auto.
    cbn [at_ nth_error bind]. rewrite !stoi_dec0 by auto. cbn [bind]. do 3 f_equal. apply Fin; auto; lia.
Qed.

(** Dates that have a text, and numbers that fit an int. *)
Definition week_ints (w : wb) : Prop := valid_day (w_day w) = true /\ in_int (w_multi w) = true.

Lemma wb_round s c w : wb_ok w -> week_ints w -> wb_string w = Ok s -> wb_class_string w = Ok c -> wb_parse s c (w_class w) = Ok (plain_w w).
Proof.
  intros Hw (V & I) Es Ec. unfold wb_string in Es. rewrite V in Es. injection Es as <-.
  unfold wb_parse. rewrite iso_parse_iso by auto. cbn [bind]. unfold plain_w.
  unfold wb_class_string in Ec. destruct Hw as [w Hm Hr Hf Hc|w Hc Hm Hr Hi].
  - destruct Hc as [[E X]|[[E X]|[[E X]|[E X]]]]; rewrite E in *; injection Ec as <-.
    + rewrite Hr, X. reflexivity.
    + cbn [app s_ list_ascii_of_string skipn]. rewrite stoi_dec0 by auto. cbn [bind]. rewrite Hr. reflexivity.
    + rewrite Hr, X. reflexivity.
    + cbn [app s_ list_ascii_of_string skipn]. rewrite stoi_dec0 by auto. cbn [bind]. rewrite Hr. reflexivity.
  - rewrite Hc in *. destruct (rng_string_ok (w_range w) Hr) as (x & Ex & Px & Fx & _).
    rewrite Ex in Ec. cbn [bind] in Ec. injection Ec as <-. rewrite split_multiple_eq. cbn [bind].
    change ("i"%char :: ":"%char :: x) with (s_ "i" ++ ":"%char :: x).
    rewrite splitm_app; [|repeat constructor; simpl; intuition discriminate|simpl; auto].
    rewrite splitm_none. 2:{ eapply Forall_impl; [|exact Fx]. simpl. intuition. }
    cbn [at_ nth_error bind]. rewrite Px. cbn [bind]. rewrite Hm. reflexivity.
Qed.

Definition other_ints (f : freq) : Prop :=
  match f with
  | FCs p => in_int p = true
  | FW w => week_ints w
  | FD b => week_ints (h_day b) /\ in_int (h_part b) = true
  | _ => False
  end.

Lemma class_fw w : wb_ok w -> w_class w = kWeekly \/ w_class w = kMultiWeekly \/ w_class w = kDaily \/ w_class w = kMultiDaily \/ w_class w = kDailyInWeek.
Proof. intros [b Hm Hr Hf Hc|b Hc Hm Hr Hi]; intuition. Qed.

Theorem other_round_trip v0 f details : any_freq f -> other_ints f ->
  exists s c, to_string f = Ok s /\ class_string details f = Ok c /\ parse v0 s c = Ok (class_of f, plain f).
Proof.
  intros Hf Hi. destruct (class_identified f details Hf) as (c & Ec & Gc).
  destruct f as [p|b|w|b|l|l]; cbn [any_freq other_ints to_string] in *; try contradiction.
  - exists (dec p), c. split; auto. split; auto. unfold parse. rewrite Gc. cbn [class_of bind].
    rewrite stoi_dec0 by auto. reflexivity.
  - assert (Hw := w_valid_ok w Hf). assert (V := proj1 Hi).
    assert (Es : wb_string w = Ok (iso (w_day w))) by (unfold wb_string; rewrite V; reflexivity).
    exists (iso (w_day w)), c. split; auto. split; auto.
    unfold parse. rewrite Gc. cbn [class_of bind]. cbn [class_string] in Ec.
    pose proof (wb_round (iso (w_day w)) c w Hw Hi Es Ec) as HR. cbn [plain].
    destruct (class_fw w Hw) as [E|[E|[E|[E|E]]]]; rewrite E in *; rewrite HR; reflexivity.
  - apply day_freq_ok in Hf. destruct Hf as (b' & Hv & Hb & E). injection E as <-. assert (HC := db_class_cases b Hb).
    destruct Hi as (Hi & Hp). assert (V := proj1 Hi). destruct Hb as (Hw & Hq & Hcl).
    assert (Es : wb_string (h_day b) = Ok (iso (w_day (h_day b)))) by (unfold wb_string; rewrite V; reflexivity).
    exists (iso (w_day (h_day b)) ++ s_ ":" ++ dec (h_pos b)), c.
    split. { unfold db_string. rewrite Es. destruct HC as [-> | [-> | [-> | ->]]]; reflexivity. }
    split; auto. unfold parse. rewrite Gc. cbn [class_of bind]. cbn [class_string] in Ec.
    destruct (wb_class_string_ok _ Hw) as (cw & Ecw & Fcw & _). destruct (get_class_week _ Hw) as (cw' & Ecw' & Gcw).
    rewrite Ecw in Ecw'. injection Ecw' as <-.
    pose proof (wb_round _ cw (h_day b) Hw Hi Es Ecw) as HR.
    assert (Iq : in_int (h_pos b) = true) by (eapply in_int_le; [|exact Hp]; lia).
    unfold db_class_string in Ec. rewrite Ecw in Ec. cbn [bind] in Ec.
    assert (Sp : splitm (s_ ":") (iso (w_day (h_day b)) ++ s_ ":" ++ dec (h_pos b)) = [iso (w_day (h_day b)); dec (h_pos b)]).
    { change (s_ ":" ++ dec (h_pos b)) with (":"%char :: dec (h_pos b)). rewrite splitm_app; [|apply digits_free; [|apply iso_chars; auto]|simpl; auto].
      - rewrite splitm_none; auto. apply dec_free. intros x Hx. simpl in Hx. destruct Hx as [<-|[]]. split; [reflexivity|discriminate].
      - intros x Hx. simpl in Hx. destruct Hx as [<-|[]]. reflexivity. }
    assert (Fcw' : Forall (fun x => ~ In x (s_ "|")) cw). { eapply Forall_impl; [|exact Fcw]. simpl. intuition. }
    assert (Sc : forall q0, Forall (fun x => ~ In x (s_ "|")) q0 -> splitm (s_ "|") (q0 ++ "|"%char :: cw) = [q0; cw]).
    { intros q0 F. rewrite splitm_app by (auto; simpl; auto). rewrite splitm_none by auto. reflexivity. }
    assert (HB : forall part k, part = h_part b -> h_class b = k ->
      {| h_day := plain_w (h_day b); h_part := part; h_pos := h_pos b; h_class := k |} =
      {| h_day := plain_w (h_day b); h_part := h_part b; h_pos := h_pos b; h_class := h_class b |}) by (intros; subst; reflexivity).
    assert (HP : db_parse (iso (w_day (h_day b)) ++ s_ ":" ++ dec (h_pos b)) c (h_class b) = Ok
       {| h_day := plain_w (h_day b); h_part := h_part b; h_pos := h_pos b; h_class := h_class b |}).
    { unfold db_parse. rewrite split_multiple_eq, Sp. cbn [at_ nth_error bind]. rewrite stoi_dec0 by auto. cbn [bind].
      rewrite split_multiple_eq.
      destruct (h_part b =? 24) eqn:P1; [|destruct (h_part b =? 1440) eqn:P2; [|destruct (h_part b =? 86400) eqn:P3]];
        rewrite Hcl in *; injection Ec as <-.
      - change ("h"%char :: "o"%char :: "|"%char :: cw) with (s_ "ho" ++ "|"%char :: cw). rewrite Sc by (repeat constructor; simpl; intuition discriminate).
        cbn [at_ nth_error bind]. rewrite Gcw. cbn [bind]. rewrite HR. cbn [bind]. f_equal. apply HB; auto. lia.
      - change ("m"%char :: "i"%char :: "|"%char :: cw) with (s_ "mi" ++ "|"%char :: cw). rewrite Sc by (repeat constructor; simpl; intuition discriminate).
        cbn [at_ nth_error bind]. rewrite Gcw. cbn [bind]. rewrite HR. cbn [bind]. f_equal. apply HB; auto. lia.
      - change ("s"%char :: "e"%char :: "|"%char :: cw) with (s_ "se" ++ "|"%char :: cw). rewrite Sc by (repeat constructor; simpl; intuition discriminate).
        cbn [at_ nth_error bind]. rewrite Gcw. cbn [bind]. rewrite HR. cbn [bind]. f_equal. apply HB; auto. lia.
      - change ("d"%char :: "a"%char :: dec (h_part b) ++ "|"%char :: cw) with ((s_ "da" ++ dec (h_part b)) ++ "|"%char :: cw).
        rewrite Sc. 2:{ apply Forall_app. split; [repeat constructor; simpl; intuition discriminate|]. apply dec_free.
          intros x Hx. simpl in Hx. destruct Hx as [<-|[]]. split; [reflexivity|discriminate]. }
        cbn [at_ nth_error bind]. rewrite Gcw. cbn [bind]. rewrite HR. cbn [bind app s_ list_ascii_of_string List.length skipn].
        change (S (S (List.length (dec (h_part b)))) <? 2)%nat with false. cbv iota.
        rewrite stoi_dec0 by auto. cbn [bind]. f_equal. }
    cbn [plain]. destruct HC as [E | [E | [E | E]]]; rewrite E in *; rewrite HP; reflexivity.
Qed.

(** Lists, through ParseList with an empty vector of items. *)
Definition list_text (f : freq) : Prop :=
  match f with
  | FLs l => exists its, l_items l = Some its /\ its <> [] /\ Forall (Forall (fun c => c <> ";"%char)) its /\ in_int (l_out l) = true /\
       starts_with (s_ "out_item:") (l_value l) = false
  | FLd l => exists its, l_items l = Some its /\ its <> [] /\ Forall (fun d => valid_day d = true) its /\ in_int (l_out l) = true /\
       valid_day (l_value l) = true
  | _ => False
  end.

Lemma map_iso_parse l : Forall (fun d => valid_day d = true) l -> map_res iso_parse (map iso l) = Ok l.
Proof. intros H; induction H as [|d l Hd H IH]; cbn [map map_res]; auto. rewrite iso_parse_iso by auto. cbn [bind]. rewrite IH. reflexivity. Qed.

Theorem list_round_trip f : list_text f ->
  exists s c, to_string f = Ok s /\ class_string true f = Ok c /\
   match f with FLs _ => parse_list_s s c [] | _ => parse_list_d 0 s c [] end = Ok (class_of f, plain f).
Proof.
  destruct f as [p|b|w|b|l|l]; cbn [list_text]; try contradiction.
  - intros (its & HI & NE & HS & IO & HV). cbn [to_string class_string]. rewrite HI.
    assert (HSp : splitm (s_ ";") (join (s_ ";") its) = its) by (apply (splitm_join ";"%char); auto).
    destruct (l_out l =? 0) eqn:E0; cbn [negb]; eexists; eexists; (split; [reflexivity|]); (split; [reflexivity|]);
      unfold parse_list_s, ls_parse; cbn [bind].
    + change (get_class _) with (Ok kListString). cbn [bind]. rewrite HV. cbn [bind]. change (0 =? 0) with true. cbv iota.
      cbn [app s_ list_ascii_of_string List.length skipn]. cbn [Nat.ltb Nat.leb]. rewrite split_multiple_eq.
      change [";"%char] with (s_ ";"). rewrite HSp. cbn [bind plain]. rewrite E0.
      destruct l as [v i o]. cbn [l_value l_items l_out] in *. subst i. replace o with 0 by lia. reflexivity.
    + change (get_class _) with (Ok kListString). cbn [bind]. rewrite starts_with_refl_app. cbn [app s_ list_ascii_of_string skipn].
      rewrite stoi_dec0 by auto. cbn [bind]. rewrite E0.
      cbn [app s_ list_ascii_of_string List.length skipn]. cbn [Nat.ltb Nat.leb]. rewrite split_multiple_eq.
      change [";"%char] with (s_ ";"). rewrite HSp. cbn [bind plain]. rewrite E0, HI. reflexivity.
  - intros (its & HI & NE & HS & IO & HV). cbn [to_string class_string]. rewrite HI.
    assert (HSp : splitm (s_ ";") (join (s_ ";") (map iso its)) = map iso its).
    { apply (splitm_join ";"%char). { destruct its; [congruence|discriminate]. } apply Forall_map.
      eapply Forall_impl; [|exact HS]. intros d Hd. destruct (iso_chars d Hd) as (Fd & _). eapply Forall_impl; [|exact Fd].
      intros c Hc. apply digit_neq; auto. }
    destruct (l_out l =? 0) eqn:E0; cbn [negb].
    + rewrite HV. eexists; eexists; (split; [reflexivity|]); (split; [reflexivity|]). unfold parse_list_d, ld_parse; cbn [bind].
      change (get_class _) with (Ok kListDate). cbn [bind].
      assert (Hs : starts_with (s_ "out_item:") (iso (l_value l)) = false).
      { destruct (starts_with (s_ "out_item:") (iso (l_value l))) eqn:E; auto. apply starts_with_app in E. destruct E as (r & E).
        destruct (iso_chars _ HV) as (F & _). rewrite E in F. inversion F as [|x y Hx _]; subst. destruct (is_digit_val _ Hx) as (d & X & _). discriminate X. }
      rewrite Hs. cbn [bind]. change (0 =? 0) with true. cbv iota. rewrite iso_parse_iso by auto. cbn [bind].
      cbn [app s_ list_ascii_of_string List.length skipn]. cbn [Nat.ltb Nat.leb]. rewrite split_multiple_eq.
      change [";"%char] with (s_ ";"). rewrite HSp. cbn [bind]. rewrite map_iso_parse by auto. cbn [bind plain]. rewrite E0.
      destruct l as [v i o]. cbn [l_value l_items l_out] in *. subst i. replace o with 0 by lia. reflexivity.
    + eexists; eexists; (split; [reflexivity|]); (split; [reflexivity|]). unfold parse_list_d, ld_parse; cbn [bind].
      change (get_class _) with (Ok kListDate). cbn [bind]. rewrite starts_with_refl_app. cbn [app s_ list_ascii_of_string skipn].
      rewrite stoi_dec0 by auto. cbn [bind]. rewrite E0. cbn [bind].
      cbn [app s_ list_ascii_of_string List.length skipn]. cbn [Nat.ltb Nat.leb]. rewrite split_multiple_eq.
      change [";"%char] with (s_ ";"). rewrite HSp. cbn [bind]. rewrite map_iso_parse by auto. cbn [bind plain]. rewrite E0, HI. reflexivity.
Qed.
