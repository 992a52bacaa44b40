(** Year-based frequencies. *)
From Verif Require Import StrModel StrProofs DateProofs FreqModel FreqSpec.
From Coq Require Import ZifyBool.
Local Open Scope Z_scope.

Definition yb_ok (b : yb) : Prop := 1 <= yb_multi b /\ yb_make (yb_year b) (yb_part b) (yb_pos b) (yb_multi b) = Ok b.

Lemma yb_make_inv y p q m b : yb_make y p q m = Ok b ->
  yb_year b = y /\ yb_part b = p /\ yb_pos b = q /\ yb_multi b = m /\ 1 <= q <= p /\ yb_make y p q m = Ok b.
Proof.
  intros H. assert (H' := H). unfold yb_make in H.
  destruct (p <=? 0) eqn:E1; [discriminate|]. destruct (q <=? 0) eqn:E2; [discriminate|].
  destruct (p <? q) eqn:E3; [discriminate|]. injection H as <-. simpl. repeat split; auto; lia.
Qed.

Lemma year_freq_ok f : year_freq f <-> exists b, yb_ok b /\ f = FY b.
Proof.
  split.
  - intros (y & p & q & m & b & Hm & H & ->). exists b. split; auto.
    apply yb_make_inv in H. destruct H as (E1 & E2 & E3 & E4 & _ & H). split; [lia|].
    rewrite E1, E2, E3, E4. auto.
  - intros (b & (Hm & H) & ->). do 5 eexists. repeat split; eauto.
Qed.

Lemma yb_ok_pos b : yb_ok b -> 1 <= yb_pos b <= yb_part b.
Proof. intros (_ & H). apply yb_make_inv in H. tauto. Qed.

(** Next in closed form. *)
Lemma yb_next_eq n f : 1 <= yb_pos f <= yb_part f ->
  yb_next n f = yb_set f (yb_year f + yb_multi f * ((yb_pos f - 1 + n) / yb_part f)) ((yb_pos f - 1 + n) mod yb_part f + 1).
Proof.
  intros H. unfold yb_next. set (P := yb_part f) in *. set (p := yb_pos f) in *.
  rewrite Z.quot_div_nonneg, Z.rem_mod_nonneg by lia.
  pose proof (Z.div_mod (Z.abs n) P ltac:(lia)) as HD. pose proof (Z.mod_pos_bound (Z.abs n) P ltac:(lia)) as HR.
  set (q := Z.abs n / P) in *. set (r := Z.abs n mod P) in *.
  assert (G : forall k s, 0 <= s < P -> p - 1 + n = P * k + s ->
     (p - 1 + n) / P = k /\ (p - 1 + n) mod P = s).
  { intros k s Hs E. rewrite E. split.
    - symmetry. apply (Z.div_unique _ P k s); lia.
    - symmetry. apply (Z.mod_unique _ P k s); lia. }
  destruct (n =? 0) eqn:E0.
  { destruct (G 0 (p - 1)) as [-> ->]; try lia. destruct f; unfold yb_set; simpl in *. f_equal; subst p; lia. }
  destruct (0 <? n) eqn:E1.
  - assert (En : n = P * q + r) by lia. destruct (P <? p + r) eqn:E2.
    + destruct (G (q + 1) (p - 1 + r - P)) as [-> ->]; try nia. f_equal; lia.
    + destruct (G q (p - 1 + r)) as [-> ->]; try nia. f_equal; lia.
  - assert (En : n = - (P * q + r)) by lia. destruct (p - r <=? 0) eqn:E2.
    + destruct (G (- q - 1) (p - 1 - r + P)) as [-> ->]; try nia. f_equal; lia.
    + destruct (G (- q) (p - 1 - r)) as [-> ->]; try nia. f_equal; lia.
Qed.

Lemma yb_next_ok n b : yb_ok b -> yb_ok (yb_next n b) /\ yb_part (yb_next n b) = yb_part b /\
  yb_multi (yb_next n b) = yb_multi b /\ yb_class (yb_next n b) = yb_class b.
Proof.
  intros Hb. assert (Hp := yb_ok_pos b Hb). destruct Hb as (Hm & Hk). rewrite yb_next_eq by auto.
  pose proof (Z.mod_pos_bound (yb_pos b - 1 + n) (yb_part b) ltac:(lia)).
  destruct b as [y mu p q c]. unfold yb_ok, yb_set, yb_make in *. cbn [yb_year yb_multi yb_part yb_pos yb_class] in *.
  destruct (p <=? 0) eqn:E1; [lia|]. destruct (q <=? 0) eqn:E2; [lia|].
  destruct (p <? q) eqn:E3; [lia|]. injection Hk as Hk.
  destruct ((q - 1 + n) mod p + 1 <=? 0) eqn:E4; [lia|]. destruct (p <? (q - 1 + n) mod p + 1) eqn:E5; [lia|].
  split; [split; [auto|]|auto]. rewrite Hk. reflexivity.
Qed.

Lemma yb_next_add n m b : 1 <= yb_pos b <= yb_part b -> yb_next m (yb_next n b) = yb_next (n + m) b.
Proof.
  intros Hp. pose proof (Z.mod_pos_bound (yb_pos b - 1 + n) (yb_part b) ltac:(lia)).
  rewrite (yb_next_eq m); rewrite (yb_next_eq n) by auto; simpl.
  2:{ lia. }
  rewrite (yb_next_eq (n + m)) by auto. unfold yb_set. simpl.
  set (x := yb_pos b - 1 + n) in *. set (P := yb_part b) in *.
  pose proof (Z.div_mod x P ltac:(lia)) as HD.
  replace (x mod P + 1 - 1 + m) with (x + m + (- (x / P)) * P) by lia.
  rewrite Z.div_add, Z.mod_add by lia.
  replace (yb_pos b - 1 + (n + m)) with (x + m) by lia. f_equal. ring.
Qed.

Lemma yb_next_0 b : yb_next 0 b = b. Proof. reflexivity. Qed.

(** Ticks: a number that counts periods. *)
Definition ytick (b : yb) (y0 : Z) : Z := (yb_year b - y0) / yb_multi b * yb_part b + yb_pos b.

Lemma yb_minus_eq a b : yb_ok a -> yb_ok b -> yb_part a = yb_part b -> yb_multi a = yb_multi b ->
  forall k, yb_year a - yb_year b = yb_multi a * k -> yb_minus a b = Ok (k * yb_part a + yb_pos a - yb_pos b).
Proof.
  intros Ha Hb Ep Em k Hk. assert (Pa := yb_ok_pos a Ha). assert (Pb := yb_ok_pos b Hb).
  destruct Ha as (Hm & _). unfold yb_minus.
  destruct (yb_multi a =? 0) eqn:E0; [lia|].
  destruct (0 <? yb_cmp a b) eqn:E1.
  - rewrite Hk, (Z.mul_comm (yb_multi a)), Z.quot_mul by lia. f_equal. ring.
  - replace (yb_year b - yb_year a) with (- k * yb_multi a) by lia. rewrite Z.quot_mul by lia. f_equal. rewrite <- Ep. ring.
Qed.

Lemma yb_cmp_eq a b : yb_ok a -> yb_ok b -> yb_part a = yb_part b -> yb_multi a = yb_multi b ->
  forall k, yb_year a - yb_year b = yb_multi a * k -> yb_cmp a b = Z.sgn (k * yb_part a + yb_pos a - yb_pos b).
Proof.
  intros Ha Hb Ep Em k Hk. assert (Pa := yb_ok_pos a Ha). assert (Pb := yb_ok_pos b Hb).
  destruct Ha as (Hm & _). unfold yb_cmp.
  destruct (yb_year a <? yb_year b) eqn:E1. { assert (k <= -1) by nia. symmetry. apply Z.sgn_neg. nia. }
  destruct (yb_year b <? yb_year a) eqn:E2. { assert (1 <= k) by nia. symmetry. apply Z.sgn_pos. nia. }
  assert (k = 0) by nia. subst k. rewrite Z.mul_0_l, Z.add_0_l.
  destruct (yb_pos a <? yb_pos b) eqn:E3. { symmetry. apply Z.sgn_neg. lia. }
  destruct (yb_pos b <? yb_pos a) eqn:E4. { symmetry. apply Z.sgn_pos. lia. }
  symmetry. apply Z.sgn_null_iff. lia.
Qed.

(** The class string determines partition and multiple. *)
Lemma yb_class_string_ok b : yb_ok b -> exists s, yb_class_string b = Ok s /\
  forall b', yb_ok b' -> yb_class b = yb_class b' ->
    exists s', yb_class_string b' = Ok s' /\ (iequals s s' = true <-> yb_part b = yb_part b' /\ yb_multi b = yb_multi b').
Proof.
  intros (Hm & H). unfold yb_make in H.
  destruct (yb_part b <=? 0) eqn:E1; [discriminate|]. destruct (yb_pos b <=? 0) eqn:E2; [discriminate|].
  destruct (yb_part b <? yb_pos b) eqn:E3; [discriminate|]. injection H as H.
  assert (Hc : yb_class b = if yb_multi b =? 1 then
         (if yb_part b =? 1 then kYearly else if yb_part b =? 4 then kQuarterly else if yb_part b =? 12 then kMonthly else kXTimesAYear)
       else (if yb_part b =? 1 then kMultiYear else kXTimesZYears)) by (rewrite <- H at 1; reflexivity).
  clear H.
  assert (HX : forall b', yb_ok b' -> yb_class b' = if yb_multi b' =? 1 then
         (if yb_part b' =? 1 then kYearly else if yb_part b' =? 4 then kQuarterly else if yb_part b' =? 12 then kMonthly else kXTimesAYear)
       else (if yb_part b' =? 1 then kMultiYear else kXTimesZYears)).
  { intros b' (Hm' & H'). unfold yb_make in H'.
    destruct (yb_part b' <=? 0) eqn:E1'; [discriminate|]. destruct (yb_pos b' <=? 0) eqn:E2'; [discriminate|].
    destruct (yb_part b' <? yb_pos b') eqn:E3'; [discriminate|]. injection H' as H'. rewrite <- H' at 1; reflexivity. }
  unfold yb_class_string.
  destruct (yb_multi b =? 1) eqn:Em.
  - destruct (yb_part b =? 1) eqn:Ep1; [|destruct (yb_part b =? 4) eqn:Ep4; [|destruct (yb_part b =? 12) eqn:Ep12]]; rewrite Hc;
      eexists; (split; [reflexivity|]); intros b' Hb' E; specialize (HX b' Hb'); rewrite <- E in HX |- *;
      eexists; (split; [reflexivity|]).
    1-3: destruct (yb_multi b' =? 1) eqn:Em'; [|destruct (yb_part b' =? 1); discriminate];
      destruct (yb_part b' =? 1) eqn:F1; try discriminate; try (destruct (yb_part b' =? 4) eqn:F2; try discriminate);
      try (destruct (yb_part b' =? 12) eqn:F3; try discriminate); split; intros; try reflexivity; lia.
    destruct (yb_multi b' =? 1) eqn:Em'; [|destruct (yb_part b' =? 1); discriminate].
    rewrite iequals_eq, !map_app, !upper_dec. split.
    + intros HE. apply app_inv_head in HE. apply dec_inj in HE. lia.
    + intros [-> _]. reflexivity.
  - destruct (yb_part b =? 1) eqn:Ep1; rewrite Hc;
      eexists; (split; [reflexivity|]); intros b' Hb' E; specialize (HX b' Hb'); rewrite <- E in HX |- *;
      eexists; (split; [reflexivity|]).
    + destruct (yb_multi b' =? 1) eqn:Em'.
      { destruct (yb_part b' =? 1); try discriminate; destruct (yb_part b' =? 4); try discriminate; destruct (yb_part b' =? 12); discriminate. }
      destruct (yb_part b' =? 1) eqn:F1; [|discriminate].
      rewrite iequals_eq, !map_app, !upper_dec. split.
      * intros HE. apply app_inv_head in HE. apply dec_inj in HE. lia.
      * intros [_ ->]. reflexivity.
    + rewrite iequals_eq, !map_app, !upper_dec. split.
      * intros HE. apply app_inv_head in HE.
        assert (HS : splitm (s_ "Z") (dec (yb_part b) ++ s_ "Z" ++ dec (yb_multi b)) = splitm (s_ "Z") (dec (yb_part b') ++ s_ "Z" ++ dec (yb_multi b'))).
        { f_equal. exact HE. }
        assert (HN : forall n, Forall (fun x => ~ In x (s_ "Z")) (dec n)).
        { intros n. eapply Forall_impl; [|apply dec_chars]. intros c Hc1 [<-|[]].
          destruct Hc1 as [Hd|Hd]; [|discriminate Hd]. destruct (is_digit_val _ Hd) as (d & Ed & _). discriminate Ed. }
        change (s_ "Z" ++ dec (yb_multi b)) with ("Z"%char :: dec (yb_multi b)) in HS.
        change (s_ "Z" ++ dec (yb_multi b')) with ("Z"%char :: dec (yb_multi b')) in HS.
        rewrite !splitm_app in HS by (auto; left; reflexivity).
        rewrite !splitm_none in HS by auto. injection HS as H1 H2. apply dec_inj in H1, H2. auto.
      * intros [-> ->]. reflexivity.
Qed.

Lemma fclass_eqb_eq a b : fclass_eqb a b = true <-> a = b.
Proof. unfold fclass_eqb. destruct (fclass_eq_dec a b); split; congruence. Qed.

Lemma yb_class_eq a b : yb_ok a -> yb_ok b -> yb_part a = yb_part b -> yb_multi a = yb_multi b -> yb_class a = yb_class b.
Proof.
  intros (_ & Ha) (_ & Hb) Ep Em. unfold yb_make in Ha, Hb. rewrite <- Ep, <- Em in Hb.
  destruct (yb_part a <=? 0) eqn:E1; [discriminate|]. destruct (yb_pos a <=? 0) eqn:E2; [discriminate|].
  destruct (yb_part a <? yb_pos a) eqn:E3; [discriminate|].
  destruct (yb_pos b <=? 0) eqn:E4; [discriminate|]. destruct (yb_part a <? yb_pos b) eqn:E5; [discriminate|].
  injection Ha as Ha. injection Hb as Hb. rewrite <- Ha, <- Hb. reflexivity.
Qed.

Lemma check_year a b : yb_ok a -> yb_ok b ->
  check_class (FY a) (FY b) = if (yb_part a =? yb_part b) && (yb_multi a =? yb_multi b) then Ok tt else Throw.
Proof.
  intros Ha Hb. unfold check_class. cbn [class_string class_of].
  destruct (yb_class_string_ok a Ha) as (s & Es & HS). destruct (yb_class_string_ok b Hb) as (s' & Es' & _).
  rewrite Es, Es'. cbn [bind].
  destruct ((yb_part a =? yb_part b) && (yb_multi a =? yb_multi b)) eqn:E.
  - assert (Ec : yb_class a = yb_class b) by (apply yb_class_eq; auto; lia).
    destruct (HS b Hb Ec) as (s2 & E2 & HI). rewrite Es' in E2. injection E2 as <-.
    rewrite (proj2 (fclass_eqb_eq _ _) Ec), (proj2 HI) by lia. reflexivity.
  - destruct (fclass_eqb (yb_class a) (yb_class b)) eqn:Ec; [|reflexivity]. apply fclass_eqb_eq in Ec.
    destruct (HS b Hb Ec) as (s2 & E2 & HI). rewrite Es' in E2. injection E2 as <-.
    destruct (iequals s s') eqn:EI; [|reflexivity]. destruct (proj1 HI eq_refl). lia.
Qed.

Theorem year_steps f n m : year_freq f ->
  exists g h, next n f = Ok g /\ next m g = Ok h /\ next (n + m) f = Ok h /\ next 0 f = Ok f /\
    next (- n) g = Ok f /\ minus g f = Ok n /\ year_freq g /\ year_grid g f.
Proof.
  intros H. apply year_freq_ok in H. destruct H as (b & Hb & ->).
  assert (Hp := yb_ok_pos b Hb). destruct (yb_next_ok n b Hb) as (Hg & E1 & E2 & E3).
  exists (FY (yb_next n b)), (FY (yb_next (n + m) b)). cbn [next].
  split; [reflexivity|]. split. { rewrite yb_next_add; auto. } split; [reflexivity|]. split; [reflexivity|].
  split. { rewrite yb_next_add by auto. rewrite Z.add_opp_diag_r. reflexivity. }
  assert (EY : yb_year (yb_next n b) - yb_year b = yb_multi (yb_next n b) * ((yb_pos b - 1 + n) / yb_part b)).
  { rewrite yb_next_eq by auto. cbn [yb_set yb_year yb_multi]. lia. }
  split.
  - unfold minus. rewrite check_year by auto. rewrite E1, E2, !Z.eqb_refl. cbn [andb bind].
    rewrite (yb_minus_eq _ _ Hg Hb E1 E2 _ EY). rewrite E1. f_equal.
    rewrite yb_next_eq by auto. cbn [yb_set yb_pos].
    pose proof (Z.div_mod (yb_pos b - 1 + n) (yb_part b) ltac:(lia)). lia.
  - split; [apply year_freq_ok; eauto|]. cbn. repeat split; auto. rewrite EY. apply Z.divide_factor_l.
Qed.

Theorem year_order f g : year_freq f -> year_freq g -> year_grid f g ->
  exists d, minus f g = Ok d /\ minus g f = Ok (- d) /\ compare f g = Ok (Z.sgn d) /\ (d = 0 <-> f = g) /\
    is_equal f g = Ok (d =? 0) /\ is_newer f g = Ok (0 <? d) /\ is_older f g = Ok (d <? 0) /\
    is_equal_or_newer f g = Ok (0 <=? d) /\ is_equal_or_older f g = Ok (d <=? 0) /\
    next d g = Ok f.
Proof.
  intros Hf Hg HG. apply year_freq_ok in Hf, Hg. destruct Hf as (a & Ha & ->), Hg as (b & Hb & ->).
  destruct HG as (Ep & Em & (k & Hk)). rewrite Z.mul_comm in Hk.
  set (d := k * yb_part a + yb_pos a - yb_pos b).
  assert (Pa := yb_ok_pos a Ha). assert (Pb := yb_ok_pos b Hb).
  assert (C : compare (FY a) (FY b) = Ok (Z.sgn d)).
  { unfold compare. rewrite check_year by auto. rewrite Ep, Em, !Z.eqb_refl. cbn [andb bind].
    rewrite (yb_cmp_eq _ _ Ha Hb Ep Em _ Hk). reflexivity. }
  exists d. split; [|split; [|split; [exact C|]]].
  - unfold minus. rewrite check_year by auto. rewrite Ep, Em, !Z.eqb_refl. cbn [andb bind].
    apply (yb_minus_eq _ _ Ha Hb Ep Em _ Hk).
  - unfold minus. rewrite check_year by auto. rewrite Ep, Em, !Z.eqb_refl. cbn [andb bind].
    rewrite (yb_minus_eq b a Hb Ha (eq_sym Ep) (eq_sym Em) (- k)) by lia. f_equal. unfold d. rewrite <- Ep. ring.
  - assert (EN : next d (FY b) = Ok (FY a)).
    { cbn [next]. f_equal. f_equal. rewrite yb_next_eq by auto.
      assert (Ex : yb_pos b - 1 + d = yb_part b * k + (yb_pos a - 1)) by (unfold d; rewrite Ep; ring).
      assert (D1 : (yb_pos b - 1 + d) / yb_part b = k).
      { rewrite Ex. symmetry. apply (Z.div_unique _ (yb_part b) k (yb_pos a - 1)); lia. }
      assert (D2 : (yb_pos b - 1 + d) mod yb_part b = yb_pos a - 1).
      { rewrite Ex. symmetry. apply (Z.mod_unique _ (yb_part b) k (yb_pos a - 1)); lia. }
      rewrite D1, D2. unfold yb_set. destruct a as [ay am ap aq ac]. cbn [yb_year yb_multi yb_part yb_pos yb_class] in *.
      rewrite <- (yb_class_eq _ _ Ha Hb Ep Em). cbn [yb_class]. f_equal; lia. }
    split.
    + split.
      * intros E0. rewrite E0 in EN. cbn in EN. congruence.
      * intros [= ->]. assert (k = 0) by (destruct Hb; nia). unfold d. subst k. lia.
    + unfold is_equal, is_newer, is_older, is_equal_or_newer, is_equal_or_older. rewrite C. cbn [bind].
      repeat split; try (f_equal; lia). exact EN.
Qed.

Theorem year_minus_additive f g h : year_freq f -> year_freq g -> year_freq h -> year_grid f g -> year_grid g h ->
  exists a b, minus f g = Ok a /\ minus g h = Ok b /\ minus f h = Ok (a + b).
Proof.
  intros Hf Hg Hh HG1 HG2. apply year_freq_ok in Hf, Hg, Hh.
  destruct Hf as (a & Ha & ->), Hg as (b & Hb & ->), Hh as (c & Hc & ->).
  destruct HG1 as (Ep & Em & (k & Hk)), HG2 as (Ep2 & Em2 & (k2 & Hk2)). rewrite Z.mul_comm in Hk, Hk2.
  exists (k * yb_part a + yb_pos a - yb_pos b), (k2 * yb_part b + yb_pos b - yb_pos c).
  unfold minus. rewrite !check_year by auto.
  replace (yb_part a =? yb_part c) with true by lia. replace (yb_multi a =? yb_multi c) with true by lia.
  rewrite Ep, Em, Ep2, Em2, !Z.eqb_refl. cbn [andb bind].
  rewrite (yb_minus_eq a b Ha Hb Ep Em k Hk). rewrite (yb_minus_eq b c Hb Hc Ep2 Em2 k2 Hk2).
  rewrite (yb_minus_eq a c Ha Hc) with (k := k + k2) by (try congruence; nia).
  rewrite Ep, Ep2. split; [reflexivity|]. split; [reflexivity|]. f_equal. ring.
Qed.

Theorem year_other_class f g : year_freq f -> year_freq g ->
  ~ (match f, g with FY a, FY b => yb_part a = yb_part b /\ yb_multi a = yb_multi b | _, _ => False end) ->
  compare f g = Throw /\ minus f g = Throw.
Proof.
  intros Hf Hg H. apply year_freq_ok in Hf, Hg. destruct Hf as (a & Ha & ->), Hg as (b & Hb & ->).
  unfold compare, minus. rewrite check_year by auto.
  destruct ((yb_part a =? yb_part b) && (yb_multi a =? yb_multi b)) eqn:E; [lia|]. auto.
Qed.
