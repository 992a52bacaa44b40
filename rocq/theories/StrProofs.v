(** Facts about the string helpers. *)
From Verif Require Import StrModel.
From Coq Require Import ZifyBool.
Local Open Scope Z_scope.

(** ** Decimal numbers *)
Lemma digit_val_digit d : 0 <= d < 10 -> digit_val (digit d) = Some d.
Proof.
  intros H. unfold digit_val, digit. rewrite nat_ascii_embedding by lia.
  rewrite Z2Nat.id by lia. destruct ((48 <=? 48 + d) && (48 + d <=? 57)) eqn:E; [f_equal|]; lia.
Qed.

Definition is_digit (c : ascii) : Prop := exists d, 0 <= d < 10 /\ c = digit d.

Lemma digit_of_val c d : digit_val c = Some d -> 0 <= d < 10 /\ c = digit d.
Proof.
  unfold digit_val. destruct ((48 <=? Z.of_nat (nat_of_ascii c)) && (Z.of_nat (nat_of_ascii c) <=? 57)) eqn:E; [|discriminate].
  intros [= <-]. split; [lia|]. unfold digit. rewrite <- (ascii_nat_embedding c) at 1. f_equal. lia.
Qed.

Lemma is_digit_val c : is_digit c -> exists d, digit_val c = Some d /\ 0 <= d < 10.
Proof. intros (d & H & ->). exists d. split; auto. apply digit_val_digit; auto. Qed.

Lemma digits_app acc a b : Forall is_digit a -> digits acc (a ++ b) = digits (digits acc a) b.
Proof.
  revert acc; induction a as [|c a IH]; intros acc H; simpl; auto.
  inversion H; subst. destruct (is_digit_val c) as (d & E & _); auto. rewrite E. apply IH; auto.
Qed.

Lemma dec_pos_digits fuel : forall n, 0 <= n -> Forall is_digit (dec_pos fuel n).
Proof.
  induction fuel as [|f IH]; intros n Hn; simpl; [constructor|].
  destruct (n <? 10) eqn:E.
  - constructor; [|constructor]. exists n. split; [lia|reflexivity].
  - apply Forall_app. split. { apply IH. apply Z.div_pos; lia. }
    constructor; [|constructor]. exists (n mod 10). split; [apply Z.mod_pos_bound; lia|reflexivity].
Qed.

Lemma dec_pos_val fuel : forall n, 0 <= n < 2 ^ Z.of_nat fuel -> digits 0 (dec_pos fuel n) = n.
Proof.
  induction fuel as [|f IH]; intros n Hn.
  - simpl in Hn. simpl. lia.
  - rewrite Nat2Z.inj_succ, Z.pow_succ_r in Hn by lia. cbn [dec_pos].
    destruct (n <? 10) eqn:E.
    + cbn [digits]. rewrite digit_val_digit by lia. lia.
    + rewrite digits_app by (apply dec_pos_digits; apply Z.div_pos; lia).
      rewrite IH.
      * cbn [digits]. rewrite digit_val_digit by (apply Z.mod_pos_bound; lia).
        pose proof (Z.div_mod n 10). lia.
      * split; [apply Z.div_pos; lia|]. apply Z.div_lt_upper_bound; lia.
Qed.

Lemma dec_nat_digits n : 0 <= n -> Forall is_digit (dec_nat n).
Proof. apply dec_pos_digits. Qed.

Lemma dec_nat_val n : 0 <= n -> digits 0 (dec_nat n) = n.
Proof.
  intros H. apply dec_pos_val. split; auto. rewrite Nat2Z.inj_succ, Z2Nat.id by apply Z.log2_nonneg.
  destruct (Z.eq_dec n 0) as [->|Hn]; [reflexivity|]. apply Z.log2_spec. lia.
Qed.

Lemma dec_nat_nonempty n : dec_nat n <> [].
Proof.
  unfold dec_nat. cbn [dec_pos]. destruct (n <? 10); [discriminate|]. intros E. apply app_eq_nil in E. destruct E; discriminate.
Qed.

(** The characters of a decimal number: a leading sign, then digits. *)
Lemma dec_cases n : exists ds, ds <> [] /\ Forall is_digit ds /\
  ((0 <= n /\ dec n = ds /\ digits 0 ds = n) \/ (n < 0 /\ dec n = "-"%char :: ds /\ digits 0 ds = - n)).
Proof.
  unfold dec. destruct (n <? 0) eqn:E.
  - exists (dec_nat (- n)). split; [apply dec_nat_nonempty|]. split; [apply dec_nat_digits; lia|].
    right. split; [lia|]. split; auto. apply dec_nat_val; lia.
  - exists (dec_nat n). split; [apply dec_nat_nonempty|]. split; [apply dec_nat_digits; lia|].
    left. split; [lia|]. split; auto. apply dec_nat_val; lia.
Qed.

Lemma digit_not_space c : is_digit c -> is_space c = false.
Proof.
  intros (d & H & ->). unfold is_space, digit. rewrite nat_ascii_embedding by lia. lia.
Qed.

Lemma digit_neq c x : is_digit c -> digit_val x = None -> c <> x.
Proof. intros H E ->. destruct (is_digit_val x H) as (d & E' & _). congruence. Qed.

(** What may follow a number without changing how it is read. *)
Definition stops (rest : str) : Prop := match rest with [] => True | c :: _ => digit_val c = None end.

Lemma digits_stop acc rest : stops rest -> digits acc rest = acc.
Proof. destruct rest as [|c r]; simpl; auto. intros ->. reflexivity. Qed.

Lemma stoi_dec n rest : in_int n = true -> stops rest -> stoi (dec n ++ rest) = Ok n.
Proof.
  intros Hi Hr. destruct (dec_cases n) as (ds & Hne & Hd & H).
  destruct ds as [|c ds]; [congruence|]. inversion Hd as [|? ? Hc Hds]; subst.
  destruct (is_digit_val c Hc) as (v & Ev & _).
  destruct H as [(Hp & E & Hv)|(Hp & E & Hv)]; rewrite E.
  - unfold stoi. cbn [app skip_space]. rewrite (digit_not_space c Hc).
    destruct (ascii_dec c "-") as [->|_]; [discriminate Ev|].
    destruct (ascii_dec c "+") as [->|_]; [discriminate Ev|].
    rewrite Ev. change (c :: ds ++ rest) with ((c :: ds) ++ rest). rewrite digits_app by auto.
    rewrite Hv, digits_stop by auto. rewrite Hi. reflexivity.
  - unfold stoi. cbn [app skip_space]. change (is_space "-") with false. cbv iota.
    destruct (ascii_dec "-" "-") as [_|]; [|congruence].
    rewrite Ev. change (c :: ds ++ rest) with ((c :: ds) ++ rest). rewrite digits_app by auto.
    rewrite Hv, digits_stop by auto. rewrite Z.opp_involutive, Hi. reflexivity.
Qed.

Lemma stoi_dec0 n : in_int n = true -> stoi (dec n) = Ok n.
Proof. intros H. rewrite <- (app_nil_r (dec n)). apply stoi_dec; simpl; auto. Qed.

Lemma digits_inj_dec n m : digits 0 (dec_nat n) = digits 0 (dec_nat m) -> 0 <= n -> 0 <= m -> n = m.
Proof. intros H Hn Hm. rewrite !dec_nat_val in H; auto. Qed.

Lemma dec_inj n m : dec n = dec m -> n = m.
Proof.
  intros H. destruct (dec_cases n) as (a & Ha & Fa & Hn). destruct (dec_cases m) as (b & Hb & Fb & Hm).
  destruct Hn as [(Hn & En & Vn)|(Hn & En & Vn)]; destruct Hm as [(Hm & Em & Vm)|(Hm & Em & Vm)]; rewrite En, Em in H.
  - congruence.
  - subst a. inversion Fa; subst. destruct (is_digit_val _ H1) as (d & E & _). discriminate E.
  - subst b. inversion Fb; subst. destruct (is_digit_val _ H1) as (d & E & _). discriminate E.
  - injection H as ->. lia.
Qed.

Definition dec_char (c : ascii) : Prop := is_digit c \/ c = "-"%char.
Lemma dec_chars n : Forall dec_char (dec n).
Proof.
  destruct (dec_cases n) as (a & _ & Fa & [(_ & -> & _)|(_ & -> & _)]).
  - eapply Forall_impl; [|exact Fa]. intros; left; auto.
  - constructor; [right; auto|]. eapply Forall_impl; [|exact Fa]. intros; left; auto.
Qed.
Lemma dec_nonempty n : dec n <> [].
Proof. destruct (dec_cases n) as (a & Ha & _ & [(_ & -> & _)|(_ & -> & _)]); congruence. Qed.

Lemma upper_dec_char c : dec_char c -> upper c = c.
Proof.
  intros [(d & H & ->)| ->]; [|reflexivity]. unfold upper, digit. rewrite nat_ascii_embedding by lia.
  destruct (Nat.leb_spec 97 (Z.to_nat (48 + d))); [lia|]. reflexivity.
Qed.
Lemma upper_dec n : map upper (dec n) = dec n.
Proof.
  pose proof (dec_chars n) as H. induction H; simpl; auto. rewrite upper_dec_char, IHForall; auto.
Qed.

(** ** Equality, prefixes *)
Lemma str_eqb_eq a b : str_eqb a b = true <-> a = b.
Proof. unfold str_eqb. destruct (list_eq_dec ascii_dec a b); split; congruence. Qed.
Lemma iequals_eq a b : iequals a b = true <-> map upper a = map upper b.
Proof. apply str_eqb_eq. Qed.
Lemma starts_with_app code s : starts_with code s = true <-> exists r, s = code ++ r.
Proof.
  revert s; induction code as [|a code IH]; intros s; simpl.
  - split; eauto.
  - destruct s as [|b s]; [split; [discriminate|intros (r & E); discriminate]|].
    destruct (ascii_dec a b) as [->|Hn]; simpl.
    + rewrite IH. split; intros (r & E); exists r; congruence.
    + split; [discriminate|intros (r & E); congruence].
Qed.

(** ** SplitMultiple *)
Fixpoint splitm (delims s : str) : list str :=
  match s with
  | [] => [[]]
  | c :: s' => if memc c delims then [] :: splitm delims s'
               else match splitm delims s' with p :: ps => (c :: p) :: ps | [] => [[c]] end
  end.

Lemma splitm_ne delims s : splitm delims s <> [].
Proof. destruct s as [|c s]; simpl; [discriminate|]. destruct (memc c delims); [discriminate|]. destruct (splitm delims s); discriminate. Qed.

Lemma find_split delims s : match find_first_of delims s with
  | None => splitm delims s = [s]
  | Some e => (e < List.length s)%nat /\ splitm delims s = firstn e s :: splitm delims (skipn (e + 1) s)
  end.
Proof.
  induction s as [|c s IH]; simpl; auto.
  destruct (memc c delims); [split; [lia|]; reflexivity|].
  destruct (find_first_of delims s) as [e|]; simpl.
  - destruct IH as [H1 H2]. split; [lia|]. rewrite H2. reflexivity.
  - rewrite IH. reflexivity.
Qed.

Lemma split_multiple_loop_eq delims fuel : forall s, (List.length s < fuel)%nat ->
  split_multiple_loop fuel delims s = Ok (splitm delims s).
Proof.
  induction fuel as [|f IH]; intros s H; [lia|]. cbn [split_multiple_loop].
  pose proof (find_split delims s) as HS. destruct (find_first_of delims s) as [e|].
  - destruct HS as [H1 ->]. rewrite IH by (rewrite skipn_length; lia). reflexivity.
  - rewrite HS. reflexivity.
Qed.

(** SplitMultiple always finishes. *)
Lemma split_multiple_eq delims s : split_multiple delims s = Ok (splitm delims s).
Proof. apply split_multiple_loop_eq. lia. Qed.

Lemma memc_true c l : memc c l = true <-> In c l.
Proof. unfold memc. destruct (in_dec ascii_dec c l); split; congruence. Qed.
Lemma memc_false c l : memc c l = false <-> ~ In c l.
Proof. unfold memc. destruct (in_dec ascii_dec c l); split; congruence. Qed.

Lemma splitm_app delims a c s : Forall (fun x => ~ In x delims) a -> In c delims ->
  splitm delims (a ++ c :: s) = a :: splitm delims s.
Proof.
  intros H Hc. induction H as [|x a Hx H IH]; simpl.
  - rewrite (proj2 (memc_true c delims) Hc). reflexivity.
  - rewrite (proj2 (memc_false x delims) Hx), IH. reflexivity.
Qed.
Lemma splitm_none delims a : Forall (fun x => ~ In x delims) a -> splitm delims a = [a].
Proof.
  intros H. induction H as [|x a Hx H IH]; simpl; auto.
  rewrite (proj2 (memc_false x delims) Hx), IH. reflexivity.
Qed.

Lemma splitm_join c l : l <> [] -> Forall (Forall (fun x => x <> c)) l -> splitm [c] (join [c] l) = l.
Proof.
  intros Hn H. induction H as [|a l Ha H IH]; [congruence|].
  assert (Fa : Forall (fun x => ~ In x [c]) a).
  { eapply Forall_impl; [|exact Ha]. intros x Hx [E|[]]. congruence. }
  destruct l as [|b l].
  - simpl. apply splitm_none; auto.
  - change (join [c] (a :: b :: l)) with (a ++ c :: join [c] (b :: l)).
    rewrite splitm_app; [|auto|left; auto]. f_equal. apply IH. discriminate.
Qed.

Lemma join_splitm c s : join [c] (splitm [c] s) = s.
Proof.
  induction s as [|x s IH]; auto. cbn [splitm].
  destruct (memc x [c]) eqn:E.
  - apply memc_true in E. destruct E as [<-|[]].
    destruct (splitm [c] s) as [|p ps] eqn:Es; [destruct (splitm_ne [c] s Es)|].
    change (join [c] ([] :: p :: ps)) with (c :: join [c] (p :: ps)). rewrite IH. reflexivity.
  - destruct (splitm [c] s) as [|p ps] eqn:Es; [destruct (splitm_ne [c] s Es)|].
    destruct ps as [|q ps]; simpl in *; rewrite <- IH; reflexivity.
Qed.

Lemma splitm_length delims s : List.length (splitm delims s) = S (List.length (filter (fun c => memc c delims) s)).
Proof.
  induction s as [|c s IH]; auto. cbn [splitm filter].
  destruct (memc c delims); cbn [List.length]; [rewrite IH; reflexivity|].
  destruct (splitm delims s) eqn:E; [destruct (splitm_ne delims s E)|]. exact IH.
Qed.

Lemma splitm_pieces delims s : Forall (Forall (fun c => ~ In c delims)) (splitm delims s).
Proof.
  induction s as [|c s IH]; [repeat constructor|]. cbn [splitm].
  destruct (memc c delims) eqn:E; [constructor; [constructor|auto]|].
  apply memc_false in E. destruct (splitm delims s); [repeat constructor; auto|].
  inversion IH; subst. constructor; auto.
Qed.

(** ** Split on a string *)
(** [delim] does not start anywhere inside [a ++ delim] before the end of [a]. *)
Definition free_of (delim a : str) : Prop := find_str delim (a ++ delim) = Some (List.length a).

Lemma starts_with_refl_app d r : starts_with d (d ++ r) = true.
Proof. apply starts_with_app. eauto. Qed.

Lemma find_str_none delim s : find_str delim s = None <-> ~ exists p r, s = p ++ delim ++ r.
Proof.
  induction s as [|c s IH].
  - cbn [find_str]. destruct (starts_with delim []) eqn:E.
    + split; [discriminate|]. intros H. exfalso. apply H. apply starts_with_app in E. destruct E as (r & E).
      exists [], r. auto.
    + split; auto. intros _ (p & r & E2). symmetry in E2. apply app_eq_nil in E2. destruct E2 as [_ E2].
      symmetry in E2.
      assert (starts_with delim [] = true) by (apply starts_with_app; eauto). congruence.
  - cbn [find_str]. destruct (starts_with delim (c :: s)) eqn:E.
    + split; [discriminate|]. intros H. exfalso. apply H. apply starts_with_app in E. destruct E as (r & E).
      exists [], r. auto.
    + destruct (find_str delim s) as [e|] eqn:Ef; simpl.
      * split; [discriminate|]. intros H. exfalso.
        assert (Some e = None); [|discriminate]. apply IH. intros (p & r & Es). apply H. exists (c :: p), r. simpl. congruence.
      * split; auto. intros _ (p & r & Es). destruct p as [|c' p].
        -- assert (starts_with delim (c :: s) = true) by (apply starts_with_app; exists r; exact Es). congruence.
        -- apply (proj1 IH); auto. exists p, r. simpl in Es. congruence.
Qed.

Lemma find_str_some delim s e : find_str delim s = Some e ->
  exists r, s = firstn e s ++ delim ++ r /\ (e + List.length delim <= List.length s)%nat /\ skipn (e + List.length delim) s = r.
Proof.
  revert e; induction s as [|c s IH]; intros e; cbn [find_str].
  - destruct (starts_with delim []) eqn:E; [|discriminate]. intros [= <-].
    apply starts_with_app in E. destruct E as (r & E). exists r. cbn [firstn app]. split; auto.
    symmetry in E. apply app_eq_nil in E. destruct E as [-> ->]. simpl. auto.
  - destruct (starts_with delim (c :: s)) eqn:E.
    + intros [= <-]. apply starts_with_app in E. destruct E as (r & E). exists r. cbn [firstn app]. split; auto.
      rewrite E. rewrite app_length. split; [lia|]. rewrite Nat.add_0_l, skipn_app, skipn_all, Nat.sub_diag. reflexivity.
    + destruct (find_str delim s) as [e'|]; simpl; [|discriminate]. intros [= <-].
      destruct (IH e' eq_refl) as (r & H1 & H2 & H3). exists r. cbn [firstn app List.length plus skipn].
      split; [congruence|]. split; [lia|auto].
Qed.

Fixpoint splits (fuel : nat) (delim s : str) : list str :=
  match fuel with
  | O => []
  | S f => match find_str delim s with
      | None => [s]
      | Some e => firstn e s :: splits f delim (skipn (e + List.length delim) s)
      end
  end.

Lemma split_total delim fuel : delim <> [] -> forall s, (List.length s < fuel)%nat ->
  split_loop fuel delim s = Ok (splits fuel delim s) /\ splits fuel delim s <> [] /\
  join delim (splits fuel delim s) = s.
Proof.
  intros Hd. induction fuel as [|f IH]; intros s H; [lia|]. cbn [split_loop splits].
  destruct (find_str delim s) as [e|] eqn:E; [|repeat split; discriminate].
  destruct (find_str_some delim s e E) as (r & H1 & H2 & H3).
  destruct (IH (skipn (e + List.length delim) s)) as (A & B & C).
  { rewrite skipn_length. destruct delim; [congruence|]. simpl List.length in *. lia. }
  rewrite A. split; [reflexivity|]. split; [discriminate|].
  destruct (splits f delim (skipn (e + List.length delim) s)) as [|p ps] eqn:Es; [congruence|].
  change (join delim (firstn e s :: p :: ps)) with (firstn e s ++ delim ++ join delim (p :: ps)).
  rewrite C, H3. auto.
Qed.

Lemma find_str_free delim a r : free_of delim a -> find_str delim (a ++ delim ++ r) = Some (List.length a).
Proof.
  unfold free_of. induction a as [|c a IH]; intros H.
  - simpl. destruct (delim ++ r) as [|x l] eqn:E; cbn [find_str].
    + apply app_eq_nil in E. destruct E as [-> _]. reflexivity.
    + rewrite <- E, starts_with_refl_app. reflexivity.
  - cbn [app find_str] in *. destruct (starts_with delim (c :: a ++ delim)) eqn:E.
    { discriminate H. }
    destruct (starts_with delim (c :: a ++ delim ++ r)) eqn:E2.
    { exfalso. apply starts_with_app in E2. destruct E2 as (q & E2).
      assert (Hlen : exists q', c :: a ++ delim = delim ++ q').
      { exists (skipn (List.length delim) (c :: a ++ delim)).
        rewrite <- (firstn_skipn (List.length delim) (c :: a ++ delim)) at 1. f_equal.
        assert (E3 : firstn (List.length delim) ((c :: a ++ delim) ++ r) = firstn (List.length delim) (delim ++ q)).
        { f_equal. rewrite <- E2. simpl. rewrite <- app_assoc. reflexivity. }
        rewrite firstn_app in E3.
        replace (List.length delim - List.length (c :: a ++ delim))%nat with 0%nat in E3
          by (simpl; rewrite app_length; lia).
        simpl (firstn 0 r) in E3. rewrite app_nil_r in E3. rewrite E3.
        rewrite firstn_app, firstn_all, Nat.sub_diag. simpl. rewrite app_nil_r. reflexivity. }
      destruct Hlen as (q' & Hq). assert (starts_with delim (c :: a ++ delim) = true) by (apply starts_with_app; eauto).
      congruence. }
    destruct (find_str delim (a ++ delim)) as [e|]; simpl in H; [|discriminate]. injection H as ->.
    rewrite IH by reflexivity. reflexivity.
Qed.

Lemma free_no_occ delim a : delim <> [] -> free_of delim a -> find_str delim a = None.
Proof.
  intros Hd H. apply find_str_none. intros (p & r & ->).
  assert (G : forall p, (List.length p < List.length ((p ++ delim ++ r)))%nat).
  { intros q. rewrite !app_length. destruct delim; [congruence|]. simpl. lia. }
  unfold free_of in H.
  assert (K : forall p t e, find_str delim (p ++ delim ++ t) = Some e -> (e <= List.length p)%nat).
  { clear. induction p as [|c p IH]; intros t e; simpl.
    - destruct (delim ++ t) as [|x l] eqn:E; cbn [find_str].
      + destruct (starts_with delim []); [intros [= <-]; lia|discriminate].
      + rewrite <- E, starts_with_refl_app. intros [= <-]. lia.
    - destruct (starts_with delim (c :: p ++ delim ++ t)); [intros [= <-]; lia|].
      destruct (find_str delim (p ++ delim ++ t)) as [e'|] eqn:E; simpl; [|discriminate].
      intros [= <-]. apply IH in E. lia. }
  replace ((p ++ delim ++ r) ++ delim) with (p ++ delim ++ (r ++ delim)) in H by (rewrite <- !app_assoc; reflexivity).
  apply K in H. specialize (G p). lia.
Qed.

Theorem split_join delim l : delim <> [] -> l <> [] -> Forall (free_of delim) l ->
  split delim (join delim l) = Ok l.
Proof.
  intros Hd Hn HF. unfold split.
  assert (G : forall l fuel, l <> [] -> Forall (free_of delim) l -> (List.length (join delim l) < fuel)%nat ->
     split_loop fuel delim (join delim l) = Ok l).
  { clear -Hd. induction l as [|a l IH]; intros fuel Hn HF Hf; [congruence|].
    inversion HF as [|? ? Ha HF']; subst. destruct fuel as [|f]; [lia|]. cbn [split_loop].
    destruct l as [|b l].
    - cbn [join]. rewrite free_no_occ; auto.
    - change (join delim (a :: b :: l)) with (a ++ delim ++ join delim (b :: l)) in *.
      rewrite find_str_free by auto.
      rewrite firstn_app, firstn_all, Nat.sub_diag. simpl (firstn 0 _). rewrite app_nil_r.
      replace (skipn (List.length a + List.length delim) (a ++ delim ++ join delim (b :: l))) with (join delim (b :: l)).
      + rewrite IH; [reflexivity|discriminate|auto|].
        rewrite !app_length in Hf. destruct delim; [congruence|]. cbn [List.length] in Hf. lia.
      + rewrite app_assoc, skipn_app, app_length, skipn_all2 by (rewrite app_length; lia).
        rewrite Nat.sub_diag. reflexivity. }
  apply G; auto.
Qed.

(** ** IndexOf *)
Lemma index_of_spec {A} (eqb : A -> A -> bool) x l (Heq : forall a b, eqb a b = true <-> a = b) :
  (index_of eqb x l = -1 /\ ~ In x l) \/
  (0 <= index_of eqb x l < Z.of_nat (List.length l) /\ nth_error l (Z.to_nat (index_of eqb x l)) = Some x /\
   forall j, (j < Z.to_nat (index_of eqb x l))%nat -> nth_error l j <> Some x).
Proof.
  induction l as [|y l IH]; cbn [index_of]; [left; auto|].
  destruct (eqb y x) eqn:E.
  - apply Heq in E. subst y. right. cbn [List.length]. split; [lia|]. split; auto. intros j Hj. simpl in Hj. lia.
  - assert (Hyx : y <> x) by (intros ->; rewrite (proj2 (Heq x x) eq_refl) in E; discriminate).
    destruct IH as [(E1 & E2)|(E1 & E2 & E3)].
    + rewrite E1. left. split; [reflexivity|]. intros [H|H]; auto.
    + destruct (index_of eqb x l =? -1) eqn:E4; [lia|]. right. cbn [List.length]. split; [lia|].
      replace (Z.to_nat (index_of eqb x l + 1)) with (S (Z.to_nat (index_of eqb x l))) by lia.
      split; auto. intros [|j] Hj; simpl; [congruence|]. apply E3. lia.
Qed.

Lemma index_of_nth {A} (eqb : A -> A -> bool) l (Heq : forall a b, eqb a b = true <-> a = b) i x :
  NoDup l -> nth_error l i = Some x -> index_of eqb x l = Z.of_nat i.
Proof.
  intros Hnd Hi. destruct (index_of_spec eqb x l Heq) as [(_ & H)|(H1 & H2 & _)].
  - destruct H. eapply nth_error_In; eauto.
  - assert (i < List.length l)%nat by (apply nth_error_Some; congruence).
    assert (i = Z.to_nat (index_of eqb x l)); [|lia].
    eapply (proj1 (NoDup_nth_error l)); auto. congruence.
Qed.
