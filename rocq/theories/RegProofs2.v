From Coq Require Import String Lia ZifyBool.
From Verif Require Export RegProofs.
Local Open Scope Z_scope.

(** [index_of] is the first position. *)
Lemma index_of_spec {A} (eqb : A -> A -> bool) l x : (forall a b, eqb a b = true <-> a = b) ->
  (index_of eqb l x = -1 /\ ~ In x l) \/
  (exists n, index_of eqb l x = Z.of_nat n /\ nth_error l n = Some x /\ forall j, (j < n)%nat -> nth_error l j <> Some x).
Proof.
  intros E. induction l as [|y l IH]; cbn [index_of]; [left; split; [reflexivity|intros []]|].
  destruct (eqb y x) eqn:Ey.
  - apply E in Ey. subst y. right. exists 0%nat. split; [reflexivity|]. split; [reflexivity|]. intros j Hj. lia.
  - assert (y <> x) by (intros K; apply E in K; congruence).
    destruct IH as [[-> N]|(n & -> & N & F)].
    + left. split; [reflexivity|]. intros [K|K]; [congruence|exact (N K)].
    + right. exists (S n). replace (Z.of_nat n <? 0) with false by lia. split; [lia|]. split; [exact N|].
      intros [|j] Hj; cbn; [congruence|]. apply F. lia.
Qed.
Lemma index_of_first {A} (eqb : A -> A -> bool) l x n : (forall a b, eqb a b = true <-> a = b) ->
  nth_error l n = Some x -> (forall j, (j < n)%nat -> nth_error l j <> Some x) -> index_of eqb l x = Z.of_nat n.
Proof.
  intros E N F. destruct (index_of_spec eqb l x E) as [[_ K]|(n' & -> & N' & F')]; [exfalso; apply K; apply (nth_error_In _ _ N)|].
  assert (n = n'); [|lia]. destruct (Nat.lt_trichotomy n n') as [K|[K|K]]; [exfalso; apply (F' n K N)|exact K|exfalso; apply (F n' K N')].
Qed.

(** After the first Update the maps give the positions. *)
Lemma update_in random ts m0 m k : metrics_update random ts m0 = Ok m -> m_inidx m0 = [] -> at_key gof_eqb (m_inidx m) k = Ok (index_of gof_eqb (m_in m) k) /\ m_in m = m_in m0.
Proof.
  unfold metrics_update. cbv zeta. destruct (_ && _); [discriminate|]. destruct (_ && _); [discriminate|]. destruct (_ && _); [discriminate|].
  intros H E. apply (f_equal (fun o => match o with Ok v => v | _ => m end)) in H. cbv beta iota in H. subst m. cbn [m_in m_inidx]. rewrite E. split; [|reflexivity].
  destruct k; cbn; reflexivity.
Qed.
Lemma update_out random ts m0 m k : metrics_update random ts m0 = Ok m -> m_outidx m0 = [] -> at_key sc_eqb (m_outidx m) k = Ok (index_of sc_eqb (m_out m) k) /\ m_out m = m_out m0.
Proof.
  unfold metrics_update. cbv zeta. destruct (_ && _); [discriminate|]. destruct (_ && _); [discriminate|]. destruct (_ && _); [discriminate|].
  intros H E. apply (f_equal (fun o => match o with Ok v => v | _ => m end)) in H. cbv beta iota in H. subst m. cbn [m_out m_outidx]. rewrite E. split; [|reflexivity].
  destruct k; cbn; reflexivity.
Qed.

Definition outs_ok (m : mopts) := forall k, at_key sc_eqb (m_outidx m) k = Ok (index_of sc_eqb (m_out m) k).
Definition ins_ok (m : mopts) := forall k, at_key gof_eqb (m_inidx m) k = Ok (index_of gof_eqb (m_in m) k).

Lemma set_out_fold m sim l M : outs_ok m -> exists M', fold_left (set_out m (List.length (m_in m) + List.length (m_out m)) sim) l (Ok M) = Ok M' /\
  (forall i t, (exists s, In s l /\ 0 <= index_of sc_eqb (m_out m) s /\ i = (List.length (m_in m) + Z.to_nat (index_of sc_eqb (m_out m) s))%nat) -> M' i t = sim (i - List.length (m_in m))%nat t) /\
  (forall i t, ~ (exists s, In s l /\ 0 <= index_of sc_eqb (m_out m) s /\ i = (List.length (m_in m) + Z.to_nat (index_of sc_eqb (m_out m) s))%nat) -> M' i t = M i t).
Proof.
  intros Ho. revert M. induction l as [|s l IH]; intros M; cbn [fold_left].
  - exists M. split; [reflexivity|]. split; [intros i t (s & [] & _)|reflexivity].
  - assert (S1 : exists M1, set_out m (List.length (m_in m) + List.length (m_out m)) sim (Ok M) s = Ok M1 /\
      (forall i t, 0 <= index_of sc_eqb (m_out m) s -> i = (List.length (m_in m) + Z.to_nat (index_of sc_eqb (m_out m) s))%nat -> M1 i t = sim (i - List.length (m_in m))%nat t) /\
      (forall i t, ~ (0 <= index_of sc_eqb (m_out m) s /\ i = (List.length (m_in m) + Z.to_nat (index_of sc_eqb (m_out m) s))%nat) -> M1 i t = M i t)).
    { unfold set_out. cbn [bind]. rewrite (Ho s). cbn [bind]. destruct (index_of_spec sc_eqb (m_out m) s sc_eqb_eq) as [[-> _]|(n & -> & N & _)].
      - exists M. split; [reflexivity|]. split; [intros; lia|reflexivity].
      - assert (Hn : (n < List.length (m_out m))%nat) by (apply nth_error_Some; congruence).
        replace (Z.of_nat n <? 0) with false by lia. replace (Z.of_nat (List.length (m_out m)) <=? Z.of_nat n) with false by lia. unfold set_row.
        replace (_ <? 0) with false by lia. replace (_ <=? _) with false by lia.
        eexists. split; [reflexivity|]. cbv beta. split.
        + intros i t _ ->. rewrite Nat2Z.id. replace (_ =? _)%nat with true by (symmetry; apply Nat.eqb_eq; lia). f_equal. lia.
        + intros i t H. destruct (_ =? _)%nat eqn:E; [|reflexivity]. apply Nat.eqb_eq in E. exfalso. apply H. lia. }
    destruct S1 as (M1 & E1 & A1 & B1). rewrite E1. destruct (IH M1) as (M' & E' & A' & B'). exists M'. split; [exact E'|].
    assert (Dec : forall i, (exists s, In s l /\ 0 <= index_of sc_eqb (m_out m) s /\ i = (List.length (m_in m) + Z.to_nat (index_of sc_eqb (m_out m) s))%nat) \/
      ~ (exists s, In s l /\ 0 <= index_of sc_eqb (m_out m) s /\ i = (List.length (m_in m) + Z.to_nat (index_of sc_eqb (m_out m) s))%nat)).
    { intros i. clear. induction l as [|s l IH]; [right; intros (s & [] & _)|]. destruct IH as [(s' & H1 & H2)|IH]; [left; exists s'; split; [right; exact H1|exact H2]|].
      destruct (Z_le_dec 0 (index_of sc_eqb (m_out m) s)) as [L|L]; [destruct (Nat.eq_dec i (List.length (m_in m) + Z.to_nat (index_of sc_eqb (m_out m) s))) as [E|E]|].
      - left. exists s. split; [left; reflexivity|]. split; [exact L|exact E].
      - right. intros (s' & [<-|H1] & H2 & H3); [exact (E H3)|]. apply IH. exists s'. repeat split; assumption.
      - right. intros (s' & [<-|H1] & H2 & H3); [exact (L H2)|]. apply IH. exists s'. repeat split; assumption. }
    split.
    + intros i t (s' & Hs & H2 & H3). destruct (Dec i) as [D|D]; [apply A'; exact D|]. rewrite (B' i t D). destruct Hs as [<-|Hs]; [apply A1; assumption|].
      exfalso. apply D. exists s'. repeat split; assumption.
    + intros i t H. rewrite B', B1; [reflexivity| |].
      * intros [K1 K2]. apply H. exists s. split; [left; reflexivity|]. split; assumption.
      * intros (s' & K1 & K2). apply H. exists s'. split; [right; exact K1|exact K2].
Qed.

Lemma set_type1_spec E len1 f l k MV : (forall b, In b l -> E <= b < E + Z.of_nat len1) -> NoDup l -> exists T V, set_type1 E len1 f l k MV = Ok (T, V) /\
  (forall i b t, nth_error l i = Some b -> T (Z.to_nat (b - E)) t = f_beta f (k + i) t /\ V (Z.to_nat (b - E)) t = match f_std f (k + i) t with Some s => Some (s * s)%R | None => None end) /\
  (forall r t, ~ In (E + Z.of_nat r) l -> T r t = fst MV r t /\ V r t = snd MV r t).
Proof.
  revert k MV. induction l as [|b l IH]; intros k [M V] R ND; cbn [set_type1].
  - exists M, V. split; [reflexivity|]. split; [intros [|i] b t; discriminate|]. intros r t _. split; reflexivity.
  - pose proof (R b (or_introl eq_refl)) as Rb. replace (b - E <? 0) with false by lia. replace (Z.of_nat len1 <=? b - E) with false by lia. cbn [orb].
    apply NoDup_cons_iff in ND. destruct ND as [Nb ND].
    match goal with |- context [set_type1 E len1 f l (S k) ?mv] => destruct (IH (S k) mv) as (T & V' & E1 & A & B); [intros b' Hb'; apply R; right; exact Hb'|exact ND|] end.
    exists T, V'. split; [exact E1|]. cbn [fst snd] in B. split.
    + intros [|i] b' t Hb; cbn in Hb.
      * injection Hb as <-. rewrite Nat.add_0_r. destruct (B (Z.to_nat (b - E)) t) as [B1 B2]. { rewrite Z2Nat.id by lia. replace (E + (b - E)) with b by lia. exact Nb. }
        rewrite B1, B2. rewrite Nat.eqb_refl. split; reflexivity.
      * replace (k + S i)%nat with (S k + i)%nat by lia. apply A. exact Hb.
    + intros r t Hr. destruct (B r t) as [B1 B2]; [intros K; apply Hr; right; exact K|]. rewrite B1, B2.
      destruct (r =? Z.to_nat (b - E))%nat eqn:Er; [|split; reflexivity]. apply Nat.eqb_eq in Er. exfalso. apply Hr. left. lia.
Qed.

Definition supported_in (k : gof) : bool := match k with GAic | GSic => true | _ => false end.
Definition supported_out (s : scoring) : bool := match s with SSign | SMae | SMape | SRmse | SRmspe | SCrps => true | _ => false end.
Definition in_value (f : fitted_sur) (k : gof) : option R := match k with GAic => f_aic f | GSic => f_sic f | _ => Some 0%R end.

Lemma sur_outs_supported s : In s sur_outs <-> supported_out s = true.
Proof. unfold sur_outs. destruct s; cbn; split; intros H; try reflexivity; try discriminate; intuition discriminate. Qed.

(** The metrics of SurSearcher::EstimateOneReg. *)
Lemma sur_one_ok m E len1 cur f s : ins_ok m -> outs_ok m -> (len1 <> O -> (forall b, In b cur -> E <= b < E + Z.of_nat len1) /\ NoDup cur) ->
  exists o, sur_one m E len1 cur (Some (Ok f)) (Some (Ok s)) = Ok o /\ o_msg o = ""%string /\ o_extra o = [] /\
  (forall i t k, nth_error (m_in m) i = Some k -> (forall j, (j < i)%nat -> nth_error (m_in m) j <> Some k) -> o_metrics o i t = in_value f k) /\
  (forall i t k, nth_error (m_out m) i = Some k -> (forall j, (j < i)%nat -> nth_error (m_out m) j <> Some k) ->
     o_metrics o (List.length (m_in m) + i)%nat t = if supported_out k then s i t else Some 0%R) /\
  (forall i t, (i < List.length (m_in m))%nat -> (forall k, nth_error (m_in m) i = Some k -> exists j, (j < i)%nat /\ nth_error (m_in m) j = Some k) -> o_metrics o i t = Some 0%R) /\
  (forall i b t, len1 <> O -> nth_error cur i = Some b -> o_mean o (Z.to_nat (b - E)) t = f_beta f i t /\ o_var o (Z.to_nat (b - E)) t = match f_std f i t with Some s => Some (s * s)%R | None => None end) /\
  (forall r t, ~ In (E + Z.of_nat r) cur -> o_mean o r t = None).
Proof.
  intros Hi Ho Ht. unfold sur_one. cbn [bind]. rewrite (Hi GAic), (Hi GSic). cbn [bind].
  set (rows := (List.length (m_in m) + List.length (m_out m))%nat).
  assert (SR : forall k v M, exists M', set_row rows (index_of gof_eqb (m_in m) k) v M = Ok M' /\
     (forall i t, (exists n, index_of gof_eqb (m_in m) k = Z.of_nat n /\ i = n) -> M' i t = v t) /\
     (forall i t, index_of gof_eqb (m_in m) k <> Z.of_nat i -> M' i t = M i t)).
  { intros k v M. unfold set_row. destruct (index_of_spec gof_eqb (m_in m) k gof_eqb_eq) as [[-> _]|(n & -> & N & _)].
    - exists M. split; [reflexivity|]. split; [|reflexivity]. intros i t (n & Hn & _). lia.
    - assert (Hn : (n < List.length (m_in m))%nat) by (apply nth_error_Some; congruence). replace (Z.of_nat n <? 0) with false by lia.
      replace (Z.of_nat rows <=? Z.of_nat n) with false by lia. eexists. split; [reflexivity|]. cbv beta. rewrite Nat2Z.id. split.
      + intros i t (n' & Hn' & ->). replace (n' =? n)%nat with true by (symmetry; apply Nat.eqb_eq; lia). reflexivity.
      + intros i t H. replace (i =? n)%nat with false by (symmetry; apply Nat.eqb_neq; lia). reflexivity. }
  destruct (SR GAic (fun _ => f_aic f) (fun _ _ => Some 0%R)) as (Ma & -> & A1 & A2). cbn [bind].
  destruct (SR GSic (fun _ => f_sic f) Ma) as (Mb & -> & B1 & B2). cbn [bind].
  destruct (set_out_fold m s sur_outs Mb Ho) as (Mc & Ec & C1 & C2). unfold rows. rewrite Ec. cbn [bind].
  assert (TT : exists T V, (if (0 <? len1)%nat then set_type1 E len1 f cur 0 (fun _ _ => None, fun _ _ => Some 0%R) else Ok (fun _ _ => None, fun _ _ => Some 0%R)) = Ok (T, V) /\
    (forall i b t, len1 <> O -> nth_error cur i = Some b -> T (Z.to_nat (b - E)) t = f_beta f i t /\ V (Z.to_nat (b - E)) t = match f_std f i t with Some s => Some (s * s)%R | None => None end) /\
    (forall r t, ~ In (E + Z.of_nat r) cur -> T r t = None)).
  { destruct len1 as [|len1]; cbn [Nat.ltb Nat.leb].
    - eexists _, _. split; [reflexivity|]. split; [intros i b t K; congruence|reflexivity].
    - destruct (Ht ltac:(discriminate)) as [R ND]. destruct (set_type1_spec E (S len1) f cur 0 (fun _ _ => None, fun _ _ => Some 0%R) R ND) as (T & V & E1 & X1 & X2).
      exists T, V. split; [exact E1|]. split; [intros i b t _ Hb; apply (X1 i b t Hb)|]. intros r t Hr. apply (X2 r t Hr). }
  destruct TT as (T & V & -> & T1 & T2). cbn [bind]. eexists. split; [reflexivity|]. cbn [o_msg o_metrics o_mean o_var o_extra].
  assert (Lo : forall i t, (i < List.length (m_in m))%nat -> Mc i t = Mb i t) by (intros i t Hl; apply C2; intros (sx & _ & _ & K); lia).
  split; [reflexivity|]. split; [reflexivity|]. split; [|split; [|split; [|split; [exact T1|exact T2]]]].
  - intros i t k N F. rewrite Lo by (apply nth_error_Some; congruence).
    pose proof (index_of_first gof_eqb _ _ _ gof_eqb_eq N F) as Ix.
    assert (Ne : forall k', k' <> k -> index_of gof_eqb (m_in m) k' <> Z.of_nat i).
    { intros k' Hk K. destruct (index_of_spec gof_eqb (m_in m) k' gof_eqb_eq) as [[K' _]|(n & K' & N' & _)]; [lia|]. assert (n = i) by lia. subst n. congruence. }
    destruct k; cbn [in_value].
    + rewrite B2 by (apply Ne; discriminate). apply A1. exists i. split; [exact Ix|reflexivity].
    + apply B1. exists i. split; [exact Ix|reflexivity].
    + rewrite B2, A2 by (apply Ne; discriminate). reflexivity.
    + rewrite B2, A2 by (apply Ne; discriminate). reflexivity.
    + rewrite B2, A2 by (apply Ne; discriminate). reflexivity.
  - intros i t k N F. pose proof (index_of_first sc_eqb _ _ _ sc_eqb_eq N F) as Ix. destruct (supported_out k) eqn:Sk.
    + rewrite C1. { f_equal. lia. } exists k. split; [apply sur_outs_supported; exact Sk|]. rewrite Ix. split; lia.
    + rewrite C2.
      * assert (Up : forall k', index_of gof_eqb (m_in m) k' <> Z.of_nat (List.length (m_in m) + i)).
        { intros k' K. destruct (index_of_spec gof_eqb (m_in m) k' gof_eqb_eq) as [[K' _]|(n & K' & N' & _)]; [lia|].
          assert (n < List.length (m_in m))%nat by (apply nth_error_Some; congruence). lia. }
        rewrite B2, A2 by apply Up. reflexivity.
      * intros (s' & Hs' & H1 & H2). destruct (index_of_spec sc_eqb (m_out m) s' sc_eqb_eq) as [[K' _]|(n & K' & N' & _)]; [lia|]. rewrite K' in H2.
        assert (n = i) by lia. subst n. assert (s' = k) by congruence. subst s'. apply sur_outs_supported in Hs'. congruence.
  - intros i t Hl D. rewrite Lo by exact Hl.
    assert (Ne : forall k', index_of gof_eqb (m_in m) k' <> Z.of_nat i).
    { intros k' K. destruct (index_of_spec gof_eqb (m_in m) k' gof_eqb_eq) as [[K' _]|(n & K' & N' & F')]; [lia|]. assert (n = i) by lia. subst n.
      destruct (D k' N') as (j & Hj & K2). apply (F' j Hj K2). }
    rewrite B2, A2 by apply Ne. reflexivity.
Qed.
