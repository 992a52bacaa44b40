(** C111: search over discrete choice models. *)
From Coq Require Import String Lia ZifyBool.
From Verif Require Import RegProofs2 DcSearchModel Prop_SurSearch Prop_SurExt.
From Coq Require Import Lra.
Local Open Scope Z_scope.

(** Specification: sums, and the (weighted) mean of the squared errors of the probabilities of the usable rows. *)
Definition total (f : nat -> R) (n : nat) : R := fold_right Rplus 0%R (map f (seq 0 n)).
Definition brier_spec (y p w : nat -> R) (n : nat) : R := (total (fun i => w i * ((y i - p i) * (y i - p i))) n / total w n)%R.
(** the number of parameters: coefficients and thresholds *)
Definition parameters (exo choices : Z) : Z := exo + (choices - 2).

Lemma total_S f n : total f (S n) = (total f n + f n)%R.
Proof.
  unfold total. rewrite seq_S, map_app. cbn [map Nat.add]. generalize (map f (seq 0 n)). intros l. induction l as [|a l IH]; cbn; [lra|]. rewrite IH. lra.
Qed.
Lemma brier_fold (y p w : nat -> R) n : fold_left (fun '(b, s) i => ((b + w i * (y i - p i) * (y i - p i))%R, (s + w i)%R)) (seq 0 n) (0%R, 0%R) =
  (total (fun i => w i * ((y i - p i) * (y i - p i)))%R n, total w n).
Proof.
  induction n as [|n IH]; [reflexivity|]. rewrite seq_S, fold_left_app, IH, !total_S. cbn [fold_left Nat.add]. f_equal. lra.
Qed.
Lemma brier_in_ok x p : x_obs x = x_count x -> let w i := if x_weight x && x_weval x then x_mem x (x_count x + i)%nat else 1%R in total w (x_count x) <> 0%R ->
  brier_in x p = Some (brier_spec (x_mem x) p w (x_count x)).
Proof.
  intros E w H. unfold brier_in. fold w. rewrite brier_fold, E. destruct (Req_EM_T _ 0) as [K|K]; [exfalso; exact (H K)|reflexivity].
Qed.

Lemma set_row_in m rows k v M : (List.length (m_in m) <= rows)%nat -> exists M', RegModel.set_row rows (index_of gof_eqb (m_in m) k) v M = Ok M' /\
  forall i t, M' i t = if Z.of_nat i =? index_of gof_eqb (m_in m) k then v t else M i t.
Proof.
  intros L. unfold RegModel.set_row. destruct (index_of_spec gof_eqb (m_in m) k gof_eqb_eq) as [[-> _]|(n & -> & N & _)].
  - exists M. split; [reflexivity|]. intros i t. replace (Z.of_nat i =? -1) with false by lia. reflexivity.
  - assert (Hn : (n < List.length (m_in m))%nat) by (apply nth_error_Some; congruence). replace (Z.of_nat n <? 0) with false by lia. replace (Z.of_nat rows <=? Z.of_nat n) with false by lia.
    eexists. split; [reflexivity|]. intros i t. rewrite Nat2Z.id. replace (Z.of_nat i =? Z.of_nat n) with (i =? n)%nat; [reflexivity|]. destruct (Nat.eqb_spec i n); lia.
Qed.
Lemma set_row_pos m rows k v M : (List.length (m_in m) <= rows)%nat -> exists M', (if 0 <? index_of gof_eqb (m_in m) k then RegModel.set_row rows (index_of gof_eqb (m_in m) k) v M else Ok M) = Ok M' /\
  forall i t, M' i t = if (0 <? Z.of_nat i) && (Z.of_nat i =? index_of gof_eqb (m_in m) k) then v t else M i t.
Proof.
  intros L. destruct (set_row_in m rows k v M L) as (M' & E & H). destruct (0 <? _) eqn:P.
  - exists M'. split; [exact E|]. intros i t. rewrite H. destruct (Z.of_nat i =? _) eqn:Q; [|rewrite andb_false_r; reflexivity]. replace (0 <? Z.of_nat i) with true by lia. reflexivity.
  - exists M. split; [reflexivity|]. intros i t. match goal with |- context [if ?b && ?c then _ else _] => destruct (b && c) eqn:Q end; [lia|reflexivity].
Qed.
Lemma put_out m rows k v M : outs_ok m -> rows = (List.length (m_in m) + List.length (m_out m))%nat ->
  exists M', (do ind <- at_key sc_eqb (m_outidx m) k; if ind <? 0 then Ok M else RegModel.set_row rows (Z.of_nat (List.length (m_in m)) + ind) (fun _ => v) M) = Ok M' /\
  forall i t, M' i t = if (Z.of_nat (List.length (m_in m)) <=? Z.of_nat i) && (Z.of_nat i =? Z.of_nat (List.length (m_in m)) + index_of sc_eqb (m_out m) k) then v else M i t.
Proof.
  intros Ho ->. rewrite (Ho k). cbn [bind]. unfold RegModel.set_row. destruct (index_of_spec sc_eqb (m_out m) k sc_eqb_eq) as [[-> _]|(n & -> & N & _)].
  - exists M. split; [reflexivity|]. intros i t. match goal with |- context [if ?b && ?c then _ else _] => destruct (b && c) eqn:Q end; [lia|reflexivity].
  - assert (Hn : (n < List.length (m_out m))%nat) by (apply nth_error_Some; congruence). replace (Z.of_nat n <? 0) with false by lia. replace (_ <? 0) with false by lia. replace (_ <=? _) with false by lia.
    eexists. split; [reflexivity|]. intros i t. cbv beta. match goal with |- (if ?a then _ else _) = (if ?b then _ else _) => replace a with b; [reflexivity|] end. apply eq_true_iff_eq. rewrite andb_true_iff, Nat.eqb_eq. lia.
Qed.
Lemma type1_spec len1 f l k MV : (forall b, In b l -> 1 <= b < 1 + Z.of_nat len1) -> NoDup l -> exists T V, dc_type1 len1 f l k MV = Ok (T, V) /\
  (forall i b, nth_error l i = Some b -> T (Z.to_nat (b - 1)) = d_beta f (k + i)%nat /\ V (Z.to_nat (b - 1)) = d_var f (k + i)%nat) /\
  (forall r, ~ In (1 + Z.of_nat r) l -> T r = fst MV r /\ V r = snd MV r).
Proof.
  revert k MV. induction l as [|b l IH]; intros k [M V] Rg ND; cbn [dc_type1].
  - exists M, V. split; [reflexivity|]. split; [intros [|i] b; discriminate|]. intros r _. split; reflexivity.
  - pose proof (Rg b (or_introl eq_refl)) as Rb. replace (b - 1 <? 0) with false by lia. replace (Z.of_nat len1 <=? b - 1) with false by lia. cbn [orb].
    apply NoDup_cons_iff in ND. destruct ND as [Nb ND].
    match goal with |- context [dc_type1 len1 f l (S k) ?mv] => destruct (IH (S k) mv) as (T & V' & E1 & A & B); [intros b' Hb'; apply Rg; right; exact Hb'|exact ND|] end.
    exists T, V'. split; [exact E1|]. cbn [fst snd] in B. split.
    + intros [|i] b' Hb; cbn in Hb.
      * injection Hb as <-. rewrite Nat.add_0_r. destruct (B (Z.to_nat (b - 1))) as [B1 B2]. { rewrite Z2Nat.id by lia. replace (1 + (b - 1)) with b by lia. exact Nb. }
        rewrite B1, B2. rewrite Nat.eqb_refl. split; reflexivity.
      * replace (k + S i)%nat with (S k + i)%nat by lia. apply A. exact Hb.
    + intros r Hr. destruct (B r) as [B1 B2]; [intros K; apply Hr; right; exact K|]. rewrite B1, B2.
      destruct (r =? Z.to_nat (b - 1))%nat eqn:Er; [|split; reflexivity]. apply Nat.eqb_eq in Er. exfalso. apply Hr. left. lia.
Qed.
Lemma first_index {A} (eqb : A -> A -> bool) l i k : (forall a b, eqb a b = true <-> a = b) -> NoDup l -> nth_error l i = Some k -> index_of eqb l k = Z.of_nat i.
Proof.
  intros E ND N. apply (index_of_first eqb l k i E N). intros j Hj K. assert (j = i); [|lia]. apply (proj1 (NoDup_nth_error l) ND); [apply nth_error_Some; congruence|congruence].
Qed.
Lemma other_index {A} (eqb : A -> A -> bool) l i k k' : (forall a b, eqb a b = true <-> a = b) -> nth_error l i = Some k -> k' <> k -> index_of eqb l k' <> Z.of_nat i.
Proof.
  intros E N D K. destruct (index_of_spec eqb l k' E) as [[K' _]|(n & K' & N' & _)]; [lia|]. assert (n = i) by lia. subst n. congruence.
Qed.

(** The value of a metric. *)
Definition value_in (f : fitted_dc) (x : xdata) (k : gof) : option R := match k with GAic => d_aic f | GSic => d_sic f | GFrequencyCost => d_cost f | GAuc => d_auc f | GBrier => brier_in x (d_prob f) end.
Definition value_out (s : scored) (k : scoring) : option R := match k with SFrequencyCost => s_cost s | SAuc => s_auc s | SBrier => s_brier s | _ => Some 0%R end.
Definition early (k : gof) : bool := match k with GAic | GSic => true | _ => false end.
Definition settings_ok (len1 : nat) (cur : list Z) : Prop := NoDup cur /\ forall b, In b cur -> 1 <= b < 1 + Z.of_nat len1.
Lemma dc_one_ok m k len1 cur logit x f s : ins_ok m -> outs_ok m -> k_est k = true -> has_sim m = true -> dc_before k x (Z.of_nat (List.length cur)) = true -> dc_after k f = true ->
  settings_ok len1 cur -> exists o, dc_one m k len1 cur logit x (Ok f) (Ok s) = Ok o /\ o_msg o = ""%string /\ o_extra o = [if logit then 0 else 1] /\
  (forall i t key, NoDup (m_in m) -> nth_error (m_in m) i = Some key -> o_metrics o i t = if early key || (0 <? i)%nat then value_in f x key else Some 0%R) /\
  (forall i t key, NoDup (m_out m) -> nth_error (m_out m) i = Some key -> o_metrics o (List.length (m_in m) + i)%nat t = value_out s key) /\
  (forall i b t, nth_error cur i = Some b -> o_mean o (Z.to_nat (b - 1)) t = d_beta f i /\ o_var o (Z.to_nat (b - 1)) t = d_var f i) /\
  (forall r t, ~ In (1 + Z.of_nat r) cur -> o_mean o r t = None).
Proof.
  intros Hi Ho Ke Hs Hb Ha [ND Rg]. unfold dc_one. rewrite Ke, Hb. cbn [negb andb bind]. rewrite Ha. cbn [bind]. rewrite Hs. cbn [bind].
  set (rows := (List.length (m_in m) + List.length (m_out m))%nat). unfold dc_in. rewrite !Hi. cbn [bind].
  assert (L : (List.length (m_in m) <= rows)%nat) by (unfold rows; lia).
  destruct (set_row_in m rows GAic (fun _ => d_aic f) (fun _ _ => Some 0%R) L) as (M1 & -> & H1). cbn [bind].
  destruct (set_row_in m rows GSic (fun _ => d_sic f) M1 L) as (M2 & -> & H2). cbn [bind].
  destruct (set_row_pos m rows GBrier (fun _ => brier_in x (d_prob f)) M2 L) as (M3 & -> & H3). cbn [bind].
  destruct (set_row_pos m rows GFrequencyCost (fun _ => d_cost f) M3 L) as (M4 & -> & H4). cbn [bind].
  destruct (set_row_pos m rows GAuc (fun _ => d_auc f) M4 L) as (M5 & -> & H5). cbn [bind].
  unfold dc_outs. destruct (put_out m rows SFrequencyCost (s_cost s) M5 Ho eq_refl) as (M6 & -> & H6). cbn [bind].
  destruct (put_out m rows SAuc (s_auc s) M6 Ho eq_refl) as (M7 & -> & H7). cbn [bind].
  destruct (put_out m rows SBrier (s_brier s) M7 Ho eq_refl) as (M8 & -> & H8). cbn [bind].
  assert (TT : exists T V, (if (0 <? len1)%nat then dc_type1 len1 f cur 0 (fun _ => None, fun _ => Some 0%R) else Ok (fun _ => None, fun _ => Some 0%R)) = Ok (T, V) /\
    (forall i b, nth_error cur i = Some b -> T (Z.to_nat (b - 1)) = d_beta f i /\ V (Z.to_nat (b - 1)) = d_var f i) /\ (forall r, ~ In (1 + Z.of_nat r) cur -> T r = None)).
  { destruct len1 as [|len1]; cbn [Nat.ltb Nat.leb].
    - eexists _, _. split; [reflexivity|]. split; [|reflexivity]. intros i b N. pose proof (Rg b (nth_error_In _ _ N)). lia.
    - destruct (type1_spec (S len1) f cur 0 (fun _ => None, fun _ => Some 0%R) Rg ND) as (T & V & E1 & X1 & X2). exists T, V. split; [exact E1|]. split; [exact X1|]. intros r Hr. apply (X2 r Hr). }
  destruct TT as (T & V & -> & T1 & T2). cbn [bind]. eexists. split; [reflexivity|]. cbn [o_msg o_metrics o_mean o_var o_extra].
  split; [reflexivity|]. split; [reflexivity|]. split; [|split; [|split; [intros i b t; apply T1|intros r t; apply T2]]].
  - intros i t key Nd N. assert (Li : (i < List.length (m_in m))%nat) by (apply nth_error_Some; congruence).
    rewrite H8, H7, H6. replace (Z.of_nat (List.length (m_in m)) <=? Z.of_nat i) with false by lia. cbn [andb]. rewrite H5, H4, H3, H2, H1.
    pose proof (first_index gof_eqb _ _ _ gof_eqb_eq Nd N) as Ix. replace (0 <? Z.of_nat i) with (0 <? i)%nat by lia.
    assert (Ot : forall k', k' <> key -> (Z.of_nat i =? index_of gof_eqb (m_in m) k') = false) by (intros k' D; pose proof (other_index gof_eqb _ _ _ _ gof_eqb_eq N D); lia).
    assert (Sm : (Z.of_nat i =? index_of gof_eqb (m_in m) key) = true) by lia.
    destruct key; cbn [early value_in orb]; repeat match goal with |- context [index_of gof_eqb (m_in m) ?k'] => first [rewrite Sm|rewrite (Ot k') by discriminate] end; rewrite ?andb_false_r, ?andb_true_r; reflexivity.
  - intros i t key Nd N. rewrite H8, H7, H6.
    pose proof (first_index sc_eqb _ _ _ sc_eqb_eq Nd N) as Ix.
    assert (Ot : forall k', k' <> key -> (Z.of_nat (List.length (m_in m) + i) =? Z.of_nat (List.length (m_in m)) + index_of sc_eqb (m_out m) k') = false) by (intros k' D; pose proof (other_index sc_eqb _ _ _ _ sc_eqb_eq N D); lia).
    assert (Sm : (Z.of_nat (List.length (m_in m) + i) =? Z.of_nat (List.length (m_in m)) + index_of sc_eqb (m_out m) key) = true) by lia.
    replace (Z.of_nat (List.length (m_in m)) <=? Z.of_nat (List.length (m_in m) + i)) with true by lia. cbn [andb].
    assert (Up : forall k', (Z.of_nat (List.length (m_in m) + i) =? index_of gof_eqb (m_in m) k') = false).
    { intros k'. destruct (index_of_spec gof_eqb (m_in m) k' gof_eqb_eq) as [[-> _]|(n & -> & N' & _)]; [lia|]. assert (n < List.length (m_in m))%nat by (apply nth_error_Some; congruence). lia. }
    destruct key; cbn [value_out]; repeat match goal with |- context [index_of sc_eqb (m_out m) ?k'] => first [rewrite Sm|rewrite (Ot k') by discriminate] end; try reflexivity;
      rewrite H5, H4, H3, H2, H1; rewrite !Up, !andb_false_r; reflexivity.
Qed.

(** The evaluations of a model: AIC, SIC, the (weighted) Brier score, the frequency cost and the area under ROC of the estimation, and those of the simulation, each in the row of the metric.
    Missing: the Brier score, the cost and the area must not be the first metric; the data has no missing values. *)
Theorem c111_metrics_partial : forall m k len1 cur logit x f s, prepared m -> NoDup (m_in m) -> NoDup (m_out m) -> k_est k = true -> has_sim m = true ->
  dc_before k x (Z.of_nat (List.length cur)) = true -> dc_after k f = true -> settings_ok len1 cur -> x_obs x = x_count x ->
  (match m_in m with k0 :: _ => early k0 = true | [] => True end) -> (forall key, In key (m_out m) -> In key [SFrequencyCost; SAuc; SBrier]) ->
  let w i := if x_weight x && x_weval x then x_mem x (x_count x + i)%nat else 1%R in total w (x_count x) <> 0%R ->
  exists o, dc_one m k len1 cur logit x (Ok f) (Ok s) = Ok o /\ o_msg o = ""%string /\
    (forall i t key, nth_error (m_in m) i = Some key -> o_metrics o i t = match key with GAic => d_aic f | GSic => d_sic f | GFrequencyCost => d_cost f | GAuc => d_auc f
        | GBrier => Some (brier_spec (x_mem x) (d_prob f) w (x_count x)) end) /\
    (forall i t key, nth_error (m_out m) i = Some key -> o_metrics o (List.length (m_in m) + i)%nat t = match key with SFrequencyCost => s_cost s | SAuc => s_auc s | _ => s_brier s end).
Proof.
  intros m k len1 cur logit x f s P N1 N2 Ke Hs Hb Ha St Cp Fi Su w Hw. destruct (prepared_ok m P) as [Hi Ho].
  destruct (dc_one_ok m k len1 cur logit x f s Hi Ho Ke Hs Hb Ha St) as (o & E & Em & _ & A & B & _). exists o. split; [exact E|]. split; [exact Em|]. split.
  - intros i t key N. rewrite (A i t key N1 N). assert (Q : early key || (0 <? i)%nat = true).
    { destruct i as [|i]; [|apply orb_true_r]. destruct (m_in m) as [|k0 l]; [discriminate|]. cbn in N. injection N as ->. rewrite Fi. reflexivity. }
    rewrite Q. destruct key; try reflexivity. cbn [value_in]. apply brier_in_ok; assumption.
  - intros i t key N. rewrite (B i t key N2 N). pose proof (Su key (nth_error_In _ _ N)) as I. destruct I as [<-|[<-|[<-|[]]]]; reflexivity.
Qed.
(** If the Brier score, the cost or the area is the first metric it is never computed: all models are evaluated to zero. *)
Theorem c111_first_refuted : forall m k len1 cur logit x f s k0 t, prepared m -> NoDup (m_in m) -> k_est k = true -> has_sim m = true ->
  dc_before k x (Z.of_nat (List.length cur)) = true -> dc_after k f = true -> settings_ok len1 cur -> nth_error (m_in m) 0 = Some k0 -> In k0 [GFrequencyCost; GAuc; GBrier] ->
  exists o, dc_one m k len1 cur logit x (Ok f) (Ok s) = Ok o /\ o_metrics o 0 t = Some 0%R.
Proof.
  intros m k len1 cur logit x f s k0 t P N1 Ke Hs Hb Ha St N I. destruct (prepared_ok m P) as [Hi Ho].
  destruct (dc_one_ok m k len1 cur logit x f s Hi Ho Ke Hs Hb Ha St) as (o & E & _ & _ & A & _). exists o. split; [exact E|]. rewrite (A 0%nat t k0 N1 N).
  destruct I as [<-|[<-|[<-|[]]]]; reflexivity.
Qed.
(** The coefficients: row v - 1 is the coefficient (and its variance) of explanatory variable v if it is in the model, NaN otherwise; the type of the model is recorded. *)
Theorem c111_coefficients : forall m k len1 cur logit x f s, prepared m -> k_est k = true -> has_sim m = true ->
  dc_before k x (Z.of_nat (List.length cur)) = true -> dc_after k f = true -> settings_ok len1 cur ->
  exists o, dc_one m k len1 cur logit x (Ok f) (Ok s) = Ok o /\ o_extra o = [if logit then 0 else 1] /\
    (forall i v t, nth_error cur i = Some v -> o_mean o (Z.to_nat (v - 1)) t = d_beta f i /\ o_var o (Z.to_nat (v - 1)) t = d_var f i) /\
    (forall r t, ~ In (1 + Z.of_nat r) cur -> o_mean o r t = None).
Proof.
  intros m k len1 cur logit x f s P Ke Hs Hb Ha St. destruct (prepared_ok m P) as [Hi Ho].
  destruct (dc_one_ok m k len1 cur logit x f s Hi Ho Ke Hs Hb Ha St) as (o & E & _ & Ex & _ & _ & T1 & T2). exists o. repeat split; try assumption; apply (T1 i v t H).
Qed.
(** There are rows for the thresholds of ordered models too, but they are never given. *)
Theorem c111_thresholds_refuted : forall m k exo choices cur logit x f s o r t, prepared m -> k_est k = true -> has_sim m = true ->
  dc_before k x (Z.of_nat (List.length cur)) = true -> dc_after k f = true -> NoDup cur -> (forall b, In b cur -> 1 <= b <= exo) -> 0 <= exo -> 2 <= choices ->
  dc_one m k (Z.to_nat (parameters exo choices)) cur logit x (Ok f) (Ok s) = Ok o -> exo <= Z.of_nat r < parameters exo choices -> o_mean o r t = None.
Proof.
  intros m k exo choices cur logit x f s o r t P Ke Hs Hb Ha ND Rg He Hc H Hr. unfold parameters in *.
  destruct (c111_coefficients m k (Z.to_nat (exo + (choices - 2))) cur logit x f s P Ke Hs Hb Ha) as (o' & E & _ & _ & T2). { split; [exact ND|]. intros b Hin. pose proof (Rg b Hin). lia. }
  assert (o' = o) by congruence. subst o'. apply T2. intros K. apply Rg in K. lia.
Qed.
(** A model that is accepted with an estimation meets the checks. *)
Theorem c111_checks_partial : forall m k len1 cur logit x f s o, k_est k = true -> dc_one m k len1 cur logit x (Ok f) s = Ok o -> 2 <= x_choices x ->
  let count := Z.of_nat (x_count x) in
  (0 < k_obs k -> k_obs k <= count) /\ (0 < k_dof k -> k_dof k <= count - parameters (Z.of_nat (List.length cur)) (x_choices x)) /\
  (d_aic f <> None -> at_most (fin (d_aic f)) (k_aic k)) /\ (d_sic f <> None -> at_most (fin (d_sic f)) (k_sic k)) /\
  (k_checkcn_all k = true -> d_cn f <> None -> at_most (fin (d_cn f)) (k_cn k)).
Proof.
  intros m k len1 cur logit x f s o Ke H Hc. cbv zeta. unfold dc_one in H. rewrite Ke in H. cbn [andb] in H.
  destruct (dc_before k x _) eqn:B; cbn [negb] in H; [|discriminate]. cbn [bind] in H. destruct (dc_after k f) eqn:A; cbn [bind] in H; [|discriminate]. clear H.
  unfold dc_before in B. unfold dc_after in A. rewrite !andb_true_iff, !negb_true_iff in A. destruct A as [[A1 A2] A3]. unfold parameters.
  assert (Nn : forall v, v <> None -> fin v <> None) by (intros [v|] K; [discriminate|congruence]).
  split; [lia|]. split; [lia|]. split; [intros N; apply vlt_at_most; auto|]. split; [intros N; apply vlt_at_most; auto|]. intros K N. rewrite K in A1. apply vlt_at_most; auto.
Qed.

(** ** Examples and defects *)
Definition dm0 (i : list gof) (o : list scoring) : mopts := Mopts i o [] 0 (1 / 2) 4 10 [] false [] [].
Definition dm (i : list gof) (o : list scoring) : mopts := match metrics_update true false (dm0 i o) with Ok m => m | _ => dm0 i o end.
Lemma dm_eq i o : metrics_update true false (dm0 i o) = Ok (Mopts i o (map gof_positive i ++ map sc_positive o) 0 (1 / 2) 4 10 [] false
  (fold_left (fun a k => insert gof_eqb a k (index_of gof_eqb i k)) all_gof []) (fold_left (fun a k => insert sc_eqb a k (index_of sc_eqb o k)) all_sc [])).
Proof.
  unfold metrics_update, dm0. cbn [m_in m_out m_pos m_trainfix m_ratio m_simfix m_seed m_horizons m_ts m_inidx m_outidx].
  cbn [negb andb orb Z.ltb Z.eqb Z.compare]. destruct (Req_EM_T (1 / 2) 0) as [K|K]; [exfalso; lra|]. reflexivity.
Qed.
Lemma dm_prepared i o : prepared (dm i o).
Proof. exists (dm0 i o). split; [reflexivity|]. split; [reflexivity|]. unfold dm. rewrite dm_eq. reflexivity. Qed.
Lemma dm_is i o : dm i o = Mopts i o (map gof_positive i ++ map sc_positive o) 0 (1 / 2) 4 10 [] false
  (fold_left (fun a k => insert gof_eqb a k (index_of gof_eqb i k)) all_gof []) (fold_left (fun a k => insert sc_eqb a k (index_of sc_eqb o k)) all_sc []).
Proof. unfold dm. rewrite dm_eq. reflexivity. Qed.
Definition dk : chk := Chk true 0 0 0 NegInf PosInf PosInf PosInf false false false.
Definition df (p : nat -> R) : fitted_dc := FitD None (Some 3%R) (Some 4%R) (fun i => Some (INR i)) (fun i => Some (INR i)) p (Some 1%R) (Some 1%R).
(** With missing values the Brier score is computed with entries of other variables: here the probabilities of the two usable rows are perfect, and the score is 1/3. *)
Theorem c111_missing_refuted : exists m k cur x f s o, prepared m /\ m_in m = [GAic; GBrier] /\ k_est k = true /\ has_sim m = true /\ settings_ok 1 cur /\
  x_count x = 2%nat /\ x_obs x = 3%nat /\ (forall i, (i < 2)%nat -> d_prob f i = x_mem x i) /\ dc_one m k 1 cur true x (Ok f) (Ok s) = Ok o /\ o_metrics o 1 0 = Some (1 / 3)%R.
Proof.
  exists (dm [GAic; GBrier] [SBrier]), dk, [1], (XData (fun i => if (i =? 1)%nat then 0%R else 1%R) 2 3 false false 2), (df (fun i => if (i =? 0)%nat then 1%R else 0%R)), (Scored None None (Some 0%R)).
  assert (P := dm_prepared [GAic; GBrier] [SBrier]). destruct (prepared_ok _ P) as [Hi Ho]. rewrite dm_is in *.
  destruct (dc_one_ok _ dk 1 [1] true (XData (fun i => if (i =? 1)%nat then 0%R else 1%R) 2 3 false false 2) (df (fun i => if (i =? 0)%nat then 1%R else 0%R)) (Scored None None (Some 0%R)) Hi Ho eq_refl eq_refl eq_refl eq_refl) as (o & E & _ & _ & A & _).
  { split; [constructor; [intros []|constructor]|]. intros b [<-|[]]. lia. }
  exists o. split; [exact P|]. split; [reflexivity|]. split; [reflexivity|]. split; [reflexivity|]. split; [split; [constructor; [intros []|constructor]|intros b [<-|[]]; lia]|].
  split; [reflexivity|]. split; [reflexivity|]. split; [intros [|[|i]] Hi2; [reflexivity|reflexivity|lia]|]. split; [exact E|].
  rewrite (A 1%nat 0%nat GBrier); [|constructor; [intros [K|[]]; discriminate|constructor; [intros []|constructor]]|reflexivity]. cbn [early orb Nat.ltb Nat.leb value_in].
  unfold brier_in. cbn [x_weight x_weval x_obs x_mem x_count andb]. rewrite (brier_fold (fun i => if (i =? 1)%nat then 0%R else 1%R) (d_prob (df (fun i => if (i =? 0)%nat then 1%R else 0%R))) (fun _ => 1%R)).
  unfold total. cbn [seq map fold_right Nat.eqb df d_prob]. destruct (Req_EM_T _ 0) as [K|K]; [exfalso; lra|]. f_equal. lra.
Qed.
(** The check of the degrees of freedom counts too many parameters: 6 rows and 2 parameters are refused if 1 degree of freedom is required. *)
Theorem c111_dof_refuted : forall m len1 cur logit x fit sim, List.length cur = 2%nat -> x_count x = 6%nat -> x_choices x = 2 ->
  dc_one m (Chk true 0 1 0 NegInf PosInf PosInf PosInf false false false) len1 cur logit x fit sim = Throw /\ 1 <= Z.of_nat (x_count x) - parameters (Z.of_nat (List.length cur)) (x_choices x).
Proof.
  intros m len1 cur logit x fit sim L C Ch. unfold dc_one, dc_before, parameters. cbn [k_est k_obs k_dof]. rewrite L, C, Ch. split; [reflexivity|]. cbn. lia.
Qed.

(** ** The searchers *)
Definition seed_of (seed n : Z) : Z := if seed =? 0 then 0 else if seed <? 0 then - seed else seed + (n + 1).
Lemma dc_sizes_ok ok seed lg pr l co acc r : dc_sizes ok seed lg pr l co acc = Ok r -> (forall s, In s l -> 0 < s /\ (lg || pr = true -> ok s = true)) /\
  forall s d sd, In (s, d, sd) r <-> In (s, d, sd) acc \/ exists n, nth_error l n = Some s /\ ((d = true /\ lg = true) \/ (d = false /\ pr = true)) /\ sd = seed_of seed (co + Z.of_nat n).
Proof.
  revert co acc. induction l as [|s l IH]; intros co acc; cbn [dc_sizes].
  - intros H. injection H as <-. split; [intros s []|]. intros s d sd. split; [left; assumption|]. intros [H|([|n] & N & _)]; [exact H|discriminate|discriminate].
  - destruct (s <=? 0) eqn:S0; [discriminate|]. destruct ((lg || pr) && negb (ok s)) eqn:Os; [discriminate|]. intros H. apply IH in H. destruct H as [A B]. split.
    + intros s' [<-|I]; [|apply A; exact I]. split; [lia|]. intros K. rewrite K in Os. cbn in Os. destruct (ok s); [reflexivity|discriminate].
    + intros s' d sd. rewrite B. assert (Q : (if seed =? 0 then 0 else if seed <? 0 then - seed else seed + (co + 1)) = seed_of seed (co + Z.of_nat 0)) by (unfold seed_of; destruct (seed =? 0); [reflexivity|]; destruct (seed <? 0); lia).
      rewrite Q, !in_app_iff. split.
      * intros [[H|H]|(n & N & D & E)]; [left; exact H| |right; exists (S n); split; [exact N|]; split; [exact D|]; rewrite E; f_equal; lia].
        right. exists 0%nat. destruct H as [H|H]; [destruct lg; [|destruct H]|destruct pr; [|destruct H]]; destruct H as [H|[]]; injection H as <- <- <-; (split; [reflexivity|]; split; [tauto|reflexivity]).
      * intros [H|([|n] & N & D & E)]; [left; left; exact H| |right; exists n; split; [exact N|]; split; [exact D|]; rewrite E; f_equal; lia].
        cbn in N. injection N as <-. left. right. rewrite E. destruct D as [[-> ->]|[-> ->]]; [left|right]; left; reflexivity.
Qed.
Lemma modelset_inv ordered lg pr m k sizes parts fix_ keep len1 src costs m' k' l : dc_modelset ordered lg pr m k sizes parts fix_ keep len1 src costs = Ok (m', k', l) ->
  2 <= o_choices src /\ 1 <= o_exo src /\ metrics_update true false m = Ok m' /\ checks_update m' k = Ok k' /\ (len1 <> 0 -> len1 = o_exo src + o_choices src - 2 /\ k_est k' = true) /\
  is_intercept (o_intercept src) = true /\ (forall p a, In p parts -> In a p -> 0 <= a <= o_exo src) /\
  exists au, at_key sc_eqb (m_outidx m') SAuc = Ok au /\
    dc_sizes (fun s => searcher_ok ordered m' k' keep len1 fix_ s (o_rows src) (o_choices src) (Z.of_nat (List.length costs)) au) (m_seed m') lg pr sizes 0 [] = Ok l /\
    (forall ci cu, at_key gof_eqb (m_inidx m') GFrequencyCost = Ok ci -> at_key sc_eqb (m_outidx m') SFrequencyCost = Ok cu -> ci = -1 -> cu = -1 -> costs = []).
Proof.
  unfold dc_modelset. cbv zeta. destruct (o_choices src <? 2) eqn:C0; [discriminate|]. destruct (o_exo src <? 1) eqn:X0; [discriminate|].
  destruct (metrics_update true false m) as [m1| |] eqn:Mu; cbn [bind]; try discriminate. destruct (checks_update m1 k) as [k1| |] eqn:Ku; cbn [bind]; try discriminate.
  ifd L1; [discriminate|]. ifd L2; [discriminate|]. destruct (is_intercept _) eqn:Ic; cbn [negb]; [|discriminate]. ifd Gr; [discriminate|].
  destruct (at_key gof_eqb _ _) as [ci| |] eqn:Ci; cbn [bind]; try discriminate. destruct (at_key sc_eqb _ SFrequencyCost) as [cu| |] eqn:Cu; cbn [bind]; try discriminate.
  destruct (at_key sc_eqb _ SAuc) as [au| |] eqn:Au; cbn [bind]; try discriminate.
  match goal with |- context [bind ?e (fun _ => bind (dc_sizes _ _ _ _ _ _ _) _)] => destruct e as [u| |] eqn:Co end; cbn [bind]; try discriminate.
  destruct (dc_sizes _ _ _ _ _ _ _) as [l1| |] eqn:Sz; cbn [bind]; try discriminate. intros H. injection H as <- <- <-.
  split; [lia|]. split; [lia|]. split; [reflexivity|]. split; [exact Ku|]. split. { intros N. split; [lia|]. destruct (k_est k1); [reflexivity|]. cbn in L2. lia. }
  split; [first [exact Ic|reflexivity]|]. split.
  - intros p a Hp Hin. rewrite <- not_true_iff_false in Gr. destruct ((o_exo src <? a) || (a <? 0)) eqn:Q; [|lia]. exfalso. apply Gr. apply existsb_exists. exists p. split; [exact Hp|]. apply existsb_exists. exists a. split; [exact Hin|exact Q].
  - exists au. split; [exact Au|]. split; [exact Sz|]. intros ci' cu' E1 E2 -> ->. assert (ci = -1) by congruence. assert (cu = -1) by congruence. subst. cbn in Co. destruct costs; [reflexivity|discriminate].
Qed.
(** What the set of searchers contains when the options are accepted: each size with each of the selected distributions, and a seed of its own; the sizes are positive and
    the required intercept column contains only ones (or missing values). *)
Theorem c111_searchers : forall ordered lg pr m k sizes parts fix_ keep len1 src costs m' k' l,
  dc_modelset ordered lg pr m k sizes parts fix_ keep len1 src costs = Ok (m', k', l) ->
  (forall s d sd, In (s, d, sd) l <-> exists n, nth_error sizes n = Some s /\ ((d = true /\ lg = true) \/ (d = false /\ pr = true)) /\ sd = seed_of (m_seed m') (Z.of_nat n)) /\
  (forall s, In s sizes -> 0 < s /\ (lg || pr = true -> fix_ <> 0 /\ fix_ <= s)) /\ (forall v, In (Some v) (o_intercept src) -> v = 1%R) /\
  (forall p a, In p parts -> In a p -> 0 <= a <= o_exo src) /\ (len1 <> 0 -> len1 = parameters (o_exo src) (o_choices src) /\ k_est k' = true).
Proof.
  intros ordered lg pr m k sizes parts fix_ keep len1 src costs m' k' l H. apply modelset_inv in H. destruct H as (_ & _ & _ & _ & L1 & Ic & Gr & au & _ & Sz & _).
  apply dc_sizes_ok in Sz. destruct Sz as [A B]. split. { intros s d sd. rewrite B. split; [intros [[]|H]; exact H|intros H; right; exact H]. }
  split; [|split; [|split; [exact Gr|]]].
  - intros s Hs. destruct (A s Hs) as [A1 A2]. split; [exact A1|]. intros K. specialize (A2 K). unfold searcher_ok in A2. rewrite !andb_true_iff in A2. lia.
  - intros v Hv. unfold is_intercept in Ic. rewrite forallb_forall in Ic. specialize (Ic _ Hv). cbn in Ic. destruct (Req_EM_T v 1); [assumption|discriminate].
  - intros N. destruct (L1 N) as [E K]. split; [unfold parameters; lia|exact K].
Qed.
(** Searchers of different sizes in the list get different seeds, if the seed is positive. *)
Theorem c111_seeds : forall seed i j, 0 < seed -> 0 <= i -> 0 <= j -> i <> j -> seed_of seed i <> seed_of seed j /\ seed_of seed i <> 0.
Proof. intros seed i j Hs Hi Hj D. unfold seed_of. replace (seed =? 0) with false by lia. replace (seed <? 0) with false by lia. lia. Qed.
(** A search whose only score is the Brier score is impossible. *)
Theorem c111_brier_refuted : forall ordered lg pr m k sizes parts fix_ keep len1 src costs r, m_inidx m = [] -> m_outidx m = [] -> m_out m = [SBrier] -> ~ In GFrequencyCost (m_in m) -> 0 < m_simfix m ->
  sizes <> [] -> lg || pr = true -> dc_modelset ordered lg pr m k sizes parts fix_ keep len1 src costs <> Ok r.
Proof.
  intros ordered lg pr m k sizes parts fix_ keep len1 src costs [[m' k'] l] I1 I2 Mo Nc Sf Ns Lp H. apply modelset_inv in H. destruct H as (_ & _ & Mu & _ & _ & _ & _ & au & Au & Sz & Cs).
  destruct (update_in _ _ _ _ GFrequencyCost Mu I1) as [Ui Um]. destruct (update_out _ _ _ _ SFrequencyCost Mu I2) as [Uo Um']. destruct (update_out _ _ _ _ SAuc Mu I2) as [Ua _].
  rewrite Um', Mo in Uo, Ua. cbn in Uo, Ua. assert (au = -1) by congruence. subst au.
  assert (costs = []). { eapply Cs; [exact Ui|exact Uo| |reflexivity]. destruct (index_of_spec gof_eqb (m_in m') GFrequencyCost gof_eqb_eq) as [[E _]|(n & _ & N & _)]; [exact E|]. exfalso. apply Nc. rewrite <- Um. apply (nth_error_In _ _ N). }
  subst costs. apply dc_sizes_ok in Sz. destruct Sz as [A _]. destruct sizes as [|s sizes]; [congruence|]. destruct (A s (or_introl eq_refl)) as [_ A2]. specialize (A2 Lp).
  assert (Hs : has_sim m' = true). { unfold has_sim. rewrite Um', Mo. revert Mu. unfold metrics_update. cbv zeta. ifd Qa; [discriminate|]. ifd Qb; [discriminate|]. ifd Qc1; [discriminate|]. clear - Sf. intros H. apply (f_equal (fun o => match o with Ok v => m_simfix v | _ => 0 end)) in H. cbn in H. rewrite <- H. lia. }
  unfold searcher_ok in A2. rewrite Hs in A2. unfold sim_ok in A2. cbn in A2. rewrite !andb_false_r in A2. cbn in A2. rewrite ?andb_false_r in A2. discriminate.
Qed.
(** The dependent variable is accepted as an explanatory one; if coefficients are asked for, memory outside of them is then written. A frequency cost as the first metric
    is accepted without any cost matrix. *)
Theorem c111_response_refuted : (exists m' k' l, dc_modelset false true false (dm0 [GAic] [SAuc]) dk [2] [[1]; [0]] 1 true 1 (Source 10 1 2 [Some 1%R]) [] = Ok (m', k', l) /\ l <> []) /\
  (forall m x f s, prepared m -> has_sim m = true -> x_count x = 9%nat -> dc_one m dk 1 [1; 0] true x (Ok f) (Ok s) = UB) /\
  col_indices (Reg false [0] false 1 1 [GAic] [] [] [] true 1) [1; 0] = [0; 1; 0].
Proof.
  assert (Rd : round_pos (IZR 10 * (1 / 2)) = 5). { unfold round_pos. replace (IZR 10 * (1 / 2) + / 2)%R with (IZR 5 + / 2)%R by lra. unfold Int_part. rewrite <- (tech_up (5 + / 2) 6); [reflexivity|lra|lra]. }
  split; [|split; [|reflexivity]].
  - unfold dc_modelset. rewrite dm_eq. cbn -[round_pos Req_EM_T Rle_dec Rdiv]. destruct (Req_EM_T 1 1) as [_|K]; [|congruence]. cbn -[round_pos Rle_dec Rdiv].
    unfold searcher_ok, sim_ok. cbn -[round_pos Rle_dec Rdiv]. destruct (Rle_dec 1 (1 / 2)) as [K|_]; [exfalso; lra|]. destruct (Rle_dec (1 / 2) 0) as [K|_]; [exfalso; lra|]. rewrite Rd. cbn.
    eexists _, _, _. split; [reflexivity|discriminate].
  - intros m x f s P Hs C. destruct (prepared_ok m P) as [Hi Ho]. unfold dc_one. rewrite Hs. cbn [k_est dk andb]. unfold dc_before. cbn [k_obs k_dof dk negb andb Z.ltb Z.compare bind].
    replace (dc_after dk f) with true by (unfold dc_after; cbn; destruct (d_aic f), (d_sic f); reflexivity). cbn [bind].
    set (rows := (List.length (m_in m) + List.length (m_out m))%nat). unfold dc_in. rewrite !Hi. cbn [bind].
    assert (L : (List.length (m_in m) <= rows)%nat) by (unfold rows; lia).
    destruct (set_row_in m rows GAic (fun _ => d_aic f) (fun _ _ => Some 0%R) L) as (M1 & -> & _). cbn [bind].
    destruct (set_row_in m rows GSic (fun _ => d_sic f) M1 L) as (M2 & -> & _). cbn [bind].
    destruct (set_row_pos m rows GBrier (fun _ => brier_in x (d_prob f)) M2 L) as (M3 & -> & _). cbn [bind].
    destruct (set_row_pos m rows GFrequencyCost (fun _ => d_cost f) M3 L) as (M4 & -> & _). cbn [bind].
    destruct (set_row_pos m rows GAuc (fun _ => d_auc f) M4 L) as (M5 & -> & _). cbn [bind].
    unfold dc_outs. destruct (put_out m rows SFrequencyCost (s_cost s) M5 Ho eq_refl) as (M6 & -> & _). cbn [bind].
    destruct (put_out m rows SAuc (s_auc s) M6 Ho eq_refl) as (M7 & -> & _). cbn [bind].
    destruct (put_out m rows SBrier (s_brier s) M7 Ho eq_refl) as (M8 & -> & _). cbn [bind]. reflexivity.
Qed.
Theorem c111_costs_refuted : exists m' k' l, dc_modelset false true false (dm0 [GFrequencyCost] [SAuc]) dk [2] [[1]; [2]] 1 true 0 (Source 10 2 2 [Some 1%R]) [] = Ok (m', k', l) /\
  l <> [] /\ In GFrequencyCost (m_in m').
Proof.
  assert (Rd : round_pos (IZR 10 * (1 / 2)) = 5). { unfold round_pos. replace (IZR 10 * (1 / 2) + / 2)%R with (IZR 5 + / 2)%R by lra. unfold Int_part. rewrite <- (tech_up (5 + / 2) 6); [reflexivity|lra|lra]. }
  unfold dc_modelset. rewrite dm_eq. cbn -[round_pos Req_EM_T Rle_dec Rdiv]. destruct (Req_EM_T 1 1) as [_|K]; [|congruence]. cbn -[round_pos Rle_dec Rdiv].
  unfold searcher_ok, sim_ok. cbn -[round_pos Rle_dec Rdiv]. destruct (Rle_dec 1 (1 / 2)) as [K|_]; [exfalso; lra|]. destruct (Rle_dec (1 / 2) 0) as [K|_]; [exfalso; lra|]. rewrite Rd. cbn.
  eexists _, _, _. split; [reflexivity|]. split; [discriminate|]. left. reflexivity.
Qed.

(** A search with AIC and the Brier score: hypotheses of the theorems above. *)
Example ex_dc_metrics : exists o, dc_one (dm [GAic; GBrier] [SAuc; SBrier]) dk 2 [1; 2] true (XData (fun i => if (i =? 1)%nat then 0%R else 1%R) 2 2 false false 2) (Ok (df (fun _ => (1 / 2)%R)))
    (Ok (Scored None (Some 1%R) (Some (1 / 8)%R))) = Ok o /\
  o_metrics o 0 0 = Some 3%R /\ o_metrics o 1 0 = Some (1 / 4)%R /\ o_metrics o 2 0 = Some 1%R /\ o_metrics o 3 0 = Some (1 / 8)%R /\ o_mean o 1 0 = Some 1%R.
Proof.
  assert (P := dm_prepared [GAic; GBrier] [SAuc; SBrier]). destruct (prepared_ok _ P) as [Hi Ho]. rewrite dm_is in *.
  assert (St : settings_ok 2 [1; 2]). { split; [constructor; [intros [K|[]]; discriminate|constructor; [intros []|constructor]]|intros b [<-|[<-|[]]]; lia]. }
  match goal with |- exists o, dc_one ?m ?k ?l ?c ?g ?x (Ok ?f) (Ok ?s) = _ /\ _ => destruct (dc_one_ok m k l c g x f s Hi Ho eq_refl eq_refl eq_refl eq_refl St) as (o & E & _ & _ & A & B & T & _) end.
  exists o. split; [exact E|].
  assert (N1 : NoDup [GAic; GBrier]) by (constructor; [intros [K|[]]; discriminate|constructor; [intros []|constructor]]).
  assert (N2 : NoDup [SAuc; SBrier]) by (constructor; [intros [K|[]]; discriminate|constructor; [intros []|constructor]]).
  split; [rewrite (A 0%nat 0%nat GAic N1 eq_refl); reflexivity|]. split.
  - rewrite (A 1%nat 0%nat GBrier N1 eq_refl). cbn [early orb Nat.ltb Nat.leb value_in]. rewrite brier_in_ok; [|reflexivity|unfold total; cbn; lra]. unfold brier_spec, total. cbn. f_equal. lra.
  - split; [exact (B 0%nat 0%nat SAuc N2 eq_refl)|]. split; [exact (B 1%nat 0%nat SBrier N2 eq_refl)|]. destruct (T 1%nat 2 0%nat eq_refl) as [T1 _]. exact T1.
Qed.

Print Assumptions c111_metrics_partial.
Print Assumptions c111_first_refuted.
Print Assumptions c111_coefficients.
Print Assumptions c111_thresholds_refuted.
Print Assumptions c111_checks_partial.
Print Assumptions c111_missing_refuted.
Print Assumptions c111_dof_refuted.
Print Assumptions c111_searchers.
Print Assumptions c111_seeds.
Print Assumptions c111_brier_refuted.
Print Assumptions c111_response_refuted.
Print Assumptions c111_costs_refuted.
