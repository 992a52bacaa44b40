(** C106: the number of components, and models with components instead of variables. *)
From Coq Require Import Lia Sorted.
From Verif Require Import PcaProofs2 Prop_StdzReal Prop_PcaReal.
From Verif Require Import DcProofs.
From Coq Require Import Lra.
Local Open Scope R_scope.

Lemma rltb_spec a b : rltb a b = true <-> a < b. Proof. unfold rltb. destruct (Rlt_dec a b); split; easy. Qed.
Lemma rleb_spec a b : rleb a b = true <-> a <= b. Proof. unfold rleb. destruct (Rle_dec a b); split; easy. Qed.
Lemma rate_out rate : (rleb rate 0 || rleb 1 rate)%bool = true <-> ~ (0 < rate < 1).
Proof. rewrite Bool.orb_true_iff, !rleb_spec. split; intros H; [lra|]. destruct (Rle_dec rate 0); [left; easy|]. right. lra. Qed.

(** The loop, from q elements that have been added. *)
Lemma cut_loop_spec rate (v : vec) m : forall q, sumr q v <= rate -> let c := cut_loop rate (map (fun l => Some (v l)) (seq q m)) (Z.of_nat q + 1) (Some (sumr q v)) in
  exists d : nat, c = Z.of_nat d /\ (q < d <= q + m + 1)%nat /\ (forall b, (q <= b < d)%nat -> sumr b v <= rate) /\ ((d <= q + m)%nat -> rate < sumr d v).
Proof.
  induction m as [|m IH]; intros q H; cbn [seq map cut_loop].
  - exists (S q). split; [lia|]. split; [lia|]. split; [intros b Hb; replace b with q by lia; exact H|lia].
  - destruct (rltb rate (sumr q v + v q)) eqn:E.
    + exists (S q). split; [lia|]. split; [lia|]. split; [intros b Hb; replace b with q by lia; exact H|]. intros _. apply rltb_spec in E. exact E.
    + assert (H' : sumr (S q) v <= rate). { cbn [sumr]. destruct (Rle_dec (sumr q v + v q) rate); [assumption|]. exfalso. apply Bool.not_true_iff_false in E. apply E, rltb_spec. lra. }
      pose proof (IH (S q) H') as I. cbv zeta in I. replace (Z.of_nat (S q) + 1)%Z with (Z.of_nat q + 1 + 1)%Z in I by lia. cbn [sumr] in I. destruct I as (d & A & B & C & D). exists d.
      split; [exact A|]. split; [lia|]. split; [|intros; apply D; lia]. intros b Hb. destruct (Nat.eq_dec b q) as [ -> | ]; [exact H|]. apply C. lia.
Qed.
Lemma cut_nan rate n m : cut_loop rate (repeat (None : option R) m) n None = (n + Z.of_nat m)%Z.
Proof. revert n; induction m as [|m IH]; intros n; cbn [repeat cut_loop]; [lia|]. rewrite IH. lia. Qed.

(** The cutoff is the smallest number of components whose share is greater than the rate; it is between 1 and the number of components. *)
Theorem c106_cutoff svd junk p n k0 X F r rate : svd_sound svd -> pca_calculate svd junk p n k0 X F = Ok (Some r) -> p_pcs p = true ->
  (p_center p = true /\ p_scale p = true \/ exists l, (l < r_mn r)%nat /\ r_stds r l <> 0) -> 0 < rate < 1 ->
  let share c := sumr c (fun l => r_stds r l * r_stds r l) / sumr (r_mn r) (fun l => r_stds r l * r_stds r l) in
  exists c, cutoff_column rate (ratio_list (Some r)) = Ok (Z.of_nat c) /\ (1 <= c <= r_mn r)%nat /\ rate < share c /\ forall b, (b < c)%nat -> share b <= rate.
Proof.
  intros SS H D NZ R share. destruct (c104_ratios svd junk p n k0 X F r SS H D NZ) as (q & Hq & _ & SUM & _).
  pose proof (ratios_ svd junk p n k0 X F r H) as RR. cbv zeta in RR. set (v := sumr (r_mn r) (fun l => r_stds r l * r_stds r l)) in *.
  assert (V : v <> 0). { intros E. destruct (result_exists svd junk p n k0 X F r H) as (_ & _ & N & K & M). assert (0 < r_mn r)%nat by (rewrite M; lia). destruct (Hq 0%nat) as [Q _]; [lia|]. rewrite (proj1 RR E) in Q. discriminate Q. }
  pose proof (proj2 RR V) as R2. clear RR. set (w := fun l => r_stds r l * r_stds r l / v). assert (Sh : forall c, share c = sumr c w). { intros c. unfold share, w, Rdiv. rewrite sumr_scal_r. reflexivity. }
  assert (L : ratio_list (Some r) = map (fun l => Some (w l)) (seq 0 (r_mn r))) by (cbn; apply map_ext; exact R2).
  pose proof (cut_loop_spec rate w (r_mn r) 0 ltac:(cbn; lra)) as I. cbv zeta in I. change (Z.of_nat 0 + 1)%Z with 1%Z in I. change (sumr 0 w) with 0 in I. rewrite <- L in I.
  destruct I as (c & E & B & LO & HI). exists c.
  assert (SW : sumr (r_mn r) w = 1). { unfold w, Rdiv. rewrite sumr_scal_r. fold v. field. exact V. }
  assert (C : (c <= r_mn r)%nat). { destruct (Nat.le_gt_cases c (r_mn r)); [assumption|]. pose proof (LO (r_mn r) ltac:(lia)). lra. }
  unfold cutoff_column. destruct (rleb rate 0 || rleb 1 rate)%bool eqn:RO. { apply rate_out in RO. contradiction. }
  split; [rewrite E; reflexivity|]. split; [lia|]. rewrite Sh. split; [apply HI; lia|]. intros b Hb. rewrite Sh. apply LO. lia.
Qed.
Print Assumptions c106_cutoff.
(** Rates outside of (0, 1) are refused; before the first analysis the answer is 1. *)
Theorem c106_rate rate l : (~ (0 < rate < 1) <-> cutoff_column rate l = Throw) /\ (0 < rate < 1 -> cutoff_column rate (ratio_list None) = Ok 1%Z).
Proof.
  unfold cutoff_column. split.
  - rewrite <- rate_out. destruct (rleb rate 0 || rleb 1 rate)%bool; split; easy.
  - intros R. destruct (rleb rate 0 || rleb 1 rate)%bool eqn:E; [apply rate_out in E; contradiction|]. reflexivity.
Qed.
Print Assumptions c106_rate.
(** Data without variance (centered only, all columns constant): the answer is greater than the number of components. *)
Theorem c106_no_variance_refuted svd junk n k0 X F r rate : svd_sound svd -> pca_calculate svd junk (Pca true true true false) n k0 X F = Ok (Some r) ->
  (forall j, (j < k0)%nat -> constant n (col X j)) -> 0 < rate < 1 -> cutoff_column rate (ratio_list (Some r)) = Ok (Z.of_nat (r_mn r) + 1)%Z.
Proof.
  intros SS H C R. destruct (c104_defined _ _ _ _ _ _ _ _ H) as (Y & U & N & K0 & Mn).
  assert (V0 : sumr (r_mn r) (fun l => r_stds r l * r_stds r l) = 0).
  { rewrite (proj1 (c104_total_variance svd junk _ n k0 X F r Y SS H eq_refl U eq_refl)). apply sumr_zero. intros j Hj.
    apply (variance_zero n (col Y j) N). destruct U as (z & E & K & V). unfold pca_data in E. cbn [p_center p_scale p_rz orb] in E.
    assert (Hj' : (j < length (z_kept z))%nat) by (rewrite <- K; exact Hj).
    destruct (c105_parts true true false n k0 X z j N E Hj') as [A B]. destruct (A eq_refl) as [A1 A2]. assert (Hj0 : (j < k0)%nat) by lia.
    intros a b Ha Hb. pose proof (B ltac:(discriminate)) as W. rewrite A1 in W. unfold col.
    assert (WW : forall i, (i < n)%nat -> Y i j = (col X j i - mean n (col X j)) / 1). { intros i Hi. pose proof (V i j Hi Hj) as V1. rewrite (W i) in V1. congruence. }
    rewrite !WW by easy. rewrite (C j Hj0 a b Ha Hb). reflexivity. }
  pose proof (proj1 (ratios_ svd junk _ n k0 X F r H) V0) as RN. unfold cutoff_column. destruct (rleb rate 0 || rleb 1 rate)%bool eqn:RO; [apply rate_out in RO; contradiction|].
  cbn [ratio_list]. assert (L : forall q m, map (r_ratios r) (seq q m) = repeat None m). { intros q m; revert q; induction m as [|m IH]; intros q; cbn; [reflexivity|]. rewrite RN, IH. reflexivity. }
  rewrite L. destruct (r_mn r) as [|m] eqn:EM; [exfalso; lia|]. cbn [repeat cut_loop]. rewrite cut_nan. f_equal. lia.
Qed.
Print Assumptions c106_no_variance_refuted.
(** Such an analysis exists: one column of two equal numbers. *)
Definition svd_null : svd_fun := fun n k A => if ((n =? 2) && (k =? 1))%nat%bool then if Req_EM_T (A 0%nat 0%nat) 0 then if Req_EM_T (A 1%nat 0%nat) 0 then Some (fun _ => 0, fun _ _ => 1) else None else None else None.
Lemma svd_null_sound : svd_sound svd_null.
Proof.
  intros n k A s vt. unfold svd_null. destruct (Nat.eqb_spec n 2) as [ -> | ]; [|discriminate]. destruct (Nat.eqb_spec k 1) as [ -> | ]; [|discriminate]. cbn [andb].
  destruct (Req_EM_T (A 0%nat 0%nat) 0) as [A0|]; [|discriminate]. destruct (Req_EM_T (A 1%nat 0%nat) 0) as [A1|]; [|discriminate]. intros E.
  assert (s = (fun _ => 0) /\ vt = fun _ _ => 1) as [ -> -> ] by (split; congruence). unfold svd_of. cbn [Nat.min]. split; [intros; lra|]. split; [intros; lra|]. split.
  - intros a b Ha Hb. replace a with 0%nat by lia. replace b with 0%nat by lia. unfold dot, delta. cbn. ring.
  - exists (fun i _ => if (i =? 0)%nat then 1 else 0). split.
    + intros a b Ha Hb. replace a with 0%nat by lia. replace b with 0%nat by lia. unfold dot, delta, col. cbn. ring.
    + intros i j Hi Hj. replace j with 0%nat by lia. apply two in Hi. destruct Hi as [ -> | -> ]; cbn; lra.
Qed.
Example c106_no_variance_ex : exists r, pca_calculate svd_null (fun _ _ => 0) (Pca true true true false) 2 1 (fun _ _ => 7) None = Ok (Some r) /\ r_mn r = 1%nat.
Proof.
  set (X := fun _ _ : nat => 7). set (p := Pca true true true false).
  assert (U : used p 2 1 X 1 (fun _ _ => 0)).
  { destruct (standardize_def true true false None None 2 1 X ltac:(lia) ltac:(lia)) as [z E]. exists z. split; [exact E|].
    assert (L : length (z_kept z) = 1%nat). { unfold standardize in E. cbn [Nat.eqb orb] in E. apply (f_equal (fun o => match o with Ok z => z | _ => z end)) in E; cbv beta iota zeta in E. subst z. reflexivity. }
    split; [symmetry; exact L|]. intros i j Hi Hj. pose proof (proj2 (c105_parts true true false 2 1 X z j ltac:(lia) E ltac:(lia)) ltac:(discriminate) i) as V. rewrite V. f_equal. unfold mean, col, X. cbn. field. }
  destruct (c104_total_function svd_null (fun _ _ => 0) p 2 1 X None (fun _ _ => 0) 1 (fun _ => 0) (fun _ _ => 1) U ltac:(lia) ltac:(lia) I) as (r & H & K).
  - intros A HA. unfold svd_null. cbn [Nat.eqb andb]. rewrite !HA by lia. destruct (Req_EM_T 0 0); [reflexivity|lra].
  - exists r. split; [exact H|]. destruct (c104_defined _ _ _ _ _ _ _ _ H) as (_ & _ & _ & _ & M). rewrite M, K. reflexivity.
Qed.

(** The number of components in a model. *)
Theorem c106_final o l : (o_exact o <> 0%Z -> final_count o l = Ok (o_exact o)) /\
  (o_exact o = 0%Z -> final_count o l = match cutoff_column (o_rate o) l with Ok c => Ok (Z.min c (o_max o)) | Throw => Throw | UB => UB end).
Proof. unfold final_count. destruct (Z.eqb_spec (o_exact o) 0); split; intros; try contradiction; cbn [negb]; [destruct (cutoff_column (o_rate o) l); reflexivity|reflexivity]. Qed.
Print Assumptions c106_final.
(** Options that pass the check and have no negative numbers: the number of components is found, and it is positive. *)
Theorem c106_validity o svd junk p n k0 X F r : check_validity o = Ok tt -> enabled o = true -> (0 <= o_exact o)%Z -> (0 <= o_max o)%Z ->
  svd_sound svd -> pca_calculate svd junk p n k0 X F = Ok (Some r) -> p_pcs p = true -> p_center p = true -> p_scale p = true ->
  (0 <= o_ignore o)%Z /\ exists c, final_count o (ratio_list (Some r)) = Ok c /\ (1 <= c)%Z /\ (o_exact o = 0%Z -> (c <= Z.of_nat (r_mn r))%Z /\ (c <= o_max o)%Z).
Proof.
  intros CV E X0 M0 SS H D C SC. unfold check_validity in CV. rewrite E in CV. cbn [negb] in CV. destruct (Z.ltb_spec (o_ignore o) 0); [discriminate|]. split; [easy|].
  destruct (Z.ltb_spec 0 (o_exact o)) as [L|L].
  - exists (o_exact o). split; [apply c106_final; lia|]. split; lia.
  - assert (EX : o_exact o = 0%Z) by lia. unfold enabled in E. rewrite EX in E. cbn [Z.eqb negb orb] in E. destruct (Req_EM_T (o_rate o) 0); [discriminate|].
    destruct (rleb (o_rate o) 0 || rleb 1 (o_rate o))%bool eqn:RO; [discriminate|]. destruct (Z.eqb_spec (o_max o) 0); [discriminate|].
    assert (R : 0 < o_rate o < 1). { destruct (Rlt_dec 0 (o_rate o)) as [R1|R1], (Rlt_dec (o_rate o) 1) as [R2|R2]; try (split; assumption); exfalso; apply Bool.not_true_iff_false in RO; apply RO, rate_out; lra. }
    destruct (c106_cutoff svd junk p n k0 X F r (o_rate o) SS H D (or_introl (conj C SC)) R) as (c & Ec & B & _). exists (Z.min (Z.of_nat c) (o_max o)).
    split; [rewrite (proj2 (c106_final o _) EX), Ec; reflexivity|]. lia.
Qed.
Print Assumptions c106_validity.
(** Negative counts pass the check. *)
Theorem c106_validity_refuted : (exists o, enabled o = true /\ check_validity o = Ok tt /\ forall l, final_count o l = Ok (-3)%Z) /\
  (exists o, enabled o = true /\ check_validity o = Ok tt /\ forall l, final_count o l = Ok (-3)%Z /\ o_exact o = 0%Z).
Proof.
  split.
  - exists (Popts 1 (-3) 0 100000). unfold enabled, check_validity. cbn. destruct (Req_EM_T 0 0); [|lra]. repeat split.
  - exists (Popts 1 0 (1 / 2) (-3)). unfold enabled, check_validity. cbn. destruct (Req_EM_T (1 / 2) 0); [lra|]. assert (RO : (rleb (1 / 2) 0 || rleb 1 (1 / 2))%bool = false). { apply Bool.not_true_iff_false. rewrite rate_out. lra. }
    cbn. rewrite RO. repeat split. unfold final_count, cutoff_column. cbn. rewrite RO. cbn [bind]. f_equal. apply Z.min_r.
    assert (G : forall l c cs, (c <= cut_loop (1 / 2) l c cs)%Z). { induction l0 as [|x l0 IH]; intros c cs; cbn; [lia|]. match goal with |- (_ <= if ?b then _ else _)%Z => destruct b end; [lia|]. specialize (IH (c + 1)%Z (match cs, x with Some a, Some b => Some (a + b) | _, _ => None end)). lia. }
    specialize (G l 1%Z (Some 0)). lia.
Qed.
Print Assumptions c106_validity_refuted.

(** Replacing the variables of a model: the first columns stay, components follow; the data for prediction is treated alike; a model with a constant among the replaced variables is refused. *)
Theorem c106_for_model svd junk o n k0 X F c X' F' : for_model svd junk o n k0 X F = Ok (Some (c, X', F')) ->
  exists g r d, o_ignore o = Z.of_nat g /\ (g < k0)%nat /\
    pca_calculate svd junk (Pca true true true true) n (k0 - g) (fun i j => X i (g + j)%nat) (match F with Some (nf, q, G) => Some (nf, (q - g)%nat, fun i j => G i (g + j)%nat) | None => None end) = Ok (Some r) /\
    r_k r = (k0 - g)%nat /\ final_count o (ratio_list (Some r)) = Ok (Z.of_nat d) /\ (d <= k0 - g)%nat /\ c = (g + d)%nat /\
    (forall j, (g <= j < k0)%nat -> ~ constant n (col X j)) /\
    (forall i j, (j < g)%nat -> X' i j = X i j) /\ (forall i l, (l < d)%nat -> X' i (g + l)%nat = r_pcs r i l) /\
    match F with
    | None => F' = None
    | Some (nf, q, G) => q = k0 /\ exists G', F' = Some G' /\ ((0 < nf)%nat -> exists f, r_forecasts r = Some f /\ (forall i j, (j < g)%nat -> G' i j = G i j) /\ (forall i l, (l < d)%nat -> G' i (g + l)%nat = f i l))
    end.
Proof.
  unfold for_model. destruct (match F with Some (_, c, _) => negb (c =? k0)%nat | None => false end) eqn:EF; [discriminate|].
  destruct (Z.leb_spec (Z.of_nat k0) (o_ignore o)) as [|G1]; [discriminate|]. destruct (Z.ltb_spec (o_ignore o) 0) as [|G0]; [discriminate|]. cbv zeta.
  set (g := Z.to_nat (o_ignore o)). assert (Eg : o_ignore o = Z.of_nat g) by lia.
  destruct (pca_calculate svd junk _ n (k0 - g) _ _) as [[r|]| |] eqn:EP; cbn [bind]; try discriminate.
  destruct (r_removed r) as [|? ?] eqn:ER; cbn [negb]; [|discriminate].
  destruct (final_count o (ratio_list (Some r))) as [d| |] eqn:Ed; cbn [bind]; try discriminate.
  destruct ((d <? 0) || (Z.of_nat (k0 - g) <? d))%Z%bool eqn:EB; [discriminate|]. apply Bool.orb_false_iff in EB. destruct EB as [B1 B2]. apply Z.ltb_ge in B1, B2.
  intros H. apply (f_equal (fun x => match x with Ok (Some x) => x | _ => (c, X', F') end)) in H. cbv beta iota in H.
  pose proof (f_equal (fun x => fst (fst x)) H) as Hc. pose proof (f_equal (fun x => snd (fst x)) H) as HX. pose proof (f_equal snd H) as HF. cbn [fst snd] in Hc, HX, HF. clear H.
  destruct (calc_inv _ _ _ _ _ _ _ _ EP) as (z & s & vt & E & K & RR & M & N & _ & _ & _ & _ & _ & _ & _ & HFo).
  unfold pca_data in E. cbn [p_center p_scale p_rz orb] in E. pose proof (c105_kept _ _ _ _ _ _ _ N E) as (_ & _ & KI & RI).
  assert (NC : forall j, (j < k0 - g)%nat -> ~ constant n (col (fun i j => X i (g + j)%nat) j)).
  { intros j Hj C. assert (I : In j (z_removed z)) by (apply RI; auto). rewrite <- RR, ER in I. destruct I. }
  assert (KK : r_k r = (k0 - g)%nat).
  { rewrite K. assert (KS : z_kept z = seq 0 (k0 - g)).
    { unfold standardize in E. destruct ((k0 - g =? 0) || (n =? 0))%nat%bool; [discriminate E|]. apply (f_equal (fun x => match x with Ok z => z | _ => z end)) in E. cbv beta iota zeta in E. rewrite <- E. cbn [z_kept]. apply filter_all.
      intros j Hj. apply in_seq in Hj. cbn [andb]. apply Bool.negb_true_iff, Bool.not_true_iff_false. intros Q. apply (is_zero_spec n _ j N) in Q. apply (NC j ltac:(lia)), Q. }
    rewrite KS. apply seq_length. }
  exists g, r, (Z.to_nat d). split; [exact Eg|]. split; [lia|]. split; [exact EP|]. split; [exact KK|]. split; [rewrite Ed; f_equal; lia|]. split; [lia|]. split; [symmetry; exact Hc|]. split; [|split; [|split]].
  - intros j Hj C. apply (NC (j - g)%nat ltac:(lia)). unfold col in *. replace (g + (j - g))%nat with j by lia. exact C.
  - intros i j Hj. rewrite <- HX. destruct (Nat.ltb_spec j g); [reflexivity|lia].
  - intros i l Hl. rewrite <- HX. destruct (Nat.ltb_spec (g + l) g); [lia|]. f_equal. lia.
  - destruct F as [[[nf q] G]|]; [|symmetry; exact HF]. apply Bool.negb_false_iff, Nat.eqb_eq in EF. split; [exact EF|]. rewrite <- HF. destruct (r_forecasts r) as [f|].
    + eexists. split; [reflexivity|]. intros _. exists f. split; [reflexivity|]. split.
      * intros i j Hj. destruct (Nat.ltb_spec j g); [reflexivity|lia].
      * intros i l Hl. destruct (Nat.ltb_spec (g + l) g); [lia|]. f_equal. lia.
    + eexists. split; [reflexivity|]. intros Hn. exfalso. destruct HFo as [_ HFo]. destruct (Nat.eqb_spec nf 0); [lia|]. destruct HFo as (zf & _ & W). discriminate W.
Qed.
Print Assumptions c106_for_model.
Theorem c106_constant svd junk o n k0 X F j : (2 <= n)%nat -> (0 <= o_ignore o)%Z -> (o_ignore o <= Z.of_nat j < Z.of_nat k0)%Z -> constant n (col X j) -> for_model svd junk o n k0 X F = Throw.
Proof.
  intros N G0 G1 C. unfold for_model. destruct (match F with Some (_, c, _) => negb (c =? k0)%nat | None => false end); [reflexivity|].
  destruct (Z.leb_spec (Z.of_nat k0) (o_ignore o)) as [|G2]; [reflexivity|]. destruct (Z.ltb_spec (o_ignore o) 0) as [|_]; [lia|]. cbv zeta. set (g := Z.to_nat (o_ignore o)).
  destruct (pca_calculate svd junk _ n (k0 - g) _ _) as [[r|]| |] eqn:EP; cbn [bind]; try reflexivity.
  - destruct (calc_inv _ _ _ _ _ _ _ _ EP) as (z & _ & _ & E & _ & RR & _). unfold pca_data in E. cbn [p_center p_scale p_rz orb] in E. pose proof (c105_kept _ _ _ _ _ _ _ N E) as (_ & _ & _ & RI).
    assert (I : In (j - g)%nat (z_removed z)). { apply RI. split; [lia|]. split; [reflexivity|]. split; [reflexivity|]. unfold col in *. replace (g + (j - g))%nat with j by lia. exact C. }
    rewrite <- RR in I. destruct (r_removed r); [destruct I|reflexivity].
  - exfalso. unfold pca_calculate in EP. match type of EP with (if ?b then _ else _) = _ => destruct b; [discriminate|] end.
    destruct (pca_data _ n (k0 - g) _) as [z| |] eqn:E; cbn [bind] in EP; try discriminate. cbv zeta in EP. destruct (length (z_kept z) =? 0)%nat; [discriminate|].
    unfold pca_data in E. cbn [p_center p_scale p_rz orb] in E. pose proof (c105_kept _ _ _ _ _ _ _ N E) as (_ & _ & KI & _).
    rewrite numbers_true in EP.
    + cbn [negb] in EP. destruct (svd _ _ _) as [[s vt]|]; [|discriminate]. destruct (Nat.eqb_spec n 1); [lia|].
      match type of EP with (do f <- ?x; _) = _ => destruct x; discriminate EP end.
    + intros i q _ Hq W. destruct (c105_standard _ _ _ _ _ _ N E Hq) as [A _]. pose proof (proj1 (KI (nth q (z_kept z) 0%nat)) (nth_In _ _ Hq)) as [_ NC].
      destruct A as (y & Hy & _). { intros Cx. apply NC. auto. } rewrite Hy in W. discriminate W.
  - exfalso. unfold pca_calculate in EP. match type of EP with (if ?b then _ else _) = _ => destruct b; [discriminate|] end.
    unfold pca_data in EP. cbn [p_center p_scale p_rz orb] in EP. unfold standardize at 1 in EP. destruct ((k0 - g =? 0) || (n =? 0))%nat%bool eqn:D0; [discriminate|]. cbn [bind] in EP. cbv zeta in EP.
    match type of EP with (if ?b then _ else _) = _ => destruct b; [discriminate|] end. match type of EP with (if ?b then _ else _) = _ => destruct b; [discriminate|] end.
    destruct (svd _ _ _) as [[s vt]|]; [|discriminate]. destruct (n =? 1)%nat; [discriminate|].
    match type of EP with (do f <- ?x; _) = _ => destruct x as [?| |] eqn:EX; try discriminate EP end.
    destruct F as [[[nf q] G]|]; [|discriminate EX]. destruct (Nat.eqb_spec nf 0); [discriminate EX|]. apply Bool.orb_false_iff in D0. destruct D0 as [D0 _]. apply Nat.eqb_neq in D0.
    match type of EX with (do zf <- standardize ?a ?b ?c ?d ?e ?f ?g ?h; _) = _ => destruct (standardize_def a b c d e f g h ltac:(lia) ltac:(lia)) as [zf Ez] end.
    rewrite Ez in EX. discriminate EX.
Qed.
Print Assumptions c106_constant.

(** A number of components that passes the checks (discrete_choice_extended.cpp:36-41: less than the number of variables) can be greater than the number of replaced variables. *)
Definition ex_M : mtx := fun i j => if (j <? 2)%nat then 1 else ex_D i (j - 2)%nat.
Theorem c106_too_many_refuted : exists svd o X, svd_sound svd /\ check_validity o = Ok tt /\ enabled o = true /\ (forall l, exists c, final_count o l = Ok c /\ (c < 4)%Z) /\
  (forall junk, for_model svd junk o 3 4 X None = UB) /\ (forall junk, exists r, for_model svd junk (Popts 2 2 0 100000) 3 4 X None = Ok (Some r)).
Proof.
  exists svd2, (Popts 2 3 0 100000), ex_M. split; [exact svd2_sound|]. unfold check_validity, enabled. cbn [o_ignore o_exact o_rate o_max Z.eqb negb orb].
  split; [reflexivity|]. split; [reflexivity|]. split; [intros l; exists 3%Z; split; [reflexivity|lia]|].
  assert (P : forall junk, exists r, pca_calculate svd2 junk (Pca true true true true) 3 2 (fun i j => ex_M i (2 + j)%nat) None = Ok (Some r) /\ r_removed r = []).
  { intros junk. assert (U : used (Pca true true true true) 3 2 (fun i j => ex_M i (2 + j)%nat) 2 ex_Y).
    { destruct (ex_used true) as (z & E & K & V). unfold pca_data in E. cbn [p_center p_scale p_rz orb] in E.
      destruct (standardize_def true true true None None 3 2 (fun i j => ex_M i (2 + j)%nat) ltac:(lia) ltac:(lia)) as [z' E'].
      assert (HX : forall i j, (i < 3)%nat -> (j < 2)%nat -> (fun i j => ex_M i (2 + j)%nat) i j = (fun _ => 1) j * ex_D i j + (fun _ => 0) j).
      { intros i j Hi Hj. unfold ex_M. destruct (Nat.ltb_spec (2 + j) 2); [lia|]. replace (2 + j - 2)%nat with j by lia. ring. }
      destruct (c105_units true 3 2 ex_D _ z z' (fun _ => 1) (fun _ => 0) ltac:(lia) ltac:(intros; lra) HX E E') as (K1 & _ & V1).
      exists z'. split; [exact E'|]. split; [rewrite K1; exact K|]. intros i j Hi Hj. rewrite V1 by (try rewrite <- K; easy). apply V; easy. }
    destruct (c104_total_function svd2 junk _ 3 2 _ None ex_Y 2 _ _ U ltac:(lia) ltac:(lia) I ex_svd) as (r & H & K). exists r. split; [exact H|].
    destruct (calc_inv _ _ _ _ _ _ _ _ H) as (z & _ & _ & E & _ & RR & _). rewrite RR. unfold pca_data in E. cbn [p_center p_scale p_rz orb] in E.
    pose proof (c105_kept _ _ _ _ _ _ _ (le_S _ _ (le_n 2)) E) as (_ & _ & _ & RI). destruct (z_removed z) as [|j t]; [reflexivity|]. exfalso. destruct (proj1 (RI j) (or_introl eq_refl)) as (Hj & _ & _ & C).
    pose proof (C 0%nat 1%nat ltac:(lia) ltac:(lia)) as W. apply two in Hj. unfold col, ex_M, ex_D in W. destruct Hj as [ -> | -> ]; cbn in W; lra. }
  split; intros junk; destruct (P junk) as (r & H & R).
  - unfold for_model. cbn [o_ignore Z.of_nat Z.leb Z.ltb Z.compare Pos.of_succ_nat Pos.succ Pos.compare Pos.compare_cont]. change (Z.to_nat 2) with 2%nat. cbv zeta. change (4 - 2)%nat with 2%nat. rewrite H. cbn [bind]. rewrite R. reflexivity.
  - unfold for_model. cbn [o_ignore Z.of_nat Z.leb Z.ltb Z.compare Pos.of_succ_nat Pos.succ Pos.compare Pos.compare_cont]. change (Z.to_nat 2) with 2%nat. cbv zeta. change (4 - 2)%nat with 2%nat. rewrite H. cbn [bind]. rewrite R. eexists. reflexivity.
Qed.
Print Assumptions c106_too_many_refuted.

(** ** Buffers *)
Local Open Scope Z_scope.
Definition disjoint (a b : part) : Prop := fst a + snd a <= fst b \/ fst b + snd b <= fst a.
Definition inside (size : Z) (a : part) : Prop := 0 <= fst a /\ fst a + snd a <= size.
Lemma sq_mono k c : 0 <= k <= c -> k * k <= c * c. Proof. nia. Qed.
Lemma mul_mono a b c d : 0 <= a <= c -> 0 <= b <= d -> 0 <= a * b <= c * d. Proof. nia. Qed.
(** A concrete case: the parts follow each other. *)
Example c106_buffers_ex : pca_sizes (Pca true true true true) 10 3 2 = (87, 68) /\ pca_parts (Pca true true true true) 10 3 10 3 3 2 = [(0, 36); (36, 3); (39, 9); (48, 3); (51, 30); (81, 6)].
Proof. vm_compute. split; reflexivity. Qed.
(** Data within the announced dimensions, of which k columns are left: it is accepted, the results lie in the storage and do not overlap, and the work array is not exceeded. *)
Theorem c106_buffers p R C NF rows cols k nf : 0 < rows <= R -> 0 < cols <= C -> 0 <= nf <= NF -> 0 <= k <= cols ->
  pca_fits p R C NF rows cols nf = true /\
  Forall (inside (fst (pca_sizes p R C NF))) (pca_parts p R C rows cols k nf) /\ ForallOrdPairs disjoint (pca_parts p R C rows cols k nf) /\
  Forall (Forall (inside (snd (pca_sizes p R C NF)))) (pca_work_parts p rows cols k nf) /\ Forall (ForallOrdPairs disjoint) (pca_work_parts p rows cols k nf).
Proof.
  intros HR HC HN HK.
  pose proof (mul_mono rows cols R C ltac:(lia) ltac:(lia)) as P1. pose proof (mul_mono rows k rows cols ltac:(lia) ltac:(lia)) as P2. pose proof (mul_mono nf cols NF C ltac:(lia) ltac:(lia)) as P3.
  pose proof (mul_mono nf k nf cols ltac:(lia) ltac:(lia)) as P4. pose proof (mul_mono k k cols cols ltac:(lia) ltac:(lia)) as P5. pose proof (mul_mono cols cols C C ltac:(lia) ltac:(lia)) as P6.
  assert (W : svd_work rows cols <= svd_work R C /\ svd_work rows k <= svd_work rows cols) by (unfold svd_work; lia).
  assert (W0 : 0 <= svd_work rows k) by (unfold svd_work; lia). assert (W1 : 0 <= svd_work R C) by (unfold svd_work; lia).
  destruct p as [pc rz ce sc]. unfold pca_fits, pca_sizes, pca_parts, pca_work_parts, std_storage. cbn [p_pcs p_center p_scale fst snd].
  split; [|split; [|split; [|split]]].
  - destruct ce, sc, pc; cbn [orb andb]; destruct (Z.ltb_spec 0 nf), (Z.ltb_spec 0 NF); try lia; cbn [andb];
      repeat match goal with |- context [Z.ltb ?a ?b] => destruct (Z.ltb_spec a b) end; cbn [orb negb andb]; try lia; try reflexivity; apply Z.leb_le; lia.
  - destruct ce, sc, pc; cbn [orb andb app]; destruct (Z.ltb_spec 0 nf), (Z.ltb_spec 0 NF); try lia; cbn [andb app]; repeat constructor; unfold inside; cbn [fst snd]; lia.
  - assert (M0 : 0 <= Z.min rows k) by lia. generalize dependent (Z.min rows k). intros mn M0. clear W W0 W1.
    generalize dependent (rows * k). generalize dependent (nf * k). generalize dependent (k * k). generalize dependent (R * C). generalize dependent (rows * cols). intros.
    destruct ce, sc, pc; cbn [orb andb app]; destruct (Z.ltb_spec 0 nf); cbn [andb app]; repeat constructor; unfold disjoint; cbn [fst snd]; lia.
  - destruct ce, sc; cbn [orb andb app]; destruct (Z.ltb_spec 0 nf), (Z.ltb_spec 0 NF); try lia; cbn [andb app]; repeat constructor; unfold inside; cbn [fst snd]; lia.
  - destruct ce, sc; cbn [orb andb app]; destruct (Z.ltb_spec 0 nf); cbn [andb app]; repeat constructor; unfold disjoint; cbn [fst snd]; lia.
Qed.
Print Assumptions c106_buffers.
(** The decomposition of n x k data gets, besides the copy of the data, as much as LAPACK's documentation of dgesvd asks for: LWORK >= max (1, 3 min (n, k) + max (n, k), 5 min (n, k)). *)
Theorem c106_lwork rows cols : 0 < rows -> 0 < cols -> svd_work rows cols - rows * cols >= Z.max 1 (Z.max (3 * Z.min rows cols + Z.max rows cols) (5 * Z.min rows cols)).
Proof. unfold svd_work. lia. Qed.
Print Assumptions c106_lwork.
(** The check of the sizes alone does not protect the storage: 2 x 10 data is accepted by an object made for 100 x 1, and written after the end. *)
Theorem c106_size_check_refuted : let p := Pca true true true true in pca_fits p 100 1 0 2 10 0 = true /\ ~ Forall (inside (fst (pca_sizes p 100 1 0))) (pca_parts p 100 1 2 10 10 0).
Proof. split; [vm_compute; reflexivity|]. intros H. rewrite Forall_forall in H. pose proof (H (206, 20) ltac:(vm_compute; tauto)) as K. vm_compute in K. destruct K as [_ K]. apply K. reflexivity. Qed.
Print Assumptions c106_size_check_refuted.
