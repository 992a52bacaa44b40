From Verif Require Import DataSpec DataModel MatProofs MatProofs2 MatProofs3 MatProofs4 MatProofs5 MatProofs6 MatDotProofs ArrSpec ArrProofs.
From Coq Require Import Lia ZifyBool.
Local Open Scope Z_scope.

Lemma bind_Ok' {A B} (r : res A) (f : A -> res B) x : r = Ok x -> bind r f = f x. Proof. intros ->. reflexivity. Qed.
Lemma rd_get {A} (M : mat A) i j : mat_ok M -> inside M i j -> exists v, rd (data M) (i + j * nrows M) = Ok v /\ entry M i j = Some v.
Proof. intros W H. destruct (get0_ok M i j W H) as (v & E & G). exists v. split; auto. unfold get0, pos in G. rewrite <- G. f_equal. ring. Qed.

Lemma no_skip_ok {A} (skip : A -> bool) (M : mat A) i : mat_ok M -> 0 <= i < nrows M -> forall js, Forall (fun j => 0 <= j < ncols M) js ->
  no_skip skip M i js = Ok (forallb (fun j => match entry M i j with Some v => negb (skip v) | None => false end) js).
Proof.
  intros W Hi. induction js as [|k t IH]; intros F; [reflexivity|]. apply Forall_cons_iff in F. destruct F as (Hk & F).
  cbn [no_skip forallb]. destruct (rd_get M i k W (conj Hi Hk)) as (v & E1 & E2). rewrite E1, E2. cbn [bind].
  destruct (skip v); cbn [negb andb]; auto.
Qed.
Lemma nan_row_loop_ok {A} (skip : A -> bool) (M : mat A) js : mat_ok M -> Forall (fun j => 0 <= j < ncols M) js ->
  forall is acc, Forall (fun i => 0 <= i < nrows M) is ->
  nan_row_loop skip M js is acc = Ok (acc ++ filter (fun i => forallb (fun j => match entry M i j with Some v => negb (skip v) | None => false end) js) is).
Proof.
  intros W F. induction is as [|i t IH]; intros acc Fi; [cbn; rewrite app_nil_r; auto|]. apply Forall_cons_iff in Fi. destruct Fi as (Hi & Fi).
  cbn [nan_row_loop]. rewrite no_skip_ok by auto. cbn [bind filter]. rewrite IH by auto.
  destruct (forallb _ js); cbn; rewrite <- ?app_assoc; auto.
Qed.
Lemma zrange_Forall n : Forall (fun i => 0 <= i < n) (zrange 0 n).
Proof. apply Forall_forall. intros x H. apply in_zrange in H. lia. Qed.
Lemma get_any_nan_row_ok {A} (skip : A -> bool) (M : mat A) js : mat_ok M ->
  match js with Some l => Forall (fun j => 0 <= j < ncols M) l | None => True end ->
  get_any_nan_row skip M js = Ok (complete_rows skip M (match js with Some l => l | None => upto (ncols M) end)).
Proof.
  intros W F. unfold get_any_nan_row. rewrite nan_row_loop_ok; auto.
  - destruct js; auto. apply zrange_Forall.
  - apply zrange_Forall.
Qed.
Lemma complete_rows_range {A} (skip : A -> bool) (M : mat A) cs : Forall (fun i => 0 <= i < nrows M) (complete_rows skip M cs).
Proof. unfold complete_rows. apply Forall_forall. intros x H. apply filter_In in H. destruct H as (H & _). apply (in_zrange 0) in H. lia. Qed.
Lemma upto_length n : length (upto n) = Z.to_nat n. Proof. unfold upto. rewrite map_length, seq_length. auto. Qed.
Lemma at_upto n k : 0 <= k < n -> at_index (upto n) k = k.
Proof. intros H. unfold at_index, upto. rewrite nth_indep with (d' := Z.of_nat 0) by (rewrite map_length, seq_length; lia). rewrite map_nth, seq_nth by lia. lia. Qed.
Lemma nrows_mk {A} r c (d : list A) : nrows (Mat r c d) = Z.of_nat r. Proof. reflexivity. Qed.
Lemma ncols_mk {A} r c (d : list A) : ncols (Mat r c d) = Z.of_nat c. Proof. reflexivity. Qed.
Lemma becomes_dims {A} (S S' : mat A) f : becomes S f S' -> nrows S' = nrows S /\ ncols S' = ncols S.
Proof. intros H. unfold nrows, ncols. rewrite (bc_rows _ _ _ H), (bc_cols _ _ _ H). auto. Qed.
Lemma becomes_inside {A} (S S' : mat A) f i j : becomes S f S' -> inside S' i j -> inside S i j.
Proof. intros H. destruct (becomes_dims S S' f H) as (E1 & E2). unfold inside. rewrite E1, E2. auto. Qed.

Lemma copy_to00_ok {A} (M S : mat A) : mat_ok M -> mat_ok S -> nrows S = nrows M -> ncols S = ncols M ->
  exists S', copy_to00 M S = Ok S' /\ becomes S (fun i j => entry M i j) S'.
Proof.
  intros WM WS E1 E2. unfold copy_to00.
  destruct (mwrites_vec S 0 (mlength M) (fun t => rd (data M) t) (fun t => nth_error (data M) (Z.to_nat t))) as (S' & E & R1 & R2 & L); try lia.
  { unfold mlength, mat_ok, nrows, ncols in *. nia. }
  { intros t Ht. destruct (rd_data M t WM ltac:(lia)) as (v & Hv & Hn). exists v. auto. }
  exists S'. split. { rewrite <- E. f_equal. }
  destruct L as (L1 & L2).
  split; auto.
  - intros i j (Hi & Hj). unfold entry at 1. assert (Hb : insideb S' i j = true). { apply inside_b. unfold inside, nrows, ncols in *. rewrite R1, R2. lia. }
    rewrite Hb. rewrite L2. unfold entry. assert (Hb2 : insideb M i j = true). { apply inside_b. unfold inside in *. lia. } rewrite Hb2.
    assert (nrows S' = nrows S) by (unfold nrows; lia). unfold mlength.
    replace ((0 <=? Z.of_nat (Z.to_nat (j * nrows S' + i))) && (Z.of_nat (Z.to_nat (j * nrows S' + i)) <? 0 + nrows M * ncols M)) with true by nia.
    f_equal. f_equal. nia.
  - intros k Hk. rewrite L2. unfold mlength, nrows, ncols in *.
    replace ((0 <=? Z.of_nat k) && (Z.of_nat k <? 0 + Z.of_nat (rows M) * Z.of_nat (cols M))) with false by nia. auto.
Qed.

(** Dataset. *)
Lemma dataset_ok {A} (skip : A -> bool) (has_nan select : bool) (M : mat A) cix storage : mat_ok M ->
  (select = true -> exists cs, cix = Some cs) ->
  let cs := if select then match cix with Some l => l | None => [] end else upto (ncols M) in
  let rs := if has_nan then complete_rows skip M cs else upto (nrows M) in
  Forall (fun j => 0 <= j < ncols M) cs -> (length rs * length cs <= length storage)%nat ->
  exists R, dataset_calculate skip has_nan select M cix storage = Ok R /\ picks M rs cs R.
Proof.
  intros W Hsel cs rs F Hst. unfold dataset_calculate. destruct select.
  - destruct (Hsel eq_refl) as (l & ->). cbn [cs] in *. cbv iota. fold cs. subst cs. destruct has_nan.
    + rewrite (get_any_nan_row_ok skip M (Some l) W F). cbn [bind]. fold rs.
      destruct (get_sub_lists_ok M (Mat (length rs) (length l) storage) rs l 0 0) as (S' & E & B); auto; try lia; try reflexivity.
      { subst rs. apply complete_rows_range. }
      exists S'. split; auto. destruct (becomes_dims _ _ _ B) as (D1 & D2). split; [rewrite D1; auto|]. split; [rewrite D2; auto|].
      intros i j Hin. apply (becomes_inside _ _ _ _ _ B) in Hin. rewrite (bc_entry _ _ _ B i j Hin). destruct Hin as (Hi & Hj). rewrite nrows_mk in Hi. rewrite ncols_mk in Hj.
      unfold in_block. replace ((0 <=? i) && (i <? 0 + Z.of_nat (length rs)) && (0 <=? j) && (j <? 0 + Z.of_nat (length l))) with true by lia.
      rewrite !Z.sub_0_r. auto.
    + assert (HR : nrows M = Z.of_nat (length rs)). { subst rs. rewrite upto_length. unfold nrows. lia. }
      destruct (get_sub_idx_ok M (Mat (rows M) (length l) storage) 0 (nrows M) l true 0 0 false) as (S' & E & B); auto; try lia; try discriminate.
      { unfold mat_ok. cbn [rows cols data]. unfold nrows in HR. replace (rows M) with (length rs) by lia. auto. }
      exists S'. split; auto. destruct (becomes_dims _ _ _ B) as (D1 & D2). split; [rewrite D1, nrows_mk; unfold nrows in HR; lia|]. split; [rewrite D2; auto|].
      intros i j Hin. apply (becomes_inside _ _ _ _ _ B) in Hin. rewrite (bc_entry _ _ _ B i j Hin). destruct Hin as (Hi & Hj). rewrite nrows_mk in Hi. rewrite ncols_mk in Hj.
      unfold in_block, chosen. cbv iota. fold (nrows M) in Hi.
      replace ((0 <=? i) && (i <? 0 + nrows M) && (0 <=? j) && (j <? 0 + Z.of_nat (length l))) with true by lia.
      rewrite !Z.sub_0_r. subst rs. rewrite at_upto by auto. reflexivity.
  - assert (HC : ncols M = Z.of_nat (length cs)). { subst cs. rewrite upto_length. unfold ncols. lia. }
    destruct has_nan.
    + rewrite (get_any_nan_row_ok skip M None W I). cbn [bind]. fold cs. fold rs.
      destruct (get_sub_idx_ok M (Mat (length rs) (cols M) storage) 0 (ncols M) rs false 0 0 false) as (S' & E & B); auto; try lia; try discriminate.
      { unfold mat_ok. cbn [rows cols data]. unfold ncols in HC. replace (cols M) with (length cs) by lia. auto. }
      { subst rs. apply complete_rows_range. }
      exists S'. split; auto. destruct (becomes_dims _ _ _ B) as (D1 & D2). split; [rewrite D1; auto|]. split; [rewrite D2, ncols_mk; unfold ncols in HC; lia|].
      intros i j Hin. apply (becomes_inside _ _ _ _ _ B) in Hin. rewrite (bc_entry _ _ _ B i j Hin). destruct Hin as (Hi & Hj). rewrite nrows_mk in Hi. rewrite ncols_mk in Hj.
      unfold in_block, chosen. cbv iota. fold (ncols M) in Hj.
      replace ((0 <=? i) && (i <? 0 + Z.of_nat (length rs)) && (0 <=? j) && (j <? 0 + ncols M)) with true by lia.
      rewrite !Z.sub_0_r. unfold cs. rewrite at_upto by auto. reflexivity.
    + assert (HR : nrows M = Z.of_nat (length rs)). { subst rs. rewrite upto_length. unfold nrows. lia. }
      destruct (copy_to00_ok M (Mat (rows M) (cols M) storage)) as (S' & E & B); auto.
      { unfold mat_ok. cbn [rows cols data]. unfold ncols, nrows in *. replace (cols M) with (length cs) by lia. replace (rows M) with (length rs) by lia. auto. }
      exists S'. split; auto. destruct (becomes_dims _ _ _ B) as (D1 & D2). rewrite nrows_mk in D1. rewrite ncols_mk in D2. unfold nrows, ncols in HR, HC. split; [lia|]. split; [lia|].
      intros i j Hin. apply (becomes_inside _ _ _ _ _ B) in Hin. rewrite (bc_entry _ _ _ B i j Hin). destruct Hin as (Hi & Hj). rewrite nrows_mk in Hi. rewrite ncols_mk in Hj.
      unfold rs, cs. rewrite !at_upto by auto. reflexivity.
Qed.
