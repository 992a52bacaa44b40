(** Proofs: differences and their inverse. *)
From Verif Require Import VarmaModel VarmaSpec PolyProofs MatProofs MatProofs2 MatDotProofs MatProofs6 VarmaProofs.
From Coq Require Import Lia.
Local Open Scope Z_scope.

(** [M'] is [M] with the elements [f]. *)
Definition turns (M : mat Qc) (f : Z -> Z -> Qc) (M' : mat Qc) : Prop := becomes M (fun i j => Some (f i j)) M'.
Lemma turns_inside M f M' i j : turns M f M' -> (inside M' i j <-> inside M i j).
Proof. intros [B1 B2 _ _ _]. unfold inside, nrows, ncols. rewrite B1, B2. reflexivity. Qed.
Lemma turns_el M f M' i j : turns M f M' -> inside M i j -> el M' i j = f i j.
Proof. intros B H. unfold el. rewrite (bc_entry _ _ _ B); auto. Qed.
Lemma turns_ok M f M' : mat_ok M -> turns M f M' -> mat_ok M'.
Proof. apply becomes_ok. Qed.
Lemma turns_nrows M f M' : turns M f M' -> nrows M' = nrows M. Proof. intros B. unfold nrows. rewrite (bc_rows _ _ _ B). auto. Qed.
Lemma turns_ncols M f M' : turns M f M' -> ncols M' = ncols M. Proof. intros B. unfold ncols. rewrite (bc_cols _ _ _ B). auto. Qed.
Lemma turns_trans M f M1 g M2 : turns M f M1 -> turns M1 g M2 -> turns M g M2.
Proof.
  intros B1 B2. constructor.
  - rewrite (bc_rows _ _ _ B2). apply (bc_rows _ _ _ B1).
  - rewrite (bc_cols _ _ _ B2). apply (bc_cols _ _ _ B1).
  - rewrite (bc_length _ _ _ B2). apply (bc_length _ _ _ B1).
  - intros i j H. apply (bc_entry _ _ _ B2). apply (turns_inside _ _ _ _ _ B1). auto.
  - intros k H. rewrite (bc_behind _ _ _ B2); [apply (bc_behind _ _ _ B1); auto|]. rewrite (bc_rows _ _ _ B1), (bc_cols _ _ _ B1). auto.
Qed.
Lemma turns_ext M f g M' : turns M f M' -> (forall i j, inside M i j -> f i j = g i j) -> turns M g M'.
Proof. intros B H. eapply becomes_ext; [exact B|]. cbn. intros. f_equal. auto. Qed.
Lemma turns_id M : mat_ok M -> turns M (el M) M.
Proof. intros W. constructor; auto. intros. apply entry_el; auto. Qed.
Lemma set0_ok M i j v : mat_ok M -> inside M i j -> exists M', set0 M i j v = Ok M' /\ turns M (fun a b => if (a =? i) && (b =? j) then v else el M a b) M'.
Proof.
  intros W H. destruct (set_spec M i j v W) as [(_ & M' & E & B)|(N & _)]; [|tauto]. exists M'. split.
  - unfold set in E. destruct (outside M i j) eqn:O; [discriminate|auto].
  - eapply becomes_ext; [exact B|]. cbn. intros a b Hab. destruct ((a =? i) && (b =? j)); auto. apply entry_el; auto.
Qed.
Lemma column_ok M j v : mat_ok M -> 0 <= j < ncols M -> exists M', mwrites M (map (fun r => (pos M r j, Ok v)) (zrange 0 (nrows M))) = Ok M' /\
  turns M (fun a b => if b =? j then v else el M a b) M'.
Proof.
  intros W H. destruct (mwrites_ok (fun a b => Some (if b =? j then v else el M a b)) (map (fun r => (pos M r j, Ok v)) (zrange 0 (nrows M))) M W) as (M' & E & B); eauto.
  - intros p e Hp. apply in_map_iff in Hp as (r & [= <- <-] & Hr). apply in_zrange in Hr. exists r, j, v. rewrite Z.eqb_refl. split; [split; lia|auto].
  - intros a b (Ha & Hb). destruct (Z.eqb_spec b j) as [-> |N].
    + left. rewrite map_map. apply in_map_iff. exists a. split; auto. apply in_zrange. lia.
    + right. apply entry_el; auto. split; auto.
Qed.

(** ** Difference *)
Lemma diff_elem_ok y j : mat_ok y -> forall c h S row col, mat_ok S -> inside S row col -> 0 <= j < nrows y -> h < ncols y -> Z.of_nat (length c) <= h + 1 ->
  exists S', diff_elem c y j h row col S = Ok S' /\ turns S (fun a b => if (a =? row) && (b =? col) then (el S row col + lag_sum c (el y j) h)%Qc else el S a b) S'.
Proof.
  intros Wy. induction c as [|x c IH]; intros h S row col W H Hj H1 H2.
  - exists S. split; auto. eapply turns_ext; [apply turns_id; auto|]. cbn. intros a b _. destruct ((a =? row) && (b =? col)) eqn:E; auto. replace a with row by lia. replace b with col by lia. ring.
  - cbn [length] in H2. cbn [diff_elem]. rewrite (el_get0 S) by auto. cbn [bind]. rewrite (el_get0 y) by (auto; split; lia). cbn [bind].
    destruct (set0_ok S row col (el S row col + x * el y j h)%Qc W H) as (S1 & E1 & B1). rewrite E1. cbn [bind].
    destruct (IH (h - 1) S1 row col) as (S2 & E2 & B2); auto; try lia; [eapply turns_ok; eauto|eapply turns_inside; eauto|]. exists S2. split; auto.
    eapply turns_ext; [eapply turns_trans; eauto|]. intros a b Hab. cbn beta.
    rewrite (turns_el _ _ _ _ _ B1 H), (turns_el _ _ _ _ _ B1 Hab). cbn beta. rewrite !Z.eqb_refl. cbn [andb lag_sum]. destruct ((a =? row) && (b =? col)); auto. ring.
Qed.
Lemma diff_rows_ok c y g i : mat_ok y -> g = Z.of_nat (length c) - 1 -> g <= i < ncols y -> forall js S, mat_ok S -> nrows S = nrows y -> i - g < ncols S -> NoDup js -> Forall (fun j => 0 <= j < nrows y) js ->
  exists S', diff_rows c y g i js S = Ok S' /\ turns S (fun a b => if in_dec Z.eq_dec a js then (if b =? i - g then (el S a b + lag_sum c (el y a) i)%Qc else el S a b) else el S a b) S'.
Proof.
  intros Wy EG Hi. induction js as [|j js IH]; intros S W NR HC ND F.
  - exists S. split; auto. eapply turns_ext; [apply turns_id; auto|]. auto.
  - inversion ND as [|? ? NI ND']; subst. inversion F as [|? ? Fj F']; subst. cbn [diff_rows]. set (g := Z.of_nat (length c) - 1) in *.
    assert (IN : inside S j (i - g)) by (split; lia).
    destruct (diff_elem_ok y j Wy c i S j (i - g) W IN Fj) as (S1 & E1 & B1); try lia. rewrite E1. cbn [bind].
    destruct (IH S1) as (S2 & E2 & B2); auto; [eapply turns_ok; eauto|rewrite (turns_nrows _ _ _ B1); auto|rewrite (turns_ncols _ _ _ B1); auto|]. exists S2. split; auto.
    eapply turns_ext; [eapply turns_trans; eauto|]. intros a b Hab. cbn beta. rewrite (turns_el _ _ _ _ _ B1 Hab). cbn beta. destruct (in_dec Z.eq_dec a (j :: js)) as [I|I]; destruct (in_dec Z.eq_dec a js) as [I'|I'].
    + assert (a <> j) by congruence. destruct (Z.eqb_spec a j); [lia|]. auto.
    + assert (a = j) as -> by (destruct I; congruence). rewrite Z.eqb_refl. cbn [andb]. destruct (Z.eqb_spec b (i - g)) as [-> |]; auto.
    + exfalso. apply I. cbn. auto.
    + assert (a <> j) by (intros ->; apply I; cbn; auto). destruct (Z.eqb_spec a j); [lia|]. auto.
Qed.
Lemma zrange_NoDup a n : NoDup (zrange a n).
Proof. unfold zrange. apply FinFun.Injective_map_NoDup; [intros x y; lia|apply seq_NoDup]. Qed.
Lemma zrange_F a n : Forall (fun j => a <= j < a + n) (zrange a n).
Proof. apply Forall_forall. intros j H. apply in_zrange in H. auto. Qed.
Lemma diff_cols_ok c y g : mat_ok y -> g = Z.of_nat (length c) - 1 -> 0 <= g -> forall is S, mat_ok S -> nrows S = nrows y -> ncols y - g <= ncols S -> NoDup is -> Forall (fun i => 0 <= i < ncols y) is ->
  exists S', diff_cols c y g is S = Ok S' /\ turns S (fun a b => if in_dec Z.eq_dec (b + g) is then lag_sum c (el y a) (b + g) else el S a b) S'.
Proof.
  intros Wy EG G0. induction is as [|i is IH]; intros S W NR NC ND F.
  - exists S. split; auto. eapply turns_ext; [apply turns_id; auto|]. auto.
  - inversion ND as [|? ? NI ND']; subst. inversion F as [|? ? Fj F']; subst. cbn [diff_cols]. set (g := Z.of_nat (length c) - 1) in *. destruct (Z.ltb_spec i g).
    + destruct (IH S) as (S2 & E2 & B2); auto. exists S2. split; auto. eapply turns_ext; [eauto|]. intros a b (_ & Hb). cbn beta. destruct (in_dec Z.eq_dec (b + g) (i :: is)) as [X|X]; destruct (in_dec Z.eq_dec (b + g) is) as [X'|X']; auto.
      * destruct X; [lia|tauto].
      * exfalso. apply X. cbn. auto.
    + destruct (column_ok S (i - g) 0%Qc W) as (S1 & E1 & B1); [lia|]. rewrite E1. cbn [bind].
      destruct (diff_rows_ok c y g i Wy eq_refl ltac:(lia) (zrange 0 (nrows y)) S1) as (S2 & E2 & B2); auto using zrange_NoDup; [eapply turns_ok; eauto|rewrite (turns_nrows _ _ _ B1); auto|rewrite (turns_ncols _ _ _ B1); lia|eapply Forall_impl; [|apply zrange_F]; cbn; intros; lia|].
      rewrite E2. cbn [bind]. assert (B12 := turns_trans _ _ _ _ _ B1 B2).
      destruct (IH S2) as (S3 & E3 & B3); auto; [eapply turns_ok; eauto|rewrite (turns_nrows _ _ _ B12); auto|rewrite (turns_ncols _ _ _ B12); auto|]. exists S3. split; auto.
      eapply turns_ext; [eapply turns_trans; eauto|]. intros a b Hab. cbn beta. rewrite (turns_el _ _ _ _ _ B12 Hab). cbn beta. rewrite (turns_el _ _ _ _ _ B1 Hab). cbn beta.
      destruct (in_dec Z.eq_dec (b + g) (i :: is)) as [X|X]; destruct (in_dec Z.eq_dec (b + g) is) as [X'|X']; auto.
      * assert (i = b + g) as -> by (destruct X; [auto|tauto]). destruct (Z.eqb_spec b (b + g - g)); [|lia]. destruct (in_dec Z.eq_dec a (zrange 0 (nrows y))) as [Y|Y]; [ring|]. exfalso. apply Y, in_zrange. destruct Hab. lia.
      * exfalso. apply X. cbn. auto.
      * assert (i <> b + g) by (intros ->; apply X; cbn; auto). destruct (Z.eqb_spec b (i - g)); [lia|]. destruct (in_dec Z.eq_dec a (zrange 0 (nrows y))); auto.
Qed.
Lemma difference_ok c y S : mat_ok y -> mat_ok S -> (1 <= length c)%nat -> nrows S = nrows y -> ncols S = ncols y - (Z.of_nat (length c) - 1) ->
  exists S', difference c y S = Ok S' /\ turns S (fun i t => lag_sum c (el y i) (t + (Z.of_nat (length c) - 1))) S'.
Proof.
  intros Wy W L NR NC. destruct (diff_cols_ok c y (Z.of_nat (length c) - 1) Wy eq_refl ltac:(lia) (zrange 0 (ncols y)) S) as (S' & E & B); auto using zrange_NoDup; try lia.
  - eapply Forall_impl; [|apply zrange_F]. cbn. intros. lia.
  - exists S'. split; auto. eapply turns_ext; [exact B|]. intros a b (Ha & Hb). cbn beta. destruct (in_dec Z.eq_dec _ _) as [X|X]; auto. exfalso. apply X, in_zrange. lia.
Qed.

(** ** UnDiferences *)
Lemma undiff_rows_ok d k j : 1 <= k -> forall is S, mat_ok S -> 0 <= j < ncols S -> 0 <= j - k -> NoDup is -> Forall (fun i => 0 <= i < nrows S) is ->
  exists S', undiff_rows d k j is S = Ok S' /\ turns S (fun a b => if in_dec Z.eq_dec a is then (if b =? j then (el S a j - d * el S a (j - k))%Qc else el S a b) else el S a b) S'.
Proof.
  intros K. induction is as [|i is IH]; intros S W Hj HK ND F.
  - exists S. split; auto. eapply turns_ext; [apply turns_id; auto|]. auto.
  - inversion ND as [|? ? NI ND']; subst. inversion F as [|? ? Fj F']; subst. cbn [undiff_rows]. rewrite !el_get0 by (auto; split; lia). cbn [bind].
    destruct (set0_ok S i j (el S i j - d * el S i (j - k))%Qc W) as (S1 & E1 & B1); [split; lia|]. rewrite E1. cbn [bind].
    destruct (IH S1) as (S2 & E2 & B2); auto; [eapply turns_ok; eauto|rewrite (turns_ncols _ _ _ B1); auto|rewrite (turns_nrows _ _ _ B1); auto|]. exists S2. split; auto.
    eapply turns_ext; [eapply turns_trans; eauto|]. intros a b Hab. cbn beta. assert (Ha := Hab). destruct Ha as (Ha & Hb). rewrite !(turns_el _ _ _ _ _ B1) by (auto; split; lia). cbn beta. rewrite Z.eqb_refl.
    destruct (in_dec Z.eq_dec a (i :: is)) as [X|X]; destruct (in_dec Z.eq_dec a is) as [X'|X'].
    + assert (a <> i) by congruence. destruct (Z.eqb_spec a i); [lia|]. auto.
    + assert (a = i) as -> by (destruct X; congruence). rewrite Z.eqb_refl. cbn [andb]. destruct (Z.eqb_spec b j) as [-> |]; auto.
    + exfalso. apply X. cbn. auto.
    + assert (a <> i) by (intros ->; apply X; cbn; auto). destruct (Z.eqb_spec a i); [lia|]. auto.
Qed.
Lemma undiff_lags_ok j : forall c k S, 1 <= k -> mat_ok S -> 0 <= j < ncols S -> Z.of_nat (length c) + k - 1 <= j ->
  exists S', undiff_lags c k j S = Ok S' /\ turns S (fun a b => if b =? j then (el S a j - lag_sum c (el S a) (j - k))%Qc else el S a b) S'.
Proof.
  induction c as [|d c IH]; intros k S K W Hj HL.
  - exists S. split; auto. eapply turns_ext; [apply turns_id; auto|]. cbn. intros a b _. destruct (Z.eqb_spec b j) as [-> |]; auto. ring.
  - cbn [length] in HL. cbn [undiff_lags]. destruct (undiff_rows_ok d k j K (zrange 0 (nrows S)) S W Hj ltac:(lia) (zrange_NoDup _ _)) as (S1 & E1 & B1); [eapply Forall_impl; [|apply zrange_F]; cbn; intros; lia|]. rewrite E1. cbn [bind].
    assert (G : forall a b, inside S a b -> el S1 a b = if b =? j then (el S a j - d * el S a (j - k))%Qc else el S a b).
    { intros a b H. rewrite (turns_el _ _ _ _ _ B1 H). destruct (in_dec Z.eq_dec a (zrange 0 (nrows S))) as [X|X]; auto. exfalso. apply X, in_zrange. destruct H. lia. }
    destruct (IH (k + 1) S1) as (S2 & E2 & B2); try lia; [eapply turns_ok; eauto|rewrite (turns_ncols _ _ _ B1); auto|]. exists S2. split; auto.
    eapply turns_ext; [eapply turns_trans; eauto|]. intros a b Hab. cbn beta. assert (Ha := Hab). destruct Ha as (Ha & Hb). rewrite !G by (auto; split; lia). rewrite Z.eqb_refl. destruct (Z.eqb_spec b j) as [-> |]; auto.
    cbn [lag_sum]. replace (j - k - 1) with (j - (k + 1)) by lia.
    assert (E : lag_sum c (el S1 a) (j - (k + 1)) = lag_sum c (el S a) (j - (k + 1))).
    { clear - G K HL Ha Hj. assert (H1 : j - (k + 1) < j) by lia. assert (H2 : Z.of_nat (length c) <= j - (k + 1) + 1) by lia. revert H1 H2. generalize (j - (k + 1)). induction c as [|x c IH]; intros t H1 H2; auto. cbn [lag_sum length] in *. rewrite IH by lia. rewrite G by (split; lia). destruct (Z.eqb_spec t j); [lia|]. auto. }
    rewrite E. ring.
Qed.
Lemma lag_sum_ext_below c f g t : (forall u, t - Z.of_nat (length c) < u <= t -> f u = g u) -> lag_sum c f t = lag_sum c g t.
Proof. revert t. induction c as [|x c IH]; intros t H; auto. cbn [lag_sum length] in *. rewrite H by lia. rewrite IH; auto. intros u Hu. apply H. lia. Qed.
Lemma undiff_cols_ok c : (1 <= length c)%nat -> let h := Z.of_nat (length c) - 1 in forall n a S, mat_ok S -> 0 <= a -> a + Z.of_nat n = ncols S ->
  exists S', undiff_cols c h (zrange a (Z.of_nat n)) S = Ok S' /\ turns S (el S') S' /\
    (forall i j, inside S i j -> j < a \/ j < h -> el S' i j = el S i j) /\
    (forall i j, inside S i j -> a <= j -> h <= j -> el S' i j = (el S i j - lag_sum (tl c) (el S' i) (j - 1))%Qc).
Proof.
  intros LC h. induction n as [|n IH]; intros a S W A0 EN.
  - exists S. change (zrange a (Z.of_nat 0)) with (@nil Z). split; auto. split; [apply turns_id; auto|]. split; auto. intros i j (_ & H). lia.
  - replace (zrange a (Z.of_nat (Datatypes.S n))) with (a :: zrange (a + 1) (Z.of_nat n)) by (symmetry; rewrite zrange_cons by lia; f_equal; f_equal; lia).
    cbn [undiff_cols]. destruct (Z.ltb_spec a h).
    + destruct (IH (a + 1) S W ltac:(lia) ltac:(lia)) as (S' & E & B & K & R). exists S'. split; auto. split; auto. split.
      * intros i j H1 H2. apply K; auto. lia.
      * intros i j H1 H2 H3. apply R; auto. lia.
    + destruct (undiff_lags_ok a (tl c) 1 S) as (S1 & E1 & B1); auto; try lia; [destruct c; cbn [tl length] in *; lia|]. rewrite E1. cbn [bind].
      assert (NC := turns_ncols _ _ _ B1). destruct (IH (a + 1) S1) as (S' & E & B & K & R); try lia; [eapply turns_ok; eauto|]. exists S'. split; auto. split; [eapply turns_trans; eauto|].
      assert (KK : forall i j, inside S i j -> j <= a -> el S' i j = el S1 i j). { intros i j H1 H2. apply K; [eapply turns_inside; eauto|lia]. }
      split.
      * intros i j H1 H2. rewrite KK by (auto; lia). rewrite (turns_el _ _ _ _ _ B1 H1). destruct (Z.eqb_spec j a); [lia|]. auto.
      * intros i j H1 H2 H3. destruct (Z.eq_dec j a) as [-> |NJ].
        -- rewrite KK by (auto; lia). rewrite (turns_el _ _ _ _ _ B1 H1), Z.eqb_refl. rewrite (lag_sum_ext_below (tl c) (el S' i) (el S i)); auto. intros u Hu. assert (IU : inside S i u) by (destruct H1; split; auto; destruct c; cbn [tl length] in *; lia). rewrite KK by (auto; lia). rewrite (turns_el _ _ _ _ _ B1 IU). destruct (Z.eqb_spec u a); [lia|auto].
        -- rewrite R by (try (eapply turns_inside; eauto); lia). rewrite (turns_el _ _ _ _ _ B1 H1). destruct (Z.eqb_spec j a); [lia|]. auto.
Qed.
Lemma undifference_ok c S : mat_ok S -> (1 <= length c)%nat -> let h := Z.of_nat (length c) - 1 in
  exists S', undifference c S = Ok S' /\ turns S (el S') S' /\
    (forall i j, inside S i j -> j < h -> el S' i j = el S i j) /\
    (forall i j, inside S i j -> h <= j -> el S' i j = (el S i j - lag_sum (tl c) (el S' i) (j - 1))%Qc).
Proof.
  intros W LC h. destruct (undiff_cols_ok c LC (cols S) 0 S W ltac:(lia) ltac:(unfold ncols; lia)) as (S' & E & B & K & R). exists S'. split; [exact E|]. split; auto. split; auto. intros i j H1 H2. apply R; auto. destruct H1. lia.
Qed.
