(** Least squares: the calculations of Ols and Gls. *)
From Verif Require Import StatModel StatSpec MatProofs MatProofs2 MatDotProofs DataProofs LsProofs.
From Coq Require Import Lia ZifyBool.
Local Open Scope Z_scope.

Lemma becomes_has (S S' : mat Qc) g f : mat_ok S -> becomes S g S' -> (forall i j, inside S i j -> g i j = Some (f i j)) -> has (rows S) (cols S) f S'.
Proof.
  intros W B G. split; [apply (bc_rows _ _ _ B)|]. split; [apply (bc_cols _ _ _ B)|]. split; [apply (becomes_ok S S' g); auto|].
  intros i j Hi Hj. assert (Hin : inside S i j) by (split; auto). rewrite (el_becomes S S' g i j B Hin), G; auto.
Qed.
Lemma scaled_one p (S : mat Qc) i j : scaled 1 0 p S i j = Some (p i j).
Proof. unfold scaled. f_equal. ring. Qed.

Section Mats.
Context (M B S : mat Qc) (WM : mat_ok M) (WB : mat_ok B) (WS : mat_ok S).
Lemma dot_has : ncols M = nrows B -> nrows S = nrows M -> ncols S = ncols B -> 0 < nrows M -> 0 < ncols M ->
  exists S', dot M B S 1 0 = Ok S' /\ has (rows S) (cols S) (product (ncols M) (el M) (el B)) S'.
Proof using WM WB WS.
  intros. destruct (dot_ok M B S 1 0 WM WB WS) as (S' & E & Bc); auto. exists S'. split; auto. apply (becomes_has S S' _ _ WS Bc). intros. apply scaled_one.
Qed.
Lemma dot00_has : ncols M = nrows B -> nrows S = nrows M -> ncols S = ncols B -> 0 < nrows M -> 0 < ncols M ->
  exists S', dot00 M B S = Ok S' /\ has (rows S) (cols S) (product (ncols M) (el M) (el B)) S'.
Proof using WM WB WS.
  intros H1 H2 H3 H4 H5. replace (dot00 M B S) with (dot M B S 1 0); [apply dot_has; auto|].
  unfold dot, dot00. rewrite H1, H2, H3, !Z.eqb_refl. reflexivity.
Qed.
Lemma dot_tr00_has : ncols M = ncols B -> nrows S = nrows M -> ncols S = nrows B -> 0 < nrows M -> 0 < nrows B ->
  exists S', dot_tr00 M B S = Ok S' /\ has (rows S) (cols S) (product (ncols M) (el M) (el_t B)) S'.
Proof using WM WB WS.
  intros H1 H2 H3 H4 H5. replace (dot_tr00 M B S) with (dot_tr M B S 1 0).
  - destruct (dot_tr_ok M B S 1 0 WM WB WS) as (S' & E & Bc); auto. exists S'. split; auto. apply (becomes_has S S' _ _ WS Bc). intros. apply scaled_one.
  - unfold dot_tr, dot_tr00. rewrite H1, H2, H3, !Z.eqb_refl. reflexivity.
Qed.
Lemma tr_dot_has : nrows M = nrows B -> nrows S = ncols M -> ncols S = ncols B -> 0 < nrows M -> 0 < ncols M ->
  exists S', tr_dot M B S 1 0 = Ok S' /\ has (rows S) (cols S) (product (nrows M) (el_t M) (el B)) S'.
Proof using WM WB WS.
  intros. destruct (tr_dot_ok M B S 1 0 WM WB WS) as (S' & E & Bc); auto. exists S'. split; auto. apply (becomes_has S S' _ _ WS Bc). intros. apply scaled_one.
Qed.
Lemma tr_dot00_has : nrows M = nrows B -> nrows S = ncols M -> ncols S = ncols B -> 0 < nrows M -> 0 < ncols M ->
  exists S', tr_dot00 M B S = Ok S' /\ has (rows S) (cols S) (product (nrows M) (el_t M) (el B)) S'.
Proof using WM WB WS.
  intros H1 H2 H3 H4 H5. replace (tr_dot00 M B S) with (tr_dot M B S 1 0); [apply tr_dot_has; auto|].
  unfold tr_dot, tr_dot00. rewrite H1, H2, H3, !Z.eqb_refl. reflexivity.
Qed.
Lemma subtract_has : nrows B = nrows M -> ncols B = ncols M -> exists S', subtract_from M B = Ok S' /\ has (rows B) (cols B) (fun i j => el M i j - el B i j)%Qc S'.
Proof using WM WB.
  intros H1 H2. destruct (vmap_ok M B (fun k x => do y <- rd (data B) k; Ok (x - y)%Qc) (fun i j => Some (el M i j - el B i j)%Qc) WM WB H1 H2) as (S' & E & Bc).
  - intros i j (Hi & Hj). exists (el M i j - el B i j)%Qc. split; auto. rewrite <- H1, rd_el by (auto; split; lia). reflexivity.
  - exists S'. split; auto. apply (becomes_has B S' _ _ WB Bc). auto.
Qed.
End Mats.

(** The calculations of Resid and Sigma. *)
Lemma mat_ok_from (r c : nat) p d : 0 <= p -> p + Z.of_nat r * Z.of_nat c <= Z.of_nat (length d) -> mat_ok (Mat r c (from p d)).
Proof. intros Hp H. unfold mat_ok, from. cbn [rows cols data]. rewrite skipn_length. lia. Qed.
Definition fit_ok (d : ols_decl) (N m k : nat) (y x b : Z -> Z -> Qc) (F : fit) : Prop :=
  let r := residual (Z.of_nat k) y x b in
  has k m b (f_beta F) /\
  (if with_resid d then exists R, f_resid F = Some R /\ has N m r R else f_resid F = None) /\
  (if o_sigma d then exists S, f_sigma F = Some S /\ has m m (fun i j => sum_to (Z.of_nat N) (fun t => r t i * r t j)%Qc) S else f_sigma F = None).
Lemma fit_rest_ok d (N m k : nat) y x beta storage : mat_ok y -> mat_ok x -> mat_ok beta -> rows y = N -> rows x = N -> cols y = m -> cols x = k -> rows beta = k -> cols beta = m ->
  (0 < k)%nat -> (0 < N)%nat -> (0 < m)%nat -> fit_storage (OD (Z.of_nat N) (Z.of_nat m) (Z.of_nat k) (with_resid d) (o_sigma d) false) <= Z.of_nat (length storage) ->
  exists F, fit_rest d y x beta storage = Ok F /\ f_beta F = beta /\ fit_ok d N m k (el y) (el x) (el beta) F.
Proof.
  intros Wy Wx Wb <- Rx <- <- Rb Cb Hk HN Hm St. set (N := rows y) in *. set (m := cols y) in *. set (k := cols x) in *.
  assert (Hb : has k m (el beta) beta) by (split; [auto|split; [auto|split; auto]]).
  unfold fit_storage in St. cbn [o_k o_m o_N o_sigma o_resid] in St. unfold with_resid in St. cbn [o_sigma o_resid] in St. fold (with_resid d) in St.
  assert (Sw : o_sigma d || with_resid d = with_resid d) by (unfold with_resid; destruct (o_sigma d); reflexivity). rewrite Sw in St.
  unfold fit_rest. destruct (with_resid d) eqn:Wr.
  2:{ assert (Os : o_sigma d = false) by (unfold with_resid in Wr; destruct (o_sigma d); auto). eexists. split; [reflexivity|]. split; [reflexivity|]. unfold fit_ok. cbn [f_beta f_resid f_sigma]. rewrite Wr, Os. auto. }
  assert (W1 : mat_ok (Mat N m (from (ncols x * ncols y) storage))). { apply mat_ok_from; [unfold ncols; lia|]. unfold ncols. fold m k. destruct (o_sigma d); nia. }
  destruct (dot00_has x beta _ Wx Wb W1) as (R1 & E1 & H1); [unfold nrows, ncols; cbn; lia..|].
  fold N m. rewrite E1. cbn [bind]. destruct H1 as (R1r & R1c & R1w & R1e).
  destruct (subtract_has y R1 Wy R1w) as (R2 & E2 & H2); [unfold nrows, ncols; rewrite ?R1r, ?R1c; auto..|]. rewrite E2. cbn [bind].
  assert (H2' : has N m (residual (Z.of_nat k) (el y) (el x) (el beta)) R2).
  { rewrite R1r, R1c in H2. cbn [rows cols] in *. destruct H2 as (A1 & A2 & A3 & A4). split; [auto|split; [auto|split; [auto|]]]. intros i j Hi Hj. rewrite A4, R1e by auto. reflexivity. }
  destruct (o_sigma d) eqn:Os.
  2:{ eexists. split; [reflexivity|]. split; [reflexivity|]. unfold fit_ok. cbn [f_beta f_resid f_sigma]. rewrite Wr, Os. split; auto. split; auto. exists R2. auto. }
  destruct H2' as (A1 & A2 & A3 & A4).
  assert (W3 : mat_ok (Mat m m (from (ncols x * ncols y + nrows y * ncols y) storage))). { apply mat_ok_from; unfold ncols, nrows; fold m k N; nia. }
  destruct (tr_dot_has R2 R2 _ A3 A3 W3) as (S' & E3 & H3); [unfold nrows, ncols; rewrite ?A1, ?A2; cbn; auto; lia..|].
  rewrite E3. cbn [bind]. eexists. split; [reflexivity|]. split; [reflexivity|]. unfold fit_ok. cbn [f_beta f_resid f_sigma]. rewrite Wr, Os. split; auto. split; [exists R2; split; auto; split; auto|].
  exists S'. split; auto. cbn [rows cols] in H3. destruct H3 as (B1 & B2 & B3 & B4). split; [auto|split; [auto|split; [auto|]]]. intros i j Hi Hj. rewrite B4 by auto.
  rewrite product_sum. unfold nrows. rewrite A1. apply st_ext. intros t Ht. unfold el_t. rewrite !A4 by auto. reflexivity.
Qed.
Lemma inv00_ok lapack M M' : lapack_sound lapack -> mat_ok M -> nrows M = ncols M -> inv00 lapack M = Ok M' ->
  rows M' = rows M /\ cols M' = cols M /\ mat_ok M' /\ inverse_of (nrows M) (el M) (el M').
Proof.
  intros Hs W Sq. unfold inv00. destruct (lapack M) as (d & info) eqn:E. destruct (Z.eqb_spec info 0) as [->|]; [|discriminate]. intros [= <-].
  destruct (Hs M d W Sq E) as (L & Inv). cbn [rows cols with_data]. split; auto. split; auto. split; [|auto]. unfold mat_ok in *. cbn [rows cols data with_data]. rewrite L. auto.
Qed.
Lemma inv00_total lapack M g : lapack_complete (nrows M) lapack -> mat_ok M -> nrows M = ncols M -> inverse_of (nrows M) (el M) g -> exists M', inv00 lapack M = Ok M'.
Proof.
  intros Hc W Sq H. unfold inv00. specialize (Hc M g W eq_refl (eq_sym Sq) H). destruct (lapack M) as (d & info). cbn [snd] in Hc. subst. cbn. eauto.
Qed.

Section Ols.
Context (lapack : mat Qc -> list Qc * Z) (d : ols_decl) (N m k : nat) (y x : mat Qc) (storage work : list Qc).
Hypothesis Sound : lapack_sound lapack.
Hypothesis Wy : mat_ok y.
Hypothesis Wx : mat_ok x.
Hypothesis Ry : rows y = N.
Hypothesis Rx : rows x = N.
Hypothesis Cy : cols y = m.
Hypothesis Cx : cols x = k.
Hypothesis Pk : (0 < k)%nat.
Hypothesis Pm : (0 < m)%nat.
Hypothesis Kn : (k <= N)%nat.
Local Notation need := (OD (Z.of_nat N) (Z.of_nat m) (Z.of_nat k) (with_resid d) (o_sigma d) false).
Hypothesis St : fit_storage need <= Z.of_nat (length storage).
Hypothesis Wk : ols_work need <= Z.of_nat (length work).
Lemma dims_y : nrows y = Z.of_nat N /\ ncols y = Z.of_nat m /\ nrows x = Z.of_nat N /\ ncols x = Z.of_nat k.
Proof using Ry Rx Cy Cx. unfold nrows, ncols. rewrite Ry, Rx, Cy, Cx. auto. Qed.
Lemma storage_beta : mat_ok (Mat k m storage).
Proof using St. clear - St. unfold fit_storage in St. cbn [o_k o_m o_N o_sigma o_resid] in St. unfold mat_ok. cbn [rows cols data]. destruct (with_resid need), (o_sigma d); nia. Qed.
(** The matrix (X'X) calculated first. *)
Lemma ols_xx : exists xx, tr_dot00 x x (Mat (cols x) (cols x) work) = Ok xx /\ has k k (product (Z.of_nat N) (el_t x) (el x)) xx.
Proof using Wx Rx Cx Pk Kn Wk.
  clear - Wx Rx Cx Pk Kn Wk. unfold ols_work in Wk. cbn [o_k o_N] in Wk. rewrite Cx.
  destruct (tr_dot00_has x x (Mat k k work) Wx Wx) as (xx & E & H); [unfold mat_ok, nrows, ncols; cbn [rows cols data]; rewrite ?Rx, ?Cx; nia..|].
  exists xx. split; auto. unfold nrows in H. rewrite Rx in H. exact H.
Qed.
Lemma ols_from_inverse xx xi : has k k (product (Z.of_nat N) (el_t x) (el x)) xx -> inv00 lapack xx = Ok xi ->
  exists F, (do xxx <- dot_tr00 xi x (Mat (cols x) (rows y) (from (2 * ncols x * ncols x) work));
      do beta <- dot00 xxx y (Mat (cols x) (cols y) storage);
      fit_rest d y x beta storage) = Ok F /\ fit_ok d N m k (el y) (el x) (el (f_beta F)) F /\
      inverse_of (Z.of_nat k) (product (Z.of_nat N) (el_t x) (el x)) (el xi) /\
      forall i j, 0 <= i < Z.of_nat k -> 0 <= j < Z.of_nat m -> el (f_beta F) i j = product (Z.of_nat N) (product (Z.of_nat k) (el xi) (el_t x)) (el y) i j.
Proof using Wx Rx Cx Wy Ry Cy Pk Pm Kn Wk St Sound.
  intros (X1 & X2 & X3 & X4) Ei. destruct (inv00_ok lapack xx xi Sound X3 ltac:(unfold nrows, ncols; lia) Ei) as (I1 & I2 & I3 & I4).
  destruct dims_y as (Dy1 & Dy2 & Dx1 & Dx2). rewrite Cx, Ry, Cy, Dx2. unfold ols_work in Wk. cbn [o_k o_N] in Wk.
  destruct (dot_tr00_has xi x (Mat k N (from (2 * Z.of_nat k * Z.of_nat k) work)) I3 Wx) as (xxx & E1 & H1); try (unfold nrows, ncols; cbn [rows cols]; rewrite ?I1, ?I2, ?X1, ?X2, ?Rx, ?Cx; lia).
  { apply mat_ok_from; nia. }
  rewrite E1. cbn [bind rows cols] in *. destruct H1 as (A1 & A2 & A3 & A4).
  destruct (dot00_has xxx y (Mat k m storage) A3 Wy storage_beta) as (be & E2 & H2); try (unfold nrows, ncols; cbn [rows cols]; rewrite ?A1, ?A2, ?Ry, ?Cy; lia).
  rewrite E2. cbn [bind rows cols] in *. destruct H2 as (B1 & B2 & B3 & B4).
  destruct (fit_rest_ok d N m k y x be storage) as (F & EF & Fb & FO); auto; try lia.
  exists F. split; auto. rewrite Fb. split; auto. split.
  - unfold nrows in I4. rewrite X1 in I4. intros i j Hi Hj. destruct (I4 i j Hi Hj) as (J1 & J2). split; [rewrite <- J1|rewrite <- J2]; apply product_ext'; intros l Hl; rewrite ?X4 by auto; auto.
  - intros i j Hi Hj. rewrite B4 by auto. unfold ncols. rewrite A2. apply product_ext'. intros l Hl. rewrite A4 by auto. unfold ncols. rewrite I2, X2. auto.
Qed.
Lemma ols_calc F : ols_calculate lapack d y x storage work = Ok F -> exists g,
  inverse_of (Z.of_nat k) (product (Z.of_nat N) (el_t x) (el x)) g /\ fit_ok d N m k (el y) (el x) (el (f_beta F)) F /\
  forall i j, 0 <= i < Z.of_nat k -> 0 <= j < Z.of_nat m -> el (f_beta F) i j = product (Z.of_nat N) (product (Z.of_nat k) g (el_t x)) (el y) i j.
Proof using Wx Rx Cx Wy Ry Cy Pk Pm Kn Wk St Sound.
  destruct dims_y as (Dy1 & Dy2 & Dx1 & Dx2). unfold ols_calculate. rewrite Dx1, Dx2, Dy1, Dy2, Z.eqb_refl. cbn [negb].
  destruct (Z.ltb_spec (Z.of_nat N) (Z.of_nat k)); [discriminate|]. match goal with |- context[if ?b then Throw else _] => destruct b end; [discriminate|].
  match goal with |- context[if ?b then UB else _] => destruct b end; [discriminate|].
  destruct ols_xx as (xx & Ex & Hx). rewrite Ex. cbn [bind]. destruct (inv00 lapack xx) as [xi| |] eqn:Ei; cbn [bind]; try discriminate.
  destruct (ols_from_inverse xx xi Hx Ei) as (F' & EF & FO & Inv & Bt). rewrite Dx2 in EF. rewrite EF. intros [= <-]. exists (el xi). auto.
Qed.
Lemma ols_total g : lapack_complete (Z.of_nat k) lapack -> inverse_of (Z.of_nat k) (product (Z.of_nat N) (el_t x) (el x)) g ->
  ols_work d <= ols_work need -> fit_storage d <= fit_storage need -> exists F, ols_calculate lapack d y x storage work = Ok F.
Proof using Wx Rx Cx Wy Ry Cy Pk Pm Kn Wk St Sound.
  intros Hc Inv D1 D2. destruct dims_y as (Dy1 & Dy2 & Dx1 & Dx2). unfold ols_calculate. rewrite Dx1, Dx2, Dy1, Dy2, Z.eqb_refl. cbn [negb].
  destruct (Z.ltb_spec (Z.of_nat N) (Z.of_nat k)); [lia|]. destruct (Z.ltb_spec (ols_work need) (ols_work d)); [lia|]. destruct (Z.ltb_spec (fit_storage need) (fit_storage d)); [lia|].
  cbn [orb]. destruct (Z.ltb_spec (Z.of_nat (length work)) (ols_work need)); [lia|].
  destruct ols_xx as (xx & Ex & Hx). rewrite Ex. cbn [bind]. pose proof Hx as (X1 & X2 & X3 & X4).
  destruct (inv00_total lapack xx g) as (xi & Ei); auto.
  { unfold nrows. rewrite X1. auto. }
  { unfold nrows, ncols. lia. }
  { unfold nrows. rewrite X1. intros i j Hi Hj. destruct (Inv i j Hi Hj) as (J1 & J2). split; [rewrite <- J1|rewrite <- J2]; apply product_ext'; intros l Hl; rewrite ?X4 by auto; auto. }
  rewrite Ei. cbn [bind]. destruct (ols_from_inverse xx xi Hx Ei) as (F' & EF & _). rewrite Dx2 in EF. rewrite EF. eauto.
Qed.
End Ols.

Section Gls.
Context (lapack : mat Qc -> list Qc * Z) (d : ols_decl) (N m k : nat) (y x om : mat Qc) (storage work : list Qc).
Hypothesis Sound : lapack_sound lapack.
Hypothesis Wy : mat_ok y.
Hypothesis Wx : mat_ok x.
Hypothesis Wo : mat_ok om.
Hypothesis Ry : rows y = N.
Hypothesis Rx : rows x = N.
Hypothesis Ro : rows om = N.
Hypothesis Co : cols om = N.
Hypothesis Cy : cols y = m.
Hypothesis Cx : cols x = k.
Hypothesis Pk : (0 < k)%nat.
Hypothesis Pm : (0 < m)%nat.
Hypothesis Kn : (k <= N)%nat.
Local Notation need := (OD (Z.of_nat N) (Z.of_nat m) (Z.of_nat k) (with_resid d) (o_sigma d) false).
Local Notation need' := (OD (Z.of_nat N) (Z.of_nat m) (Z.of_nat k) (with_resid d) (o_sigma d) (o_inv d)).
Hypothesis St : fit_storage need <= Z.of_nat (length storage).
Hypothesis Wk : gls_work need' <= Z.of_nat (length work).
(** The weights. *)
Definition weights (w : mat Qc) : Prop := if o_inv d then w = om else inv00 lapack om = Ok w.
Lemma weights_ok w : weights w -> has N N (el w) w /\ (o_inv d = false -> inverse_of (Z.of_nat N) (el om) (el w)).
Proof using Sound Wo Ro Co.
  clear - Sound Wo Ro Co. unfold weights. destruct (o_inv d).
  - intros ->. split; [|discriminate]. split; [|split; [|split]]; auto.
  - intros E. assert (Sq : nrows om = ncols om) by (unfold nrows, ncols; lia). destruct (inv00_ok lapack om w Sound Wo Sq E) as (I1 & I2 & I3 & I4).
    split; [split; [|split; [|split]]; auto; lia|]. intros _. unfold nrows in I4. rewrite Ro in I4. auto.
Qed.
Lemma gls_x w : has N N (el w) w -> let invs := if o_inv d then Z.of_nat k else Z.of_nat N in
  exists xo xox, tr_dot00 x w (Mat (cols x) (rows y) (from (invs * invs) work)) = Ok xo /\ has k N (product (Z.of_nat N) (el_t x) (el w)) xo /\ dot xo x (Mat (cols x) (cols x) (from (invs * invs + Z.of_nat k * Z.of_nat N) work)) 1 0 = Ok xox /\ has k k (product (Z.of_nat N) (product (Z.of_nat N) (el_t x) (el w)) (el x)) xox.
Proof using Wx Rx Cx Ry Pk Kn Wk.
  clear - Wx Rx Cx Ry Pk Kn Wk. intros (W1 & W2 & W3 & W4) invs. unfold gls_work in Wk. cbn [o_k o_N o_inv] in Wk. fold invs in Wk. assert (0 <= invs) by (unfold invs; destruct (o_inv d); lia).
  rewrite Cx, Ry.
  destruct (tr_dot00_has x w (Mat k N (from (invs * invs) work)) Wx W3) as (xo & E & H1); [apply mat_ok_from; nia|unfold nrows, ncols; cbn [rows cols]; rewrite ?Rx, ?Cx, ?W1, ?W2; lia..|].
  unfold nrows in H1. rewrite Rx in H1. cbn [rows cols] in H1. pose proof H1 as (A1 & A2 & A3 & A4).
  destruct (dot_has xo x (Mat k k (from (invs * invs + Z.of_nat k * Z.of_nat N) work)) A3 Wx) as (xox & E2 & H2); [apply mat_ok_from; nia|unfold nrows, ncols; cbn [rows cols]; rewrite ?Rx, ?Cx, ?A1, ?A2; lia..|].
  exists xo, xox. repeat (split; [assumption|]). cbn [rows cols] in H2. destruct H2 as (B1 & B2 & B3 & B4). split; [|split; [|split]]; auto.
  intros i j Hi Hj. rewrite B4 by auto. unfold ncols. rewrite A2. apply product_ext'. intros l Hl. rewrite A4 by auto. auto.
Qed.
Lemma gls_from_inverse w xo xox xi : has k N (product (Z.of_nat N) (el_t x) (el w)) xo -> has k k (product (Z.of_nat N) (product (Z.of_nat N) (el_t x) (el w)) (el x)) xox -> inv00 lapack xox = Ok xi ->
  let invs := if o_inv d then Z.of_nat k else Z.of_nat N in
  exists F, (do xoxxo <- dot xi xo (Mat (cols x) (rows y) (from (invs * invs + Z.of_nat k * Z.of_nat N + Z.of_nat k * Z.of_nat k) work)) 1 0;
      do beta <- dot00 xoxxo y (Mat (cols x) (cols y) storage);
      fit_rest d y x beta storage) = Ok F /\ fit_ok d N m k (el y) (el x) (el (f_beta F)) F /\
      inverse_of (Z.of_nat k) (product (Z.of_nat N) (product (Z.of_nat N) (el_t x) (el w)) (el x)) (el xi) /\
      forall i j, 0 <= i < Z.of_nat k -> 0 <= j < Z.of_nat m -> el (f_beta F) i j = product (Z.of_nat N) (product (Z.of_nat k) (el xi) (product (Z.of_nat N) (el_t x) (el w))) (el y) i j.
Proof using Wx Rx Cx Wy Ry Cy Pk Pm Kn Wk St Sound.
  clear Ro Co Wo. intros (Y1 & Y2 & Y3 & Y4) (X1 & X2 & X3 & X4) Ei invs. destruct (inv00_ok lapack xox xi Sound X3 ltac:(unfold nrows, ncols; lia) Ei) as (I1 & I2 & I3 & I4).
  rewrite Cx, Ry, Cy. unfold gls_work in Wk. cbn [o_k o_N o_inv] in Wk. fold invs in Wk. assert (0 <= invs) by (unfold invs; destruct (o_inv d); lia).
  destruct (dot_has xi xo (Mat k N (from (invs * invs + Z.of_nat k * Z.of_nat N + Z.of_nat k * Z.of_nat k) work)) I3 Y3) as (xxx & E1 & H1); try (unfold nrows, ncols; cbn [rows cols]; rewrite ?I1, ?I2, ?X1, ?X2, ?Y1, ?Y2; lia).
  { apply mat_ok_from; nia. }
  rewrite E1. cbn [bind rows cols] in *. destruct H1 as (A1 & A2 & A3 & A4).
  assert (Sb : mat_ok (Mat k m storage)) by (apply (storage_beta d N m k storage); auto).
  destruct (dot00_has xxx y (Mat k m storage) A3 Wy Sb) as (be & E2 & H2); try (unfold nrows, ncols; cbn [rows cols]; rewrite ?A1, ?A2, ?Ry, ?Cy; lia).
  rewrite E2. cbn [bind rows cols] in *. destruct H2 as (B1 & B2 & B3 & B4).
  destruct (fit_rest_ok d N m k y x be storage) as (F & EF & Fb & FO); auto; try lia.
  exists F. split; auto. rewrite Fb. split; auto. split.
  - unfold nrows in I4. rewrite X1 in I4. intros i j Hi Hj. destruct (I4 i j Hi Hj) as (J1 & J2). split; [rewrite <- J1|rewrite <- J2]; apply product_ext'; intros l Hl; rewrite ?X4 by auto; auto.
  - intros i j Hi Hj. rewrite B4 by auto. unfold ncols. rewrite A2. apply product_ext'. intros l Hl. rewrite A4 by auto. unfold ncols. rewrite I2, X2. split; auto. apply product_ext'. intros p Hp. rewrite Y4 by auto. auto.
Qed.
Lemma gls_calc F : gls_calculate lapack d y x om storage work = Ok F -> exists w g, weights w /\ inverse_of (Z.of_nat k) (product (Z.of_nat N) (product (Z.of_nat N) (el_t x) (el w)) (el x)) g /\ fit_ok d N m k (el y) (el x) (el (f_beta F)) F /\ forall i j, 0 <= i < Z.of_nat k -> 0 <= j < Z.of_nat m -> el (f_beta F) i j = product (Z.of_nat N) (product (Z.of_nat k) g (product (Z.of_nat N) (el_t x) (el w))) (el y) i j.
Proof using Wx Rx Cx Wy Ry Cy Pk Pm Kn Wk St Sound Wo Ro Co.
  destruct (dims_y N m k y x Ry Rx Cy Cx) as (Dy1 & Dy2 & Dx1 & Dx2). unfold gls_calculate. rewrite Dx1, Dx2, Dy1, Dy2, Z.eqb_refl. cbn [negb].
  destruct (Z.ltb_spec (Z.of_nat N) (Z.of_nat k)); [discriminate|]. match goal with |- context[if ?b then Throw else _] => destruct b end; [discriminate|].
  match goal with |- context[if ?b then UB else _] => destruct b end; [discriminate|].
  assert (Hw : forall r, (if o_inv d then Ok om else inv00 lapack om) = Ok r -> weights r). { unfold weights. destruct (o_inv d); [intros r [= <-]; auto|auto]. }
  destruct (if o_inv d then Ok om else inv00 lapack om) as [w| |] eqn:Ew; cbn [bind]; try discriminate. specialize (Hw w eq_refl). destruct (weights_ok w Hw) as (Ww & _).
  destruct (gls_x w Ww) as (xo & xox & E1 & H1 & E2 & H2). rewrite E1. cbn [bind]. rewrite E2. cbn [bind].
  destruct (inv00 lapack xox) as [xi| |] eqn:Ei; cbn [bind]; try discriminate.
  destruct (gls_from_inverse w xo xox xi H1 H2 Ei) as (F' & EF & FO & Inv & Bt). rewrite EF. intros [= <-]. exists w, (el xi). auto.
Qed.
Lemma gls_total w g : lapack_complete (Z.of_nat k) lapack -> weights w -> inverse_of (Z.of_nat k) (product (Z.of_nat N) (product (Z.of_nat N) (el_t x) (el w)) (el x)) g ->
  gls_work d <= gls_work need -> fit_storage d <= fit_storage need -> exists F, gls_calculate lapack d y x om storage work = Ok F.
Proof using Wx Rx Cx Wy Ry Cy Pk Pm Kn Wk St Sound Wo Ro Co.
  intros Hc Hw Inv D1 D2. destruct (dims_y N m k y x Ry Rx Cy Cx) as (Dy1 & Dy2 & Dx1 & Dx2). unfold gls_calculate. rewrite Dx1, Dx2, Dy1, Dy2, Z.eqb_refl. cbn [negb].
  destruct (Z.ltb_spec (Z.of_nat N) (Z.of_nat k)); [lia|]. destruct (Z.ltb_spec (gls_work need) (gls_work d)); [lia|]. destruct (Z.ltb_spec (fit_storage need) (fit_storage d)); [lia|].
  cbn [orb]. destruct (Z.ltb_spec (Z.of_nat (length work)) (gls_work need')); [lia|].
  assert (Ew : (if o_inv d then Ok om else inv00 lapack om) = Ok w). { unfold weights in Hw. destruct (o_inv d); [subst; auto|auto]. } rewrite Ew. cbn [bind].
  destruct (weights_ok w Hw) as (Ww & _). destruct (gls_x w Ww) as (xo & xox & E1 & G1 & E2 & G2). rewrite E1. cbn [bind]. rewrite E2. cbn [bind]. pose proof G2 as (X1 & X2 & X3 & X4).
  destruct (inv00_total lapack xox g) as (xi & Ei); auto.
  { unfold nrows. rewrite X1. auto. }
  { unfold nrows, ncols. lia. }
  { unfold nrows. rewrite X1. intros i j Hi Hj. destruct (Inv i j Hi Hj) as (J1 & J2). split; [rewrite <- J1|rewrite <- J2]; apply product_ext'; intros l Hl; rewrite ?X4 by auto; auto. }
  rewrite Ei. cbn [bind]. destruct (gls_from_inverse w xo xox xi G1 G2 Ei) as (F' & EF & _). rewrite EF. eauto.
Qed.
End Gls.
