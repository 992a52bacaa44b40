(** Estimation of systems: details and Calculate. *)
From Verif Require Import SurModel SurSpec MatProofs MatProofs2 MatProofs3 MatProofs5 MatDotProofs DataProofs LsProofs OlsProofs SurProofs SurProofs2 SurProofs3.
From Coq Require Import Lia ZifyBool.
Local Open Scope Z_scope.

Lemma diag_hl n (k m : nat) f M std : hl n (k * m) (k * m) f M -> mat_ok std -> rows std = k -> cols std = m -> (0 < k)%nat ->
  exists V, get_diag0 M std = Ok V /\ get_diag M std = Ok V /\ has k m (fun i j => f (j * Z.of_nat k + i)%Z (j * Z.of_nat k + i)%Z) V.
Proof.
  intros HM WS R1 C1 Pk. assert (H1 := hl_rows _ _ _ _ _ HM). assert (H2 := hl_cols _ _ _ _ _ HM).
  destruct (get_diag_ok M std (hl_ok _ _ _ _ _ HM) WS) as (V & E & R2 & C2 & Fl); [lia|unfold mlength, nrows, ncols in *; rewrite R1, C1; lia|].
  exists V. split; [|split; [exact E|]].
  { unfold get_diag in E. destruct (negb (nrows M =? ncols M)); [discriminate|]. destruct (mlength std <? nrows M); [discriminate|]. exact E. }
  destruct Fl as (L & F). split; [lia|split; [lia|split]].
  - unfold mat_ok in *. rewrite R2, C2, L. auto.
  - intros i j Hi Hj. unfold el, entry. replace (insideb V i j) with true by (symmetry; apply inside_b; split; unfold nrows, ncols; rewrite ?R2, ?C2, ?R1, ?C1; auto).
    rewrite F. unfold nrows. rewrite R2, R1. assert (Hn : 0 <= j * Z.of_nat k + i < Z.of_nat (k * m)) by nia. rewrite Z2Nat.id by lia. fold (nrows M). rewrite H1. replace (_ && _) with true by lia. rewrite Z.sub_0_r.
    rewrite (entry_hl _ _ _ _ _ _ _ HM); auto.
Qed.

Section Details.
Context (pt : Z -> Qc -> Qc) (N m k : nat) (work : list Qc).
Hypothesis PN : (0 < N)%nat.
Hypothesis Pk : (0 < k)%nat.
Hypothesis Pm : (0 < m)%nat.
Local Notation kz := (Z.of_nat k).
Local Notation km := (k * m)%nat.
(** The variance of a coefficient. *)
Definition var_of (restr : option (mat Qc)) (gv : Z -> Z -> Qc) (a : Z) : Qc :=
  match restr with
  | None => gv a a
  | Some R => sum_to (Z.of_nat (cols R)) (fun l => sum_to (Z.of_nat (cols R)) (fun l' => el R a l * gv l l' * el R a l'))%Qc
  end.
Lemma calc_details_ok (restr : option (mat Qc)) s std b gv : has k m b (s_beta s) -> mat_ok std -> rows std = k -> cols std = m ->
  match restr with
  | None => has km km gv (s_gvar s)
  | Some R => mat_ok R /\ rows R = km /\ (0 < cols R)%nat /\ has (cols R) (cols R) gv (s_gvar s) /\ rows (s_gamma s) = cols R /\ cols (s_gamma s) = 1%nat /\
              (km * cols R + km * km <= length work)%nat
  end ->
  exists d, calc_details pt (Z.of_nat N) restr work s std = Ok d /\ has k m (fun i j => var_of restr gv (j * kz + i)) (d_var d) /\
    d_prob d = map (fun a => prob pt (Z.of_nat N) (b (a mod kz) (a / kz)) (var_of restr gv a)) (upto (Z.of_nat km)).
Proof using PN Pk Pm.
  intros Hb WS R1 C1 H. assert (Pkm : (0 < km)%nat) by nia.
  assert (V : exists v, beta_var restr work s std = Ok v /\ has k m (fun i j => var_of restr gv (j * kz + i)) v).
  { destruct restr as [R|].
    - destruct H as (WR & RR & Pq & Hg & Ga1 & Ga2 & Wk). unfold beta_var. unfold mlength, nrows, ncols. rewrite RR, Ga1, Ga2. set (q := cols R) in *.
      set (bl := det_blocks _ _). destruct (block_ok km q 0 bl work 0) as (B0 & L0); [unfold bl; cbn; f_equal; lia|lia..|].
      destruct (block_ok km km 1 bl work (Z.of_nat (km * q))) as (B1 & L1); [unfold bl; cbn; f_equal; lia|lia..|].
      assert (HR : hl (length (data R)) km q (el R) R) by (rewrite <- RR; apply hl_self; auto).
      assert (Hgv : hl (length (data (s_gvar s))) q q gv (s_gvar s)) by (split; auto).
      rewrite Nat.mul_1_r. destruct (dot_hl km q q _ _ _ _ _ _ (Mat km q (nth_block bl 0 work)) HR Hgv B0 eq_refl eq_refl Pkm Pq) as (A & -> & HA). cbn [bind].
      destruct (dot_tr_hl km q km _ _ _ _ _ _ (Mat km km (nth_block bl 1 work)) HA HR B1 eq_refl eq_refl Pkm Pkm) as (B & -> & HB). cbn [bind].
      destruct (diag_hl _ k m _ B std HB WS R1 C1 Pk) as (v & _ & E & Hv). exists v. split; auto.
      destruct Hv as (V1 & V2 & V3 & V4). split; [auto|split; [auto|split; [auto|]]]. intros i j Hi Hj. rewrite V4 by auto. rewrite product_sum. unfold var_of. fold q.
      rewrite (st_swap (Z.of_nat q) (Z.of_nat q)). apply st_ext. intros l Hl. rewrite product_sum, <- st_mul_r. apply st_ext. intros. ring.
    - unfold beta_var. assert (Hgv : hl (length (data (s_gvar s))) km km gv (s_gvar s)) by (split; auto).
      destruct (diag_hl _ k m _ (s_gvar s) std Hgv WS R1 C1 Pk) as (v & E & _ & Hv). exists v. split; auto. }
  destruct V as (v & Ev & Hv). unfold calc_details. rewrite Ev. cbn [bind].
  assert (Ml : mlength (s_beta s) = Z.of_nat km). { destruct Hb as (A & B & _). unfold mlength, nrows, ncols. rewrite A, B. lia. }
  rewrite Ml. rewrite (rmap_const _ (fun a => prob pt (Z.of_nat N) (b (a mod kz) (a / kz)) (var_of restr gv a))).
  - cbn [bind]. eexists. split; [reflexivity|]. auto.
  - intros a Ha. apply in_zrange in Ha. destruct (div_bound a kz (Z.of_nat m)) as (_ & D1 & D2); [lia..|].
    assert (Ea : a = a mod kz + kz * (a / kz)) by (rewrite (Z.div_mod a kz) at 1 by lia; lia).
    destruct Hb as (B1 & B2 & B3 & B4). destruct Hv as (V1 & V2 & V3 & V4).
    assert (Rb : rd (data (s_beta s)) a = Ok (b (a mod kz) (a / kz))). { rewrite Ea at 1. replace kz with (nrows (s_beta s)) at 2 by (unfold nrows; rewrite B1; auto). rewrite rd_el; [rewrite B4; auto|auto|split; unfold nrows, ncols; rewrite ?B1, ?B2; auto]. }
    assert (Rv : rd (data v) a = Ok (var_of restr gv a)). { rewrite Ea at 1. replace kz with (nrows v) at 2 by (unfold nrows; rewrite V1; auto). rewrite rd_el; [rewrite V4; auto|auto|split; unfold nrows, ncols; rewrite ?V1, ?V2; auto]. do 2 f_equal. lia. }
    rewrite Rb, Rv. reflexivity.
Qed.
End Details.

(** ** Calculate *)
Lemma slice_ok (r c : nat) d : (r * c <= length d)%nat -> mat_ok (Mat r c (slice (0, Z.of_nat (r * c)) d)).
Proof. intros L. unfold mat_ok, slice. cbn [rows cols data fst snd]. change (Z.to_nat 0) with 0%nat. cbn [skipn]. rewrite Nat2Z.id, firstn_length. lia. Qed.
Section Calc.
Context (lapack : mat Qc -> list Qc * Z) (pt : Z -> Qc -> Qc) (det_pd : mat Qc -> option Qc).
Context (d : sur_decl) (N m k : nat) (y x : mat Qc) (storage work : list Qc) (maxp : Qc).
Hypothesis Sound : lapack_sound lapack.
Hypothesis Len : forall M, length (fst (lapack M)) = length (data M).
Hypothesis Wy : mat_ok y.
Hypothesis Wx : mat_ok x.
Hypothesis Ry : rows y = N.
Hypothesis Rx : rows x = N.
Hypothesis Cy : cols y = m.
Hypothesis Cx : cols x = k.
Hypothesis PN : (0 < N)%nat.
Hypothesis Pk : (0 < k)%nat.
Hypothesis Pm : (0 < m)%nat.
Local Notation Nz := (Z.of_nat N).
Local Notation mz := (Z.of_nat m).
Local Notation kz := (Z.of_nat k).
Local Notation km := (k * m)%nat.
Local Notation need := (declare Nz mz kz (sd_restricted d) (sd_details d) (sd_iter d)).
Hypothesis SizeS : sur_storage need <= Z.of_nat (length storage).
Hypothesis SizeW : sur_work need <= Z.of_nat (length work).
(** The determinant used for the log-likelihood. *)
Definition det_of (v : Z -> Z -> Qc) (o : option Qc) : Prop := exists W, has m m v W /\ o = if (m =? 1)%nat then Some (v 0 0) else det_pd W.
Definition good_restr (restr : option (mat Qc)) (gv : Z -> Z -> Qc) (s : est) : Prop :=
  match restr with
  | None => has km km gv (s_gvar s)
  | Some R => mat_ok R /\ rows R = km /\ (0 < cols R <= km)%nat /\ has (cols R) (cols R) gv (s_gvar s) /\ rows (s_gamma s) = cols R /\ cols (s_gamma s) = 1%nat
  end.
Lemma work_sizes : (k * k + km <= length work)%nat /\ (m * m <= length work)%nat /\
  (sd_details d || negb (sd_iter d =? 0) = true -> (2 * (km * km) <= length work)%nat) /\
  (sd_restricted d || negb (sd_iter d =? 0) = true -> (k * k + 2 * (km * km) + 3 * (N * m * km) + N * m + km <= length work)%nat).
Proof using SizeW PN Pk Pm.
  clear - SizeW PN Pk Pm. unfold sur_work, declare in SizeW.
  assert (E1 : 2 * (kz * mz) * (kz * mz) = 2 * Z.of_nat (km * km)) by lia. assert (E2 : 3 * Nz * mz * (kz * mz) = 3 * Z.of_nat (N * m * km)) by lia.
  assert (E3 : kz * kz = Z.of_nat (k * k)) by lia. assert (E4 : Nz * mz = Z.of_nat (N * m)) by lia. assert (E5 : kz * mz = Z.of_nat km) by lia. assert (E6 : mz * mz = Z.of_nat (m * m)) by lia.
  assert (P0 : (m <= km /\ k <= km)%nat) by (clear - Pk Pm; nia). destruct P0 as (P1 & P2). assert (M2 := Nat.mul_le_mono _ _ _ _ P1 P1). assert (M4 := Nat.mul_le_mono _ _ _ _ P2 P2).
  assert (M3 : (km <= km * km)%nat) by (clear - Pk Pm; nia).
  destruct (sd_iter d =? 0); cbn [negb orb sd_N sd_m sd_k sd_restricted sd_details] in *; rewrite ?orb_false_r, ?orb_true_r; cbn zeta in SizeW; rewrite E1, E2, E3, ?E4, ?E5, ?E6 in SizeW;
    assert (M5 : (k * k + km <= 2 * (km * km))%nat) by lia;
    generalize dependent (m * m)%nat; generalize dependent (N * m * km)%nat; generalize dependent (km * km)%nat; generalize dependent (k * k)%nat; intros.
  - destruct (sd_restricted d), (sd_details d); repeat split; intros; try discriminate; lia.
  - repeat split; intros; lia.
Qed.
Lemma storage_sizes : (2 * km + km * km + 2 * (N * m) + m * m + (if sd_details d || negb (sd_iter d =? 0)%Z then 3 * km else 0) <= length storage)%nat.
Proof using SizeS.
  clear - SizeS. unfold sur_storage, declare in SizeS. destruct (sd_iter d =? 0); cbn [negb orb sd_N sd_m sd_k sd_restricted sd_details] in *; rewrite ?orb_false_r, ?orb_true_r; [destruct (sd_details d)|]; nia.
Qed.
Lemma std_ok : sd_details d || negb (sd_iter d =? 0) = true -> let std := std_block N m k storage in mat_ok std /\ rows std = k /\ cols std = m.
Proof using SizeS.
  intros H. assert (St := storage_sizes). rewrite H in St. clear - St. cbn [rows cols std_block]. split; auto. unfold std_block.
  apply (block_ok k m 6 (sur_blocks Nz mz kz true) storage (Z.of_nat km + Z.of_nat km + Z.of_nat (km * km) + Z.of_nat (N * m) + Z.of_nat (N * m) + Z.of_nat (m * m))); [cbn; f_equal; lia|lia..].
Qed.
Lemma finish_ok s R it b gv restr : restr = (if sd_restricted d then R else None) -> shaped N m k s -> has k m b (s_beta s) -> (sd_details d = true -> good_restr restr gv s) ->
  exists o, det_of (el (s_rvar s)) o /\
  match o with
  | None => sur_finish pt det_pd d y x storage work (s, R, it) = Throw
  | Some v => exists dt, sur_finish pt det_pd d y x storage work (s, R, it) = Ok (Sur s R it v dt) /\
      if sd_details d then exists dd, dt = Some dd /\ has k m (fun i j => var_of restr gv (j * kz + i)) (d_var dd) /\
        d_prob dd = map (fun a => prob pt Nz (b (a mod kz) (a / kz)) (var_of restr gv a)) (upto (Z.of_nat km)) else dt = None
  end.
Proof using All.
  intros -> Sh Hb Gr. assert (SO := std_ok). destruct work_sizes as (K1 & K2 & K3 & K4). destruct (sh_rvar _ _ _ _ Sh) as (V1 & V2 & V3). unfold sur_finish. rewrite Cy, Ry, Cx. unfold ncols, nrows. rewrite Cy, Ry. replace (mz * mz) with (Z.of_nat (m * m)) by lia.
  assert (WW : mat_ok (Mat m m (slice (0, Z.of_nat (m * m)) work))) by (apply slice_ok; auto).
  destruct (copy_to00_ok (s_rvar s) _ V3 WW) as (W & -> & Bc); [unfold nrows, ncols; cbn [rows cols]; lia..|]. cbn [bind].
  assert (HW : has m m (el (s_rvar s)) W).
  { refine (becomes_has (Mat m m (slice (0, Z.of_nat (m * m)) work)) W _ _ WW Bc _). intros i j Hin. apply entry_el; auto. destruct Hin as (I1 & I2). unfold inside, nrows, ncols in *. cbn [rows cols] in *. rewrite V1, V2. auto. }
  unfold det_pd0. unfold ncols. replace (cols W) with m by (destruct HW as (_ & B & _); auto).
  destruct (Nat.eqb_spec m 1) as [Em|Em].
  - replace (mz =? 1) with true by lia. destruct (get0_ok W 0 0) as (w & Ew1 & Ew2); [apply HW|destruct HW as (A & B & _); unfold inside, nrows, ncols; rewrite A, B; lia|].
    rewrite Ew2. cbn [bind]. exists (Some (el (s_rvar s) 0 0)). split; [exists W; split; auto; rewrite Em; reflexivity|].
    assert (Ee : w = el (s_rvar s) 0 0). { rewrite <- (proj2 (proj2 (proj2 HW)) 0 0) by lia. unfold el. rewrite Ew1. reflexivity. } rewrite Ee.
    destruct (sd_details d) eqn:Dt; [|eexists; split; [reflexivity|reflexivity]]. destruct (SO eq_refl) as (SO1 & SO2 & SO3).
    destruct (calc_details_ok pt N m k work PN Pk Pm (if sd_restricted d then R else None) s (std_block N m k storage) b gv) as (dd & -> & D1 & D2);  auto.
    { specialize (Gr eq_refl). unfold good_restr in Gr. destruct (if sd_restricted d then R else None); auto. destruct Gr as (G1 & G2 & G3 & G4 & G5 & G6). repeat split; auto; try lia; try apply G4. specialize (K3 eq_refl). clear - K3 G3. assert (Z3 := Nat.mul_le_mono_l _ _ (k * m) (proj2 G3)). lia. }
    cbn [bind]. eexists. split; [reflexivity|]. exists dd. auto.
  - replace (mz =? 1) with false by lia. cbn [bind]. exists (det_pd W). split; [exists W; split; auto; replace (m =? 1)%nat with false by (symmetry; apply Nat.eqb_neq; auto); reflexivity|].
    destruct (det_pd W) as [v|]; [|reflexivity].
    destruct (sd_details d) eqn:Dt; [|eexists; split; [reflexivity|reflexivity]]. destruct (SO eq_refl) as (SO1 & SO2 & SO3).
    destruct (calc_details_ok pt N m k work PN Pk Pm (if sd_restricted d then R else None) s (std_block N m k storage) b gv) as (dd & -> & D1 & D2);  auto.
    { specialize (Gr eq_refl). unfold good_restr in Gr. destruct (if sd_restricted d then R else None); auto. destruct Gr as (G1 & G2 & G3 & G4 & G5 & G6). repeat split; auto; try lia; try apply G4. specialize (K3 eq_refl). clear - K3 G3. assert (Z3 := Nat.mul_le_mono_l _ _ (k * m) (proj2 G3)). lia. }
    cbn [bind]. eexists. split; [reflexivity|]. exists dd. auto.
Qed.
End Calc.
