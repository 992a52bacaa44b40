(** Estimation of systems: what estim_un and estim_r leave. *)
From Verif Require Import SurModel SurSpec MatProofs MatProofs2 MatProofs5 MatDotProofs DataProofs LsProofs OlsProofs SurProofs.
From Coq Require Import Lia ZifyBool.
Local Open Scope Z_scope.

Lemma block_ok (r c i : nat) b d p : nth i b (0, 0) = (p, Z.of_nat (r * c)) -> 0 <= p -> p + Z.of_nat (r * c) <= Z.of_nat (length d) ->
  mat_ok (Mat r c (nth_block b i d)) /\ length (nth_block b i d) = (r * c)%nat.
Proof.
  intros E Hp Hl. unfold nth_block, slice. rewrite E. cbn [fst snd]. rewrite Nat2Z.id. assert (L : length (firstn (r * c) (skipn (Z.to_nat p) d)) = (r * c)%nat) by (rewrite firstn_length, skipn_length; lia).
  split; auto. unfold mat_ok. cbn [rows cols data]. rewrite L. lia.
Qed.

(** The members have their places: dimensions and storage. *)
Record shaped (N m k : nat) (s : est) : Prop := {
  sh_gamma : (k * m <= length (data (s_gamma s)))%nat;
  sh_gvar : (k * m * (k * m) <= length (data (s_gvar s)))%nat;
  sh_beta : rows (s_beta s) = k /\ cols (s_beta s) = m /\ mat_ok (s_beta s);
  sh_yhat : rows (s_yhat s) = N /\ cols (s_yhat s) = m /\ mat_ok (s_yhat s);
  sh_resid : rows (s_resid s) = N /\ cols (s_resid s) = m /\ mat_ok (s_resid s);
  sh_rvar : rows (s_rvar s) = m /\ cols (s_rvar s) = m /\ mat_ok (s_rvar s) }.
Lemma has_shape r c f M : has r c f M -> rows M = r /\ cols M = c /\ mat_ok M.
Proof. intros (A & B & C & _). auto. Qed.
Lemma fields_shaped (N m k : nat) storage : (2 * (k * m) + k * m * (k * m) + 2 * (N * m) + m * m <= length storage)%nat ->
  shaped N m k (fields N m k storage) /\ rows (s_gamma (fields N m k storage)) = (k * m)%nat /\ cols (s_gamma (fields N m k storage)) = 1%nat /\
  rows (s_gvar (fields N m k storage)) = (k * m)%nat /\ cols (s_gvar (fields N m k storage)) = (k * m)%nat.
Proof.
  intros L. set (b := sur_blocks (Z.of_nat N) (Z.of_nat m) (Z.of_nat k) false).
  assert (B : forall r c i p, nth i b (0, 0) = (p, Z.of_nat (r * c)) -> 0 <= p -> p + Z.of_nat (r * c) <= Z.of_nat (length storage) -> mat_ok (Mat r c (nth_block b i storage)) /\ length (nth_block b i storage) = (r * c)%nat) by (intros; eapply block_ok; eauto).
  destruct (B (k * m)%nat 1%nat 0%nat 0) as (B0 & L0); [unfold b; cbn; f_equal; lia|lia..|].
  destruct (B k m 1%nat (Z.of_nat (k * m))) as (B1 & L1); [unfold b; cbn; f_equal; lia|lia..|].
  destruct (B (k * m)%nat (k * m)%nat 2%nat (Z.of_nat (k * m) + Z.of_nat (k * m))) as (B2 & L2); [unfold b; cbn; f_equal; lia|lia..|].
  destruct (B N m 3%nat (Z.of_nat (k * m) + Z.of_nat (k * m) + Z.of_nat (k * m * (k * m)))) as (B3 & L3); [unfold b; cbn; f_equal; lia|lia..|].
  destruct (B N m 4%nat (Z.of_nat (k * m) + Z.of_nat (k * m) + Z.of_nat (k * m * (k * m)) + Z.of_nat (N * m))) as (B4 & L4); [unfold b; cbn; f_equal; lia|lia..|].
  destruct (B m m 5%nat (Z.of_nat (k * m) + Z.of_nat (k * m) + Z.of_nat (k * m * (k * m)) + Z.of_nat (N * m) + Z.of_nat (N * m))) as (B5 & L5); [unfold b; cbn; f_equal; lia|lia..|].
  unfold fields. fold b. cbn [s_gamma s_beta s_gvar s_yhat s_resid s_rvar rows cols]. split; [|auto]. constructor; cbn [s_gamma s_beta s_gvar s_yhat s_resid s_rvar rows cols data]; auto; lia.
Qed.

Section Est.
Context (lapack : mat Qc -> list Qc * Z) (N m k : nat) (y x : mat Qc) (work : list Qc).
Hypothesis Sound : lapack_sound lapack.
Hypothesis Wy : mat_ok y.
Hypothesis Wx : mat_ok x.
Hypothesis Ry : rows y = N.
Hypothesis Rx : rows x = N.
Hypothesis Cy : cols y = m.
Hypothesis Cx : cols x = k.
Hypothesis PN : (0 < N)%nat.
Hypothesis Pk : (0 < k)%nat.
Hypothesis Pm : (0 < m)%nat.
Local Notation Nz := (Z.of_nat N).
Local Notation mz := (Z.of_nat m).
Local Notation kz := (Z.of_nat k).
Local Notation XX := (product Nz (fun i l => el x l i) (el x)).
Local Notation e b := (residual kz (el y) (el x) b).

Lemma Hy : hl (length (data y)) N m (el y) y. Proof using Wy Ry Cy. rewrite <- Ry, <- Cy. apply hl_self. auto. Qed.
Lemma Hx : hl (length (data x)) N k (el x) x. Proof using Wx Rx Cx. rewrite <- Rx, <- Cx. apply hl_self. auto. Qed.

(** Coefficients, fitted values, residuals and their variance belong together. *)
Record consistent (b : Z -> Z -> Qc) (s : est) : Prop := {
  co_beta : has k m b (s_beta s);
  co_yhat : has N m (fun t j => sum_to kz (fun l => el x t l * b l j)%Qc) (s_yhat s);
  co_resid : has N m (e b) (s_resid s);
  co_rvar : has m m (fun i j => cross Nz (e b) i j / qz Nz)%Qc (s_rvar s) }.
Lemma fitted_ok b nb beta s : hl nb k m b beta -> shaped N m k s -> exists yh rs rv, fitted y x beta s = Ok (yh, rs, rv) /\
  has N m (fun t j => sum_to kz (fun l => el x t l * b l j)%Qc) yh /\ has N m (e b) rs /\ has m m (fun i j => cross Nz (e b) i j / qz Nz)%Qc rv.
Proof using Wy Wx Ry Rx Cy Cx PN Pk Pm.
  intros Hb Sh. destruct (sh_yhat _ _ _ _ Sh) as (Y1 & Y2 & Y3), (sh_resid _ _ _ _ Sh) as (R1 & R2 & R3), (sh_rvar _ _ _ _ Sh) as (V1 & V2 & V3). unfold fitted.
  destruct (dot_hl N k m _ _ _ _ _ _ (s_yhat s) Hx Hb Y3 Y1 Y2 PN Pk) as (yh & -> & H1). cbn [bind].
  destruct (minus_hl N m _ _ _ _ _ _ (s_resid s) Hy H1 R3 R1 R2) as (rs & -> & H2). cbn [bind].
  destruct (dot_ata_hl m N _ _ _ (s_rvar s) H2 V3 V1 V2 Pm PN) as (rv & -> & H3). cbn [bind].
  destruct (divide_hl m m _ _ _ (qz (nrows y)) H3) as (rv' & -> & H4). cbn [bind]. exists yh, rs, rv'. split; [reflexivity|].
  split; [exact (hl_has _ _ _ _ _ H1)|]. split; [exact (hl_has _ _ _ _ _ H2)|]. replace (nrows y) with Nz in H4 by (unfold nrows; lia). exact (hl_has _ _ _ _ _ H4).
Qed.
Hypothesis Wk1 : (k * k + k * m <= length work)%nat.
(** The matrix X'X calculated first. *)
Lemma un_xtx : exists xtx, dot_ata x (Mat (cols x) (cols x) (nth_block (un_blocks (ncols x) (ncols y)) 0 work)) true 1 0 = Ok xtx /\ hl (k * k) k k XX xtx.
Proof using Wx Rx Cx PN Pk Pm Ry Cy Wk1.
  rewrite Cx. destruct (block_ok k k 0 (un_blocks (ncols x) (ncols y)) work 0) as (B0 & L0); [unfold ncols; rewrite Cx; cbn; f_equal; lia|lia..|].
  destruct (dot_ata_hl k N _ _ _ (Mat k k (nth_block (un_blocks (ncols x) (ncols y)) 0 work)) Hx B0 eq_refl eq_refl Pk PN) as (xtx & E & H). rewrite E. exists xtx. split; auto. cbn [data] in H. rewrite L0 in H. auto.
Qed.
Record un_result (g : Z -> Z -> Qc) (n1 n2 : Qc) (do_gvar : bool) (s0 s : est) : Prop := {
  un_inv : inverse_of kz XX g;
  un_co : consistent (fun i j => product kz g (product Nz (fun i l => el x l i) (el y)) i j) s;
  un_gamma : has (k * m) 1 (fun a _ => el (s_beta s) (a mod kz) (a / kz)) (s_gamma s);
  un_gvar : if do_gvar then has (m * k) (m * k) (kronf k k (el (s_rvar s)) g) (s_gvar s) else s_gvar s = s_gvar s0;
  un_n1 : norm1_of kz kz XX n1;
  un_n2 : norm1_of kz kz g n2;
  un_cn : s_cn s = (n1 * n2)%Qc;
  un_shaped : shaped N m k s }.
Lemma estim_un_ok do_gvar s : shaped N m k s -> rows (s_gamma s) = (k * m)%nat -> cols (s_gamma s) = 1%nat -> rows (s_gvar s) = (k * m)%nat -> cols (s_gvar s) = (k * m)%nat ->
  exists xtx, hl (k * k) k k XX xtx /\
    (inv00 lapack xtx = Throw -> estim_un lapack y x work do_gvar s = Throw) /\
    forall xi, inv00 lapack xtx = Ok xi -> exists n1 n2 s', estim_un lapack y x work do_gvar s = Ok s' /\ un_result (el xi) n1 n2 do_gvar s s'.
Proof using Wy Wx Ry Rx Cy Cx PN Pk Pm Wk1 Sound.
  intros Sh G1 G2 V1 V2. destruct un_xtx as (xtx & E0 & H0). exists xtx. split; auto. unfold estim_un. rewrite E0. cbn [bind].
  destruct (norm1_hl _ _ _ _ _ H0) as (n1 & -> & Hn1). cbn [bind]. split; [intros ->; reflexivity|]. intros xi Ei. rewrite Ei. cbn [bind].
  destruct (inv_hl lapack _ _ _ _ _ Sound H0 Ei) as (Hi & Inv). destruct (norm1_hl _ _ _ _ _ Hi) as (n2 & -> & Hn2). cbn [bind]. rewrite Cx, Cy.
  destruct (block_ok k m 1 (un_blocks (ncols x) (ncols y)) work (Z.of_nat (k * k))) as (B1 & L1); [unfold ncols; rewrite Cx, Cy; cbn; f_equal; lia|lia..|].
  destruct (tr_dot_hl k N m _ _ _ _ _ _ (Mat k m (nth_block (un_blocks (ncols x) (ncols y)) 1 work)) Hx Hy B1 eq_refl eq_refl Pk PN) as (xty & -> & H1). cbn [bind].
  destruct (sh_beta _ _ _ _ Sh) as (Be1 & Be2 & Be3). destruct (dot_hl k k m _ _ _ _ _ _ (s_beta s) Hi H1 Be3 Be1 Be2 Pk Pk) as (beta & -> & H2). cbn [bind].
  assert (Lg := sh_gamma _ _ _ _ Sh). assert (Lv := sh_gvar _ _ _ _ Sh).
  destruct (copy_vec_hl _ k m _ _ (s_gamma s) H2) as (gamma & -> & H3); auto; [unfold mat_ok; rewrite G1, G2; lia|]. cbn [bind].
  destruct (fitted_ok _ _ beta s H2 Sh) as (yh & rs & rv & -> & F1 & F2 & F3). cbn [bind].
  assert (Sh' : forall gv, (k * m * (k * m) <= length (data gv))%nat -> shaped N m k (Est gamma beta gv yh rs rv (n1 * n2)%Qc)).
  { intros gv L. constructor; cbn; try (eapply has_shape; eauto; fail); auto. - destruct H3 as (_ & ->). auto. - apply (has_shape _ _ _ _ (hl_has _ _ _ _ _ H2)). }
  assert (Hrv : hl (length (data rv)) m m (el rv) rv). { destruct F3 as (A & B & C & D). rewrite <- A at 1. rewrite <- B at 1. apply hl_self. auto. }
  assert (Hg : has (k * m) 1 (fun a _ => el beta (a mod kz) (a / kz)) gamma).
  { refine (hl_has _ _ _ _ _ (hl_ext _ _ _ _ _ _ _ H3)). intros a j Ha Hj. destruct (div_bound a kz mz) as (? & ? & ?); [lia..|]. symmetry. apply (hl_el _ _ _ _ _ _ _ H2); auto. }
  destruct do_gvar.
  - destruct (kron_hl m m k k _ _ _ _ rv xi (s_gvar s) Hrv Hi) as (gv & -> & H4); [unfold mat_ok; rewrite V1, V2; lia|lia|lia|]. cbn [bind].
    exists n1, n2. eexists. split; [reflexivity|]. constructor; cbn [s_gamma s_beta s_gvar s_rvar s_cn]; auto.
    + constructor; cbn; auto. exact (hl_has _ _ _ _ _ H2). + exact (hl_has _ _ _ _ _ H4). + apply Sh'. destruct H4 as (_ & ->). auto.
  - cbn [bind]. exists n1, n2. eexists. split; [reflexivity|]. constructor; cbn [s_gamma s_beta s_gvar s_rvar s_cn]; auto. constructor; cbn; auto. exact (hl_has _ _ _ _ _ H2).
Qed.

(** ** With restrictions *)
Section Restricted.
Context (q : nat) (R : mat Qc).
Hypothesis WR : mat_ok R.
Hypothesis RR : rows R = (k * m)%nat.
Hypothesis CR : cols R = q.
Hypothesis Pq : (0 < q)%nat.
Hypothesis Qk : (q <= k * m)%nat.
Hypothesis Wk2 : (k * k + k * m * (k * m) + q * (k * m) + N * m * (k * m) + N * m * q + q <= length work)%nat.
Hypothesis Len : forall M, length (fst (lapack M)) = length (data M).
Local Notation km := (k * m)%nat.
Local Notation kmz := (Z.of_nat (k * m)).
Local Notation Nmz := (Z.of_nat (N * m)).
Local Notation qz' := (Z.of_nat q).
(** R'(W o X'X), its product with R, and ((W o x) R)' vec y. *)
Definition rv_of (W : Z -> Z -> Qc) := product kmz (fun i l => el R l i) (kronf k k W XX).
Definition gram_of (W : Z -> Z -> Qc) := product kmz (rv_of W) (el R).
Definition wxr_of (W : Z -> Z -> Qc) := product kmz (kronf N k W (el x)) (el R).
Definition z_of (W : Z -> Z -> Qc) := product Nmz (fun i l => wxr_of W l i) (fun t _ => el y (t mod Nz) (t / Nz)).
Record r_result (W g : Z -> Z -> Qc) (n1 n2 : Qc) (s : est) : Prop := {
  r_inv : inverse_of qz' (gram_of W) g;
  r_gvar : has q q g (s_gvar s);
  r_gamma : has q 1 (product qz' g (z_of W)) (s_gamma s);
  r_co : consistent (restricted kz qz' (el R) (fun l => el (s_gamma s) l 0)) s;
  r_n1 : norm1_of qz' kmz (rv_of W) n1;
  r_n2 : norm1_of qz' qz' g n2;
  r_cn : s_cn s = (n1 * n2)%Qc;
  r_shaped : shaped N m k s }.
Lemma HR : hl (length (data R)) km q (el R) R. Proof using WR RR CR. rewrite <- RR, <- CR. apply hl_self. auto. Qed.
Lemma estim_r_ok s : shaped N m k s ->
  let W := el (with_data (s_rvar s) (fst (lapack (s_rvar s)))) in
  exists gm n, hl n q q (gram_of W) gm /\
    (inv00 lapack gm = Throw -> estim_r lapack y x R work s = Throw) /\
    forall gi, inv00 lapack gm = Ok gi -> exists n1 n2 s', estim_r lapack y x R work s = Ok s' /\ r_result W (el gi) n1 n2 s'.
Proof using All.
  intros Sh W. destruct (sh_rvar _ _ _ _ Sh) as (V1 & V2 & V3). set (rinv := with_data (s_rvar s) (fst (lapack (s_rvar s)))) in *.
  assert (Hr : hl (length (data rinv)) m m W rinv). { split; auto. split; [exact V1|split; [exact V2|split; [|auto]]]. unfold mat_ok, rinv in *. cbn [rows cols data with_data]. rewrite Len. auto. }
  assert (Lg := sh_gamma _ _ _ _ Sh). assert (Lv := sh_gvar _ _ _ _ Sh). destruct (sh_beta _ _ _ _ Sh) as (Be1 & Be2 & Be3).
  unfold estim_r. fold rinv. rewrite Cx, Cy, Ry, CR. set (b := r_blocks _ _ _ _). assert (D : b = r_blocks Nz mz kz qz') by (unfold b, nrows, ncols; rewrite Ry, Cy, Cx, CR; auto). clearbody b. subst b. set (b := r_blocks _ _ _ _).
  destruct (block_ok k k 0 b work 0) as (B0 & L0); [unfold b; cbn; f_equal; lia|lia..|].
  destruct (block_ok km km 1 b work (Z.of_nat (k * k))) as (B1 & L1); [unfold b; cbn; f_equal; lia|lia..|].
  destruct (block_ok q km 2 b work (Z.of_nat (k * k) + Z.of_nat (km * km))) as (B2 & L2); [unfold b; cbn; f_equal; lia|lia..|].
  destruct (block_ok (N * m) km 3 b work (Z.of_nat (k * k) + Z.of_nat (km * km) + Z.of_nat (q * km))) as (B3 & L3); [unfold b; cbn; f_equal; lia|lia..|].
  destruct (block_ok (N * m) q 4 b work (Z.of_nat (k * k) + Z.of_nat (km * km) + Z.of_nat (q * km) + Z.of_nat (N * m * km))) as (B4 & L4); [unfold b; cbn; f_equal; lia|lia..|].
  destruct (block_ok q 1 5 b work (Z.of_nat (k * k) + Z.of_nat (km * km) + Z.of_nat (q * km) + Z.of_nat (N * m * km) + Z.of_nat (N * m * q))) as (B5 & L5); [unfold b; cbn; f_equal; lia|lia..|].
  assert (Pkm : (0 < km)%nat) by nia. assert (PNm : (0 < N * m)%nat) by nia.
  destruct (dot_ata_hl k N _ _ _ (Mat k k (nth_block b 0 work)) Hx B0 eq_refl eq_refl Pk PN) as (xtx & -> & H0). cbn [bind].
  destruct (kron_hl m m k k _ _ _ _ rinv xtx (Mat km km (nth_block b 1 work)) Hr H0 B1) as (V & -> & H1); [cbn; lia|cbn; lia|]. cbn [bind].
  replace (m * k)%nat with km in H1 by lia.
  destruct (tr_dot_hl q km km _ _ _ _ _ _ (Mat q km (nth_block b 2 work)) HR H1 B2 eq_refl eq_refl Pq Pkm) as (RV & -> & H2). cbn [bind].
  assert (Wg : mat_ok (Mat q q (data (s_gvar s)))) by (unfold mat_ok; cbn [rows cols data]; nia).
  destruct (dot_hl q km q _ _ _ _ _ _ (Mat q q (data (s_gvar s))) H2 HR Wg eq_refl eq_refl Pq Pkm) as (gm & -> & H3). cbn [bind].
  destruct (norm1_hl _ _ _ _ _ H2) as (n1 & -> & Hn1). cbn [bind].
  exists gm. eexists. split; [exact H3|]. split; [intros ->; reflexivity|]. intros gi Ei. rewrite Ei. cbn [bind].
  destruct (inv_hl lapack _ _ _ _ _ Sound H3 Ei) as (Hi & Inv). destruct (norm1_hl _ _ _ _ _ Hi) as (n2 & -> & Hn2). cbn [bind].
  destruct (kron_hl m m N k _ _ _ _ rinv x (Mat (N * m) km (nth_block b 3 work)) Hr Hx B3) as (Vx & -> & H4); [cbn; lia|cbn; lia|]. cbn [bind].
  replace (m * k)%nat with km in H4 by lia. replace (m * N)%nat with (N * m)%nat in H4 by lia.
  destruct (dot_hl (N * m) km q _ _ _ _ _ _ (Mat (N * m) q (nth_block b 4 work)) H4 HR B4 eq_refl eq_refl PNm Pkm) as (VxR & -> & H5). cbn [bind].
  assert (Hv : hl (length (data y)) (N * m) 1 (fun t _ => el y (t mod Nz) (t / Nz)) (Mat (N * m) 1 (data y))).
  { apply reshape_hl. replace (Mat N m (data y)) with y; [exact Hy|]. destruct y as [ry cy dy]. cbn in *. subst. reflexivity. }
  destruct (tr_dot_hl q (N * m) 1 _ _ _ _ _ _ (Mat q 1 (nth_block b 5 work)) H5 Hv B5 eq_refl eq_refl Pq PNm) as (z & -> & H6). cbn [bind].
  assert (Wga : mat_ok (Mat q 1 (data (s_gamma s)))) by (unfold mat_ok; cbn [rows cols data]; lia).
  destruct (dot_hl q q 1 _ _ _ _ _ _ (Mat q 1 (data (s_gamma s))) Hi H6 Wga eq_refl eq_refl Pq Pq) as (gamma & -> & H7). cbn [bind data] in *.
  assert (Hga : hl (length (data (s_gamma s))) q 1 (el gamma) gamma). { destruct H7 as ((A & B & C & E) & L). split; auto. split; auto. }
  assert (Wb : mat_ok (Mat km 1 (data (s_beta s)))) by (unfold mat_ok in *; cbn [rows cols data]; rewrite Be1, Be2 in Be3; lia).
  destruct (dot_hl km q 1 _ _ _ _ _ _ (Mat km 1 (data (s_beta s))) HR Hga Wb eq_refl eq_refl Pkm Pq) as (b1 & Eb & H8). cbn [data] in H8.
  assert (E8 : dot00 R gamma (s_beta s) = Ok (Mat k m (data b1)) /\ b1 = Mat km 1 (data b1)).
  { unfold dot in Eb. rewrite (hl_cols _ _ _ _ _ HR), (hl_rows _ _ _ _ _ HR), (hl_rows _ _ _ _ _ Hga), (hl_cols _ _ _ _ _ Hga) in Eb. unfold nrows, ncols in Eb. cbn [rows cols data] in Eb. rewrite !Z.eqb_refl in Eb. cbn [negb orb] in Eb.
    unfold dot00. rewrite (hl_cols _ _ _ _ _ HR), (hl_rows _ _ _ _ _ HR), (hl_cols _ _ _ _ _ Hga). unfold in_mat in *.
    destruct (gemm _ _ _ _ _ _ _ _ _ _ _ _ _) as [d| |]; cbn [bind] in *; try discriminate. unfold with_data in *. cbn [rows cols] in Eb. injection Eb as <-. rewrite Be1, Be2. auto. }
  destruct E8 as (-> & Eb1). cbn [bind]. rewrite Eb1 in H8. apply unvec_hl in H8.
  assert (Sh1 : shaped N m k (Est gamma (Mat k m (data b1)) gi (s_yhat s) (s_resid s) rinv 0)).
  { destruct Sh. constructor; cbn [s_gamma s_beta s_gvar s_yhat s_resid s_rvar rows cols data]; auto.
    - destruct Hga as (_ & ->). auto. - destruct Hi as (_ & ->). auto. - split; auto. split; auto. exact (hl_ok _ _ _ _ _ H8). - split; auto. split; auto. exact (hl_ok _ _ _ _ _ Hr). }
  destruct (fitted_ok _ _ _ _ H8 Sh1) as (yh & rs & rv & -> & F1 & F2 & F3). cbn [bind].
  exists n1, n2. eexists. split; [reflexivity|]. constructor; cbn [s_gamma s_beta s_gvar s_yhat s_resid s_rvar s_cn]; auto.
  - exact (hl_has _ _ _ _ _ Hi).
  - exact (hl_has _ _ _ _ _ H7).
  - constructor; cbn [s_gamma s_beta s_gvar s_yhat s_resid s_rvar]; auto. exact (hl_has _ _ _ _ _ H8).
  - destruct Sh1. constructor; cbn [s_gamma s_beta s_gvar s_yhat s_resid s_rvar] in *; auto; eapply has_shape; eauto.
Qed.
End Restricted.
End Est.
