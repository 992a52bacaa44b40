(** Proofs about projections of a system of equations. *)
From Verif Require Import SurModel SurSpec MatProofs MatProofs2 MatProofs3 MatProofs5 MatDotProofs DataProofs LsProofs OlsProofs SurProofs SurProofs2 SurProofs3 SurProofs7.
From Coq Require Import Lia ZifyBool.
Local Open Scope Z_scope.

Lemma hl_get0 n r c f M i j : hl n r c f M -> 0 <= i < Z.of_nat r -> 0 <= j < Z.of_nat c -> get0 M i j = Ok (f i j).
Proof.
  intros H Hi Hj. rewrite (el_get0 M i j); [rewrite (hl_el _ _ _ _ _ _ _ H); auto|apply (hl_ok _ _ _ _ _ H)|]. split; [rewrite (hl_rows _ _ _ _ _ H)|rewrite (hl_cols _ _ _ _ _ H)]; auto.
Qed.
Lemma hl_rd n r c f M i j : hl n r c f M -> 0 <= i < Z.of_nat r -> 0 <= j < Z.of_nat c -> rd (data M) (j * Z.of_nat r + i) = Ok (f i j).
Proof. intros H Hi Hj. assert (E := hl_get0 _ _ _ _ _ _ _ H Hi Hj). unfold get0, pos in E. rewrite (hl_rows _ _ _ _ _ H) in E. rewrite <- E. f_equal. lia. Qed.
Lemma get_row0_hl n (r c : nat) f M i S : hl n r c f M -> mat_ok S -> rows S = c -> cols S = 1%nat -> 0 <= i < Z.of_nat r ->
  exists S', get_row0 M i S = Ok S' /\ hl (length (data S)) c 1 (fun a _ => f i a) S'.
Proof.
  intros H W E1 E2 Hi. unfold get_row0. rewrite (hl_cols _ _ _ _ _ H). destruct (mwrites_ok (fun a _ => Some (f i a)) (map (fun j => (j, get0 M i j)) (zrange 0 (Z.of_nat c))) S W) as (S' & E & Bc).
  - intros p e Hin. apply in_map_iff in Hin. destruct Hin as (j & [= <- <-] & Hj). apply in_zrange in Hj. exists j, 0, (f i j). split; [unfold inside, nrows, ncols; rewrite E1, E2; lia|].
    split; [unfold pos; lia|]. split; [apply (hl_get0 _ _ _ _ _ _ _ H); auto|auto].
  - intros a b (Ha & Hb). unfold nrows, ncols in *. rewrite E1 in Ha. rewrite E2 in Hb. left. apply in_map_iff. exists (a, get0 M i a). assert (b = 0) by lia. subst. split; [unfold pos; cbn; lia|]. apply in_map_iff. exists a. split; auto. apply in_zrange. lia.
  - exists S'. split; auto. rewrite <- E1, <- E2. apply (becomes_hl S S' _ _ W Bc). auto.
Qed.
Lemma set_row_gen n (r c : nat) f M i (g : Z -> Qc) e : hl n r c f M -> 0 <= i < Z.of_nat r -> (forall j, 0 <= j < Z.of_nat c -> e j = Ok (g j)) ->
  exists M', mwrites M (map (fun j => (pos M i j, e j)) (zrange 0 (ncols M))) = Ok M' /\ hl n r c (fun a b => if a =? i then g b else f a b) M'.
Proof.
  intros H Hi He. assert (W := hl_ok _ _ _ _ _ H). rewrite (hl_cols _ _ _ _ _ H). assert (Hr := hl_rows _ _ _ _ _ H). assert (Hc := hl_cols _ _ _ _ _ H).
  destruct (mwrites_ok (fun a b => if a =? i then Some (g b) else Some (f a b)) (map (fun j => (pos M i j, e j)) (zrange 0 (Z.of_nat c))) M W) as (S' & E & Bc).
  - intros p e' Hin. apply in_map_iff in Hin. destruct Hin as (j & [= <- <-] & Hj). apply in_zrange in Hj. exists i, j, (g j). split; [unfold inside; rewrite Hr, Hc; lia|]. split; auto. split; [apply He; auto|]. rewrite Z.eqb_refl. reflexivity.
  - intros a b (Ha & Hb). destruct (Z.eqb_spec a i) as [->|K]; [left|right; apply (entry_hl _ _ _ _ _ _ _ H); lia].
    apply in_map_iff. exists (pos M i b, e b). split; auto. apply in_map_iff. exists b. split; auto. apply in_zrange. lia.
  - exists S'. split; auto. destruct (becomes_hl M S' _ (fun a b => if a =? i then g b else f a b) W Bc) as (X & L); [intros a b _; destruct (a =? i); auto|].
    destruct H as ((<- & <- & _) & <-). split; auto.
Qed.
Lemma set_row0_hl n nS (r c : nat) f g M i S : hl n r c f M -> hl nS c 1 g S -> 0 <= i < Z.of_nat r ->
  exists M', set_row0 M i S = Ok M' /\ hl n r c (fun a b => if a =? i then g b 0 else f a b) M'.
Proof.
  intros H HS Hi. unfold set_row0. apply (set_row_gen n r c f M i (fun b => g b 0)); auto. intros j Hj. assert (E := hl_rd _ _ _ _ _ j 0 HS Hj ltac:(lia)). rewrite <- E. f_equal.
Qed.
Lemma set_diag0_hl n nS (r c : nat) f g M i S : hl n r c f M -> hl nS c c g S -> 0 <= i < Z.of_nat r ->
  exists M', set_row_from_diag0 M i S = Ok M' /\ hl n r c (fun a b => if a =? i then g b b else f a b) M'.
Proof.
  intros H HS Hi. unfold set_row_from_diag0. apply (set_row_gen n r c f M i (fun b => g b b)); auto. intros j Hj. rewrite <- (hl_rd _ _ _ _ _ j j HS Hj Hj). rewrite (hl_rows _ _ _ _ _ HS). f_equal. lia.
Qed.
Lemma t_dot_vector_hl nM nB (k m : nat) f g M B S : hl nM k m f M -> hl nB k 1 g B -> mat_ok S -> rows S = m -> cols S = 1%nat -> (0 < k)%nat ->
  exists S', t_dot_vector M B S 1 0 = Ok S' /\ hl (length (data S)) m 1 (fun i _ => product (Z.of_nat k) (fun i l => f l i) g i 0) S'.
Proof.
  intros HM HB WS E1 E2 Pk.
  destruct (t_dot_vector_ok M B S 1 0 (hl_ok _ _ _ _ _ HM) (hl_ok _ _ _ _ _ HB) WS) as (S' & E & Bc); rewrite ?(hl_rows _ _ _ _ _ HM), ?(hl_cols _ _ _ _ _ HM), ?(hl_rows _ _ _ _ _ HB), ?(hl_cols _ _ _ _ _ HB); try (unfold nrows, ncols; lia).
  exists S'. split; auto. rewrite <- E1, <- E2. apply (becomes_hl S S' _ _ WS Bc). intros i j (Hi & Hj). unfold nrows, ncols in Hi, Hj. assert (j = 0) by lia. subst j. rewrite scaled_one, (hl_rows _ _ _ _ _ HM). f_equal. apply product_ext'. intros l Hl.
  split; [apply (hl_el _ _ _ _ _ _ _ HM)|apply (hl_el _ _ _ _ _ _ _ HB)]; auto; lia.
Qed.

Section Proj.
Context (s : est) (m k : nat) (b : Z -> Z -> Qc) (V Sg : Z -> Z -> Qc) (restr : option (mat Qc)) (nb nv ns : nat).
Let q := match restr with Some R => cols R | None => (k * m)%nat end.
Context (Pm : (0 < m)%nat) (Pk : (0 < k)%nat) (Pq : (0 < q)%nat).
Context (Hb : hl nb k m b (s_beta s)) (HV : hl nv q q V (s_gvar s)) (HS : hl ns m m Sg (s_rvar s)).
Context (HR : match restr with Some R => mat_ok R /\ rows R = (k * m)%nat | None => True end).
Notation kz := (Z.of_nat k). Notation mz := (Z.of_nat m).

(** I (x) x for a vector x. *)
Lemma iox_at (x : Z -> Z -> Qc) j i l : 0 <= i < kz -> 0 <= l < mz -> kronf k 1 iden x (j * kz + i) l = (iden j l * x i 0%Z)%Qc.
Proof using. intros Hi Hl. unfold kronf. destruct (pair_div j i kz Hi) as (-> & ->). rewrite Z.div_1_r, Z.mod_1_r. reflexivity. Qed.
Lemma iden_pick j (f : Z -> Qc) : 0 <= j < mz -> sum_to mz (fun l => iden l j * f l)%Qc = f j.
Proof using.
  intros Hj. rewrite (st_ext mz (fun l => iden l j * f l)%Qc (fun l => if j =? l then f l else 0%Qc)); [apply (st_pick mz f j); auto|]. intros l _. unfold iden. rewrite (Z.eqb_sym l j). destruct (j =? l); ring.
Qed.
Lemma wsizes (work : list Qc) : let w := proj_wblocks mz kz (Z.of_nat q) in mz + kz + kz * mz * mz + 2 * (mz * Z.of_nat q) <= Z.of_nat (length work) \/ (restr = None /\ mz + kz + 2 * (mz * (kz * mz)) <= Z.of_nat (length work)) ->
  (mat_ok (Mat (k * m) m (nth_block w 2 work)) /\ mat_ok (Mat m q (nth_block w 3 work))) /\ (restr <> None -> mat_ok (Mat q m (nth_block w 4 work))).
Proof using HR HV Pk Pm Pq.
  intros w L. assert (E : Z.of_nat (k * m * m) = kz * mz * mz) by lia. assert (E2 : Z.of_nat (m * q) = mz * Z.of_nat q) by lia. assert (E3 : 0 <= kz * mz * mz) by lia. assert (E4 : 0 <= mz * Z.of_nat q) by lia.
  assert (L' : mz + kz + kz * mz * mz + mz * Z.of_nat q <= Z.of_nat (length work)).
  { destruct L as [L|(-> & L)]; [lia|]. unfold q. rewrite Nat2Z.inj_mul. lia. }
  split; [split|].
  - destruct (block_ok (k * m) m 2 w work (mz + kz)) as (B & _); auto; [unfold w; cbn; f_equal; lia|lia|lia].
  - destruct (block_ok m q 3 w work (mz + kz + kz * mz * mz)) as (B & _); auto; [unfold w; cbn; f_equal; lia|lia|lia].
  - intros Nr. destruct L as [L|(K & _)]; [|contradiction]. destruct (block_ok q m 4 w work (mz + kz + kz * mz * mz + mz * Z.of_nat q)) as (B & _); auto; [unfold w; cbn; f_equal; lia|lia|lia].
Qed.
(** The covariance for one row. *)
Lemma cov_ok nr nc (xr : Z -> Z -> Qc) row cov work c0 : hl nr k 1 xr row -> hl nc m m c0 cov ->
  mz + kz + kz * mz * mz + 2 * (mz * Z.of_nat q) <= Z.of_nat (length work) \/ (restr = None /\ mz + kz + 2 * (mz * (kz * mz)) <= Z.of_nat (length work)) ->
  exists C, proj_cov s restr m k row work cov = Ok C /\ hl nc m m (fun j j' => proj_covariance kz (fun _ i => xr i 0) (all_covariances restr V) Sg 0 j j') C.
Proof using HR HV HS Pk Pm Pq.
  intros Hr Hc Lw. destruct (wsizes work Lw) as ((B2 & B3) & B4). unfold proj_cov. cbv zeta. fold q. set (w := proj_wblocks mz kz (Z.of_nat q)) in *.
  destruct (iden_kron_hl m k 1 xr nr row (Mat (k * m) m (nth_block w 2 work)) Hr B2) as (Iox & -> & H1); [cbn; lia|cbn; lia|]. cbn [bind]. cbn [data] in H1.
  replace (m * k)%nat with (k * m)%nat in H1 by lia. replace (m * 1)%nat with m in H1 by lia.
  assert (Lc : length (data cov) = nc) by (destruct Hc; auto). assert (Wc := hl_ok _ _ _ _ _ Hc). assert (Rc : rows cov = m /\ cols cov = m) by (destruct Hc as ((? & ? & _) & _); auto). destruct Rc as (Rc & Cc).
  assert (Pkm : (0 < k * m)%nat) by nia. assert (St : forall f, sum_to (Z.of_nat (k * m)) f = sum_to mz (fun j => sum_to kz (fun i => f (j * kz + i)))).
  { intros f. replace (Z.of_nat (k * m)) with (mz * kz) by lia. apply st_split. lia. }
  assert (Fin : forall (G X : mat Qc) nG nX A, hl nG m q (fun i l' => sum_to (Z.of_nat q) (fun l => A l i * V l l')%Qc) G -> hl nX q m A X ->
    (forall j j', 0 <= j < mz -> 0 <= j' < mz -> sum_to (Z.of_nat q) (fun l => sum_to (Z.of_nat q) (fun l' => A l j * V l l' * A l' j'))%Qc = sum_to kz (fun i => sum_to kz (fun i' => xr i 0%Z * all_covariances restr V (j * kz + i) (j' * kz + i')%Z * xr i' 0%Z))%Qc) ->
    exists C, (do C <- dot G X cov 1 0; add_in_checked C (s_rvar s)) = Ok C /\ hl nc m m (fun j j' => proj_covariance kz (fun _ i => xr i 0) (all_covariances restr V) Sg 0 j j') C).
  { intros G X nG nX A HG HX Eq. destruct (dot_hl m q m _ _ nG nX G X cov HG HX Wc Rc Cc Pm Pq) as (C & -> & H3). cbn [bind]. rewrite Lc in H3.
    destruct (plus_hl m m _ _ _ _ C (s_rvar s) H3 HS) as (C' & E & H4). exists C'. split; [exact E|]. revert H4. apply hl_ext. intros j j' Hj Hj'. unfold proj_covariance. rewrite <- Eq by auto. rewrite Qcplus_comm. f_equal.
    unfold product. change (qsum (map ?f (upto ?n))) with (sum_to n f). rewrite (st_swap (Z.of_nat q) (Z.of_nat q)). apply st_ext. intros l' Hl'. rewrite <- st_mul_r. apply st_ext. intros. ring. }
  assert (St0 : forall (f : Z -> Qc) l, 0 <= l < mz -> sum_to (Z.of_nat (k * m)) (fun a => f a * kronf k 1 iden xr a l)%Qc = sum_to kz (fun i => f (l * kz + i)%Z * xr i 0%Z)%Qc).
  { intros f l Hl. rewrite St. rewrite (st_ext mz _ (fun j => iden j l * sum_to kz (fun i => f (j * kz + i)%Z * xr i 0%Z))%Qc); [apply iden_pick; auto|].
    intros j Hj. rewrite <- st_mul. apply st_ext. intros i Hi. rewrite iox_at by auto. ring. }
  destruct restr as [R|] eqn:Er.
  - destruct HR as (WR & RR). assert (HR' : hl (length (data R)) (k * m) q (el R) R) by (rewrite <- RR; unfold q; apply hl_self; auto).
    destruct (tr_dot_hl q (k * m) m _ _ _ _ R Iox (Mat q m (nth_block w 4 work)) HR' H1 (B4 ltac:(discriminate)) eq_refl eq_refl Pq Pkm) as (X & -> & H2). cbn [bind].
    destruct (tr_dot_hl m q q _ _ _ _ X (s_gvar s) (Mat m q (nth_block w 3 work)) H2 HV B3 eq_refl eq_refl Pm Pq) as (G & -> & H3). cbn [bind].
    eapply (Fin G X _ _ (fun l j => sum_to kz (fun i => el R (j * kz + i) l * xr i 0%Z))%Qc).
    + eapply hl_ext; [|exact H3]. intros i l' Hi Hl'. unfold product. change (qsum (map ?f (upto ?n))) with (sum_to n f). apply st_ext. intros l Hl. f_equal. change (qsum (map ?f (upto ?n))) with (sum_to n f). rewrite (St0 (fun a => el R a l)) by auto. reflexivity.
    + eapply hl_ext; [|exact H2]. intros l i Hl Hi. unfold product. change (qsum (map ?f (upto ?n))) with (sum_to n f). rewrite (St0 (fun a => el R a l)) by auto. reflexivity.
    + intros j j' Hj Hj'. cbn [all_covariances]. unfold sandwich. unfold q. fold (ncols R). clear.
      rewrite (st_ext kz _ (fun i => sum_to (ncols R) (fun l => sum_to (ncols R) (fun l' => (el R (j * kz + i) l * xr i 0%Z) * (V l l' * sum_to kz (fun i' => el R (j' * kz + i')%Z l' * xr i' 0%Z)))))%Qc).
      * rewrite (st_swap kz). apply st_ext. intros l Hl. rewrite (st_swap kz). apply st_ext. intros l' Hl'. rewrite st_mul_r. ring.
      * intros i Hi. rewrite (st_ext kz _ (fun i' => sum_to (ncols R) (fun l => sum_to (ncols R) (fun l' => el R (j * kz + i) l * xr i 0%Z * V l l' * (el R (j' * kz + i') l' * xr i' 0%Z))))%Qc).
        -- rewrite (st_swap kz). apply st_ext. intros l Hl. rewrite (st_swap kz). apply st_ext. intros l' Hl'. rewrite st_mul. ring.
        -- intros i' Hi'. rewrite <- st_mul. rewrite <- st_mul_r. apply st_ext. intros l Hl. rewrite <- st_mul, <- st_mul_r. apply st_ext. intros l' Hl'. ring.
  - destruct (tr_dot_hl m q q _ _ _ _ Iox (s_gvar s) (Mat m q (nth_block w 3 work)) H1 HV B3 eq_refl eq_refl Pm Pq) as (G & -> & H3). cbn [bind].
    eapply (Fin G Iox _ _ (kronf k 1 iden xr)).
    + exact H3.
    + exact H1.
    + intros j j' Hj Hj'. cbn [all_covariances]. unfold q.
      rewrite (st_ext (Z.of_nat (k * m)) _ (fun a => sum_to kz (fun i' => V a (j' * kz + i') * xr i' 0%Z) * kronf k 1 iden xr a j)%Qc).
      * rewrite (St0 (fun a => sum_to kz (fun i' => V a (j' * kz + i') * xr i' 0%Z))%Qc) by auto. apply st_ext. intros i Hi. rewrite <- st_mul_r. apply st_ext. intros. ring.
      * intros a Ha. rewrite <- (St0 (fun a' => V a a')) by auto. rewrite <- st_mul_r. apply st_ext. intros. ring.
Qed.
(** The loop. *)
Context (var : bool) (n nx : nat) (xf : Z -> Z -> Qc) (x : mat Qc) (work : list Qc).
Context (Hx : hl nx n k xf x).
Context (Lw : if var then mz + kz + kz * mz * mz + 2 * (mz * Z.of_nat q) <= Z.of_nat (length work) \/ (restr = None /\ mz + kz + 2 * (mz * (kz * mz)) <= Z.of_nat (length work)) else mz + kz <= Z.of_nat (length work)).
Notation cf := (proj_covariance kz xf (all_covariances restr V) Sg).
Definition upd_rows (l : list Z) (g f : Z -> Z -> Qc) (t j : Z) : Qc := if in_dec Z.eq_dec t l then g t j else f t j.
Lemma small_work : mz + kz <= Z.of_nat (length work).
Proof using Lw. destruct var; [|exact Lw]. destruct Lw as [L|(_ & L)]; clear - L; lia. Qed.
Lemma loop_ok nm nc : forall l f fv fc (p : proj), (forall t, In t l -> 0 <= t < Z.of_nat n) -> hl nm n m f (p_means p) ->
  (if var then exists Vr Cv, p_vars p = Some Vr /\ p_cov p = Some Cv /\ hl nm n m fv Vr /\ hl nc m m fc Cv else True) ->
  exists p', proj_loop s restr var m k x work l p = Ok p' /\ hl nm n m (upd_rows l (projected kz xf b) f) (p_means p') /\
  (if var then exists Vr Cv c, p_vars p' = Some Vr /\ p_cov p' = Some Cv /\ hl nm n m (upd_rows l (fun t j => cf t j j) fv) Vr /\ hl nc m m c Cv /\ (l = [] -> c = fc) /\ (forall l' t, l = l' ++ [t] -> forall i j, c i j = cf t i j)
   else p_vars p' = p_vars p /\ p_cov p' = p_cov p).
Proof using All.
  assert (Lw' := small_work). induction l as [|i l IH]; intros f fv fc p Hl Hm Hv.
  - exists p. split; [reflexivity|]. split; [exact Hm|]. destruct var; [|split; reflexivity]. destruct Hv as (Vr & Cv & E1 & E2 & H1 & H2). exists Vr, Cv, fc. repeat split; auto; try apply H1; try apply H2. intros l' t E. destruct l'; discriminate E.
  - assert (Hi : 0 <= i < Z.of_nat n) by (apply Hl; left; auto). cbn [proj_loop].
    destruct (block_ok k 1 1 (proj_wblocks mz kz 0) work mz) as (B1 & _); [cbn; f_equal; lia|lia|lia|]. destruct (block_ok m 1 0 (proj_wblocks mz kz 0) work 0) as (B0 & _); [cbn; f_equal; lia|lia|lia|].
    destruct (get_row0_hl nx n k xf x i (Mat k 1 (nth_block (proj_wblocks mz kz 0) 1 work)) Hx B1 eq_refl eq_refl Hi) as (row & -> & Hr). cbn [bind].
    destruct (t_dot_vector_hl nb _ k m b _ (s_beta s) row (Mat m 1 (nth_block (proj_wblocks mz kz 0) 0 work)) Hb Hr B0 eq_refl eq_refl Pk) as (v & -> & Hvv). cbn [bind].
    destruct (set_row0_hl nm _ n m f _ (p_means p) i v Hm Hvv Hi) as (means & -> & Hm'). cbn [bind].
    assert (Hm2 : hl nm n m (upd_rows [i] (projected kz xf b) f) means).
    { eapply hl_ext; [|exact Hm']. intros a j Ha Hj. unfold upd_rows. destruct (in_dec Z.eq_dec a [i]) as [[->|[]]|Hn].
      - rewrite Z.eqb_refl. unfold product, projected. change (qsum (map ?f (upto ?n))) with (sum_to n f). apply st_ext. intros. ring.
      - destruct (Z.eqb_spec a i) as [->|]; auto. destruct Hn. left. auto. }
    assert (Two : forall g h, (forall t j, upd_rows l g (upd_rows [i] g h) t j = upd_rows (i :: l) g h t j)).
    { intros g h t j. unfold upd_rows. destruct (in_dec Z.eq_dec t l) as [H|H]; destruct (in_dec Z.eq_dec t (i :: l)) as [H1|H1]; destruct (in_dec Z.eq_dec t [i]) as [H2|H2]; auto.
      - destruct H1. right. auto.
      - destruct H1. right. auto.
      - destruct H1 as [->|H1]; [destruct H2; left; auto|contradiction].
      - destruct H2 as [->|[]]. destruct H1. left. auto. }
    assert (Hl' : forall t, In t l -> 0 <= t < Z.of_nat n) by (intros; apply Hl; right; auto).
    destruct var.
    + destruct Hv as (Vr & Cv & E1 & E2 & H1 & H2). rewrite E1, E2. destruct (cov_ok _ nc (fun a _ => xf i a) row Cv work fc Hr H2 Lw) as (C & -> & HC). cbn [bind].
      destruct (set_diag0_hl nm nc n m fv _ Vr i C H1 HC Hi) as (Vr' & -> & HV'). cbn [bind].
      destruct (IH (upd_rows [i] (projected kz xf b) f) (upd_rows [i] (fun t j => cf t j j) fv) (fun j j' => cf i j j') (Proj means (Some Vr') (Some C)) Hl' Hm2) as (p' & E & A1 & Vr2 & Cv2 & c & A2 & A3 & A4 & A5 & A6 & A7).
      { exists Vr', C. split; [reflexivity|]. split; [reflexivity|]. split; [|exact HC]. eapply hl_ext; [|exact HV']. intros a j Ha Hj. unfold upd_rows. destruct (in_dec Z.eq_dec a [i]) as [[->|[]]|Hn].
        - rewrite Z.eqb_refl. reflexivity.
        - destruct (Z.eqb_spec a i) as [->|]; auto. destruct Hn. left. auto. }
      exists p'. split; [exact E|]. split; [eapply hl_ext; [|exact A1]; intros; apply Two|]. exists Vr2, Cv2, c. split; [exact A2|]. split; [exact A3|]. split; [eapply hl_ext; [|exact A4]; intros; apply (Two (fun t j => cf t j j) fv)|]. split; [exact A5|].
      split; [discriminate|]. intros l' t El i0 j0. destruct l' as [|a l'].
      * cbn in El. injection El as -> ->. rewrite A6 by reflexivity. reflexivity.
      * cbn in El. injection El as -> El. apply (A7 l' t El).
    + destruct (IH (upd_rows [i] (projected kz xf b) f) fv fc (Proj means (p_vars p) (p_cov p)) Hl' Hm2 Logic.I) as (p' & E & A1 & A2 & A3). exists p'. split; [exact E|]. split; [eapply hl_ext; [|exact A1]; intros; apply Two|]. split; [exact A2|exact A3].
Qed.
End Proj.
