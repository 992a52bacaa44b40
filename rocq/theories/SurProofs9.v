(** Proofs about projections: Calculate, and the covariances of estimated models. *)
From Verif Require Import SurModel SurSpec MatProofs MatProofs2 MatProofs3 MatProofs5 MatProofs6 MatDotProofs DataProofs LsProofs OlsProofs SurProofs SurProofs2 SurProofs3 SurProofs4 SurProofs5 SurProofs6 SurProofs7 SurProofs8.
From Verif Require HistProofs2.
From Coq Require Import Lia ZifyBool.
Local Open Scope Z_scope.

Lemma sized_hl r c M : sized r c M -> hl (length (data M)) r c (el M) M.
Proof. intros (<- & <- & W). apply hl_self. auto. Qed.
Lemma proj_ok d s R m x storage work : proj_call d s R m x storage work ->
  let n := nrows x in let k := ncols x in let need := PD n (Z.of_nat m) k (pd_restricted d) (pd_var d) in let restr := if pd_restricted d then R else None in
  let cf := proj_covariance k (el x) (all_covariances restr (el (s_gvar s))) (el (s_rvar s)) in
  proj_storage need <= proj_storage d -> proj_work need <= proj_work d ->
  exists p, proj_calculate d s R m x storage work = Ok p /\ has (rows x) m (projected k (el x) (el (s_beta s))) (p_means p) /\
  if pd_var d then exists Vr Cv c, p_vars p = Some Vr /\ p_cov p = Some Cv /\ has (rows x) m (fun t j => cf t j j) Vr /\ has m m c Cv /\ (0 < n -> forall i j, c i j = cf (n - 1) i j)
  else p_vars p = None /\ p_cov p = None.
Proof.
  intros [Pm Pk Wx Sb Sr Fr Ss Sw] n k need restr cf L1 L2. unfold proj_calculate. cbv zeta. fold n k. fold need.
  destruct (Z.ltb_spec (proj_work d) (proj_work need)) as [K|_]; [lia|]. destruct (Z.ltb_spec (proj_storage d) (proj_storage need)) as [K|_]; [lia|]. cbn [orb].
  assert (EN : pd_restricted d && match R with None => true | _ => false end = false) by (destruct (pd_restricted d); [destruct Fr as (R0 & -> & _)|]; reflexivity). rewrite EN. fold restr.
  set (K0 := cols x) in *. set (n0 := rows x). assert (Ek : k = Z.of_nat K0) by reflexivity. assert (En : n = Z.of_nat n0) by reflexivity.
  set (q := match restr with Some R => cols R | None => (K0 * m)%nat end).
  assert (Q : (0 < q <= K0 * m)%nat /\ sized q q (s_gvar s) /\ match restr with Some R0 => mat_ok R0 /\ rows R0 = (K0 * m)%nat | None => True end).
  { unfold q, restr. destruct (pd_restricted d); [destruct Fr as (R0 & -> & A & B & C & D); auto|]. split; [nia|]. split; auto. }
  destruct Q as (Pq & Sv & HR). assert (Nm : n * Z.of_nat m = Z.of_nat (n0 * m)) by lia. assert (Mm : Z.of_nat m * Z.of_nat m = Z.of_nat (m * m)) by lia.
  unfold proj_storage, need in L1. unfold proj_work, need in L2. cbn [pd_n pd_m pd_k pd_restricted pd_var] in L1, L2.
  assert (Lw : if pd_var d then Z.of_nat m + Z.of_nat K0 + Z.of_nat K0 * Z.of_nat m * Z.of_nat m + 2 * (Z.of_nat m * Z.of_nat q) <= Z.of_nat (length work) \/ (restr = None /\ Z.of_nat m + Z.of_nat K0 + 2 * (Z.of_nat m * (Z.of_nat K0 * Z.of_nat m)) <= Z.of_nat (length work)) else Z.of_nat m + Z.of_nat K0 <= Z.of_nat (length work)).
  { unfold proj_work in Sw. rewrite Ek in L2. clear - L2 Sw Pq. unfold restr in *. destruct (pd_var d); [|lia]. destruct (pd_restricted d); [left|right; split; [reflexivity|lia]].
    assert (Z.of_nat m * Z.of_nat q <= Z.of_nat m * (Z.of_nat K0 * Z.of_nat m)) by nia. lia. }
  destruct (block_ok n0 m 0 (proj_blocks n (Z.of_nat m)) storage 0) as (B0 & G0); [cbn; f_equal; lia|lia|unfold proj_storage in Ss; rewrite <- Nm; destruct (pd_var d); nia|].
  assert (B1 : pd_var d = true -> (mat_ok (Mat n0 m (nth_block (proj_blocks n (Z.of_nat m)) 1 storage)) /\ length (nth_block (proj_blocks n (Z.of_nat m)) 1 storage) = (n0 * m)%nat) /\ mat_ok (Mat m m (nth_block (proj_blocks n (Z.of_nat m)) 2 storage))).
  { intros Ev. unfold proj_storage in Ss. rewrite Ev in *. split.
    - apply (block_ok n0 m 1 _ storage (n * Z.of_nat m)); [cbn; f_equal; lia|lia|rewrite <- Nm; lia].
    - apply (block_ok m m 2 _ storage (n * Z.of_nat m + n * Z.of_nat m)); [cbn; f_equal; lia|lia|rewrite <- Mm; lia]. }
  set (p0 := Proj _ _ _).
  destruct (loop_ok s m K0 (el (s_beta s)) (el (s_gvar s)) (el (s_rvar s)) restr _ _ _ Pm Pk (proj1 Pq) (sized_hl _ _ _ Sb) (sized_hl _ _ _ Sv) (sized_hl _ _ _ Sr) HR (pd_var d) n0 _ (el x) x work (hl_self x Wx) Lw (n0 * m)%nat (length (nth_block (proj_blocks n (Z.of_nat m)) 2 storage))
    (zrange 0 n) (el (Mat n0 m (nth_block (proj_blocks n (Z.of_nat m)) 0 storage))) (el (Mat n0 m (nth_block (proj_blocks n (Z.of_nat m)) 1 storage))) (el (Mat m m (nth_block (proj_blocks n (Z.of_nat m)) 2 storage))) p0) as (p & E & Hm & Hv).
  - intros t Ht. apply in_zrange in Ht. lia.
  - unfold p0. cbn [p_means]. rewrite <- G0. apply (hl_self (Mat n0 m _) B0).
  - unfold p0. destruct (pd_var d); [|exact Logic.I]. destruct (B1 eq_refl) as ((C1 & C2) & C3). do 2 eexists. split; [reflexivity|]. split; [reflexivity|]. split; [rewrite <- C2; apply (hl_self (Mat n0 m _) C1)|apply (hl_self (Mat m m _) C3)].
  - assert (Full : forall g f t j, 0 <= t < Z.of_nat n0 -> upd_rows (zrange 0 n) g f t j = g t j).
    { intros g f t j Ht. unfold upd_rows. destruct (in_dec Z.eq_dec t (zrange 0 n)) as [|Hn]; auto. destruct Hn. apply in_zrange. lia. }
    exists p. split; [exact E|]. split; [apply hl_has in Hm; destruct Hm as (A & B & C & D); split; [exact A|split; [exact B|split; [exact C|]]]; intros t j Ht Hj; rewrite D by auto; apply Full; auto|].
    destruct (pd_var d).
    + destruct Hv as (Vr & Cv & c & E1 & E2 & H1 & H2 & _ & H3). exists Vr, Cv, c. split; [exact E1|]. split; [exact E2|]. split; [|split; [exact (hl_has _ _ _ _ _ H2)|]].
      * apply hl_has in H1. destruct H1 as (A & B & C & D). split; [exact A|split; [exact B|split; [exact C|]]]. intros t j Ht Hj. rewrite D by auto. apply (Full (fun t j => cf t j j)). auto.
      * intros Pn i j. apply (H3 (zrange 0 (n - 1)) (n - 1)). unfold zrange. replace (Z.to_nat n) with (Z.to_nat (n - 1) + 1)%nat by lia. rewrite seq_app, map_app. cbn [seq map]. f_equal. f_equal. lia.
    + destruct Hv as (-> & ->). split; reflexivity.
Qed.
(** ** Nonnegative variances *)
Lemma psd_ext n a b : (forall i j, 0 <= i < n -> 0 <= j < n -> a i j = b i j) -> psd n a -> psd n b.
Proof. intros E P v. specialize (P v). rewrite (st_ext n _ (fun t => sum_to n (fun s => v t * a t s * v s))%Qc); auto. intros i Hi. apply st_ext. intros j Hj. rewrite E by auto. reflexivity. Qed.
Lemma psd_diag n a j : psd n a -> 0 <= j < n -> (0 <= a j j)%Qc.
Proof.
  intros P Hj. specialize (P (fun i => if j =? i then 1 else 0)%Qc). rewrite (st_ext n _ (fun t => if j =? t then a t j else 0%Qc)) in P; [rewrite st_pick in P by auto; exact P|].
  intros t Ht. rewrite (st_ext n _ (fun s => if j =? s then (if j =? t then 1 else 0) * a t s else 0)%Qc); [rewrite (st_pick n (fun s => (if j =? t then 1 else 0) * a t s)%Qc) by auto; destruct (j =? t); ring|].
  intros s' _. destruct (j =? t), (j =? s'); ring.
Qed.
Lemma sandwich_psd n q R V : psd q V -> psd n (sandwich q R V).
Proof.
  intros P a. set (v := fun l => sum_to n (fun i => a i * R i l)%Qc). assert (Q := P v).
  replace (sum_to n _) with (sum_to q (fun l => sum_to q (fun l' => v l * V l l' * v l')))%Qc; [exact Q|]. symmetry.
  rewrite (st_ext n _ (fun i => sum_to q (fun l => sum_to q (fun l' => a i * R i l * (V l l' * v l'))))%Qc).
  - rewrite st_swap. apply st_ext. intros l _. rewrite st_swap. apply st_ext. intros l' _. rewrite st_mul_r. unfold v. ring.
  - intros i _. rewrite (st_ext n _ (fun i' => sum_to q (fun l => sum_to q (fun l' => a i * R i l * V l l' * (a i' * R i' l'))))%Qc).
    + rewrite st_swap. apply st_ext. intros l _. rewrite st_swap. apply st_ext. intros l' _. rewrite st_mul. unfold v. ring.
    + intros i' _. unfold sandwich. rewrite <- st_mul, <- st_mul_r. apply st_ext. intros l _. rewrite <- st_mul, <- st_mul_r. apply st_ext. intros. ring.
Qed.
Lemma part_psd (m k : nat) (x A : Z -> Z -> Qc) t : (0 < k)%nat -> let kz := Z.of_nat k in psd (kz * Z.of_nat m) A ->
  psd (Z.of_nat m) (fun j j' => sum_to kz (fun i => sum_to kz (fun i' => x t i * A (j * kz + i)%Z (j' * kz + i')%Z * x t i')))%Qc.
Proof.
  intros Pk kz P a. set (w := fun c => (a (c / kz)%Z * x t (c mod kz)%Z)%Qc). assert (Q := P w). rewrite (Z.mul_comm kz) in Q.
  rewrite (st_split kz m) in Q by lia. replace (sum_to (Z.of_nat m) _) with (sum_to (Z.of_nat m) (fun j => sum_to kz (fun i => sum_to (Z.of_nat m * kz) (fun s => w (j * kz + i)%Z * A (j * kz + i)%Z s * w s)%Qc))); [exact Q|].
  apply st_ext. intros j Hj. rewrite (st_ext kz _ (fun i => sum_to (Z.of_nat m) (fun j' => sum_to kz (fun i' => a j * (x t i * A (j * kz + i)%Z (j' * kz + i')%Z * x t i') * a j')))%Qc).
  - rewrite st_swap. apply st_ext. intros j' Hj'. rewrite <- st_mul, <- st_mul_r. apply st_ext. intros i Hi. rewrite <- st_mul, <- st_mul_r. apply st_ext. intros. ring.
  - intros i Hi. rewrite (st_split kz m) by lia. apply st_ext. intros j' Hj'. apply st_ext. intros i' Hi'. unfold w. destruct (pair_div j i kz Hi) as (-> & ->). destruct (pair_div j' i' kz Hi') as (-> & ->). ring.
Qed.
Lemma psd_add n a b : psd n a -> psd n b -> psd n (fun i j => a i j + b i j)%Qc.
Proof.
  intros Pa Pb v. specialize (Pa v). specialize (Pb v). rewrite (st_ext n _ (fun t => sum_to n (fun s => v t * a t s * v s) + sum_to n (fun s => v t * b t s * v s))%Qc).
  - rewrite st_add. qlra.
  - intros t _. rewrite <- st_add. apply st_ext. intros. ring.
Qed.
(** A Kronecker product with a matrix of cross products. *)
Lemma kron_psd (m k : nat) N (e g : Z -> Z -> Qc) d : (0 < k)%nat -> (0 <= d)%Qc -> psd (Z.of_nat k) g -> psd (Z.of_nat k * Z.of_nat m) (kronf k k (fun j j' => cross N e j j' * d)%Qc g).
Proof.
  intros Pk Hd P v. set (kz := Z.of_nat k) in *. rewrite (Z.mul_comm kz). rewrite (st_split kz m) by lia.
  set (w := fun t i => sum_to (Z.of_nat m) (fun j => e t j * v (j * kz + i)%Z)%Qc).
  replace (sum_to (Z.of_nat m) _) with (sum_to N (fun t => d * sum_to kz (fun i => sum_to kz (fun i' => w t i * g i i' * w t i'))))%Qc.
  { apply st_nonneg. intros t _. assert (Q := P (w t)). assert (Q2 := Qcmult_le_compat_r _ _ _ Hd Q). rewrite Qcmult_0_l in Q2. exact Q2. }
  symmetry. transitivity (sum_to kz (fun i => sum_to kz (fun i' => sum_to N (fun t => d * (w t i * g i i' * w t i'))))%Qc).
  - rewrite st_swap. apply st_ext. intros i Hi.
    rewrite (st_ext (Z.of_nat m) _ (fun j => sum_to kz (fun i' => sum_to (Z.of_nat m) (fun j' => sum_to N (fun t => d * (e t j * v (j * kz + i)%Z) * (g i i' * (e t j' * v (j' * kz + i')%Z)))))%Qc)).
    + rewrite st_swap. apply st_ext. intros i' Hi'. rewrite (st_ext (Z.of_nat m) _ (fun j => sum_to N (fun t => d * (e t j * v (j * kz + i)%Z) * (g i i' * w t i')))%Qc).
      * rewrite st_swap. apply st_ext. intros t _. rewrite st_mul_r, st_mul. change (sum_to (Z.of_nat m) (fun t0 => e t t0 * v (t0 * kz + i)%Z)%Qc) with (w t i). ring.
      * intros j _. rewrite st_swap. apply st_ext. intros t _. rewrite st_mul, st_mul. reflexivity.
    + intros j Hj. rewrite (st_split kz m) by lia. rewrite st_swap. apply st_ext. intros i' Hi'. apply st_ext. intros j' Hj'. unfold kronf. fold kz. destruct (pair_div j i kz Hi) as (-> & ->). destruct (pair_div j' i' kz Hi') as (-> & ->).
      unfold cross. rewrite <- !st_mul_r, <- st_mul, <- st_mul_r. apply st_ext. intros. ring.
  - rewrite (st_ext kz _ (fun i => sum_to N (fun t => sum_to kz (fun i' => d * (w t i * g i i' * w t i'))))%Qc) by (intros; apply st_swap). rewrite st_swap. apply st_ext. intros t _.
    rewrite <- st_mul. apply st_ext. intros i _. rewrite <- st_mul. reflexivity.
Qed.
(** The information matrix is symmetric and positive semidefinite. *)
Section Info.
Context (N m k q : nat) (W x R : Z -> Z -> Qc).
Context (Pk : (0 < k)%nat) (PN : (0 < N)%nat).
Local Notation Nz := (Z.of_nat N). Local Notation mz := (Z.of_nat m). Local Notation kz := (Z.of_nat k). Local Notation qz' := (Z.of_nat q).
Lemma info_sym : StatSpec.symmetric mz W -> StatSpec.symmetric qz' (info_matrix Nz mz kz W x R).
Proof using.
  intros Sy l l' _ _. unfold info_matrix. rewrite (st_swap mz mz). apply st_ext. intros j Hj. apply st_ext. intros j' Hj'. rewrite (st_swap kz kz). apply st_ext. intros i Hi. apply st_ext. intros i' Hi'. rewrite (Sy j' j) by auto.
  replace (xtx Nz x i' i) with (xtx Nz x i i') by (unfold xtx; apply st_ext; intros; ring). ring.
Qed.
Lemma info_psd : psd mz W -> psd qz' (info_matrix Nz mz kz W x R).
Proof using.
  intros Ps v. set (u := fun t j => sum_to kz (fun i => sum_to qz' (fun l => R (j * kz + i)%Z l * v l) * x t i)%Qc).
  replace (sum_to qz' _) with (sum_to Nz (fun t => sum_to mz (fun j => sum_to mz (fun j' => u t j * W j j' * u t j'))))%Qc; [apply st_nonneg; intros t _; apply Ps|].
  rewrite (st_swap Nz mz). rewrite (st_ext mz _ (fun j => sum_to mz (fun j' => sum_to Nz (fun t => u t j * W j j' * u t j')))%Qc) by (intros; apply st_swap).
  symmetry. unfold info_matrix.
  rewrite (st_ext qz' _ (fun l => sum_to mz (fun j => sum_to mz (fun j' => sum_to qz' (fun l' => v l * sum_to kz (fun i => sum_to kz (fun i' => R (j * kz + i)%Z l * (W j j' * xtx Nz x i i') * R (j' * kz + i')%Z l')) * v l'))))%Qc).
  2:{ intros l _. rewrite (st_ext qz' _ (fun l' => sum_to mz (fun j => sum_to mz (fun j' => v l * sum_to kz (fun i => sum_to kz (fun i' => R (j * kz + i)%Z l * (W j j' * xtx Nz x i i') * R (j' * kz + i')%Z l')) * v l')))%Qc).
      - rewrite st_swap. apply st_ext. intros j _. apply st_swap.
      - intros l' _. rewrite <- st_mul, <- st_mul_r. apply st_ext. intros j _. rewrite <- st_mul, <- st_mul_r. reflexivity. }
  rewrite st_swap. apply st_ext. intros j _. rewrite st_swap. apply st_ext. intros j' _.
  transitivity (sum_to kz (fun i => sum_to kz (fun i' => W j j' * xtx Nz x i i' * sum_to qz' (fun l => R (j * kz + i)%Z l * v l) * sum_to qz' (fun l => R (j' * kz + i')%Z l * v l)))%Qc).
  - rewrite (st_ext qz' _ (fun l => sum_to kz (fun i => sum_to kz (fun i' => W j j' * xtx Nz x i i' * (R (j * kz + i)%Z l * v l) * sum_to qz' (fun l' => R (j' * kz + i')%Z l' * v l'))))%Qc).
    + rewrite st_swap. apply st_ext. intros i _. rewrite st_swap. apply st_ext. intros i' _. rewrite st_mul_r, st_mul. ring.
    + intros l _. rewrite (st_ext qz' _ (fun l' => sum_to kz (fun i => sum_to kz (fun i' => W j j' * xtx Nz x i i' * (R (j * kz + i)%Z l * v l) * (R (j' * kz + i')%Z l' * v l'))))%Qc).
      * rewrite st_swap. apply st_ext. intros i _. rewrite st_swap. apply st_ext. intros i' _. rewrite st_mul. ring.
      * intros l' _. rewrite <- st_mul, <- st_mul_r. apply st_ext. intros i _. rewrite <- st_mul, <- st_mul_r. apply st_ext. intros. ring.
  - rewrite (st_ext Nz _ (fun t => sum_to kz (fun i => sum_to kz (fun i' => W j j' * (x t i * x t i') * sum_to qz' (fun l => R (j * kz + i)%Z l * v l) * sum_to qz' (fun l => R (j' * kz + i')%Z l * v l))))%Qc).
    + symmetry. rewrite st_swap. apply st_ext. intros i _. rewrite st_swap. apply st_ext. intros i' _. unfold xtx. rewrite !st_mul_r, st_mul. reflexivity.
    + intros t _. unfold u. set (f := fun i => sum_to qz' (fun l => R (j * kz + i)%Z l * v l)%Qc). set (g := fun i => sum_to qz' (fun l => R (j' * kz + i)%Z l * v l)%Qc).
      change (sum_to kz (fun i => f i * x t i) * W j j' * sum_to kz (fun i => g i * x t i) = sum_to kz (fun i => sum_to kz (fun i' => W j j' * (x t i * x t i') * f i * g i')))%Qc.
      rewrite <- !st_mul_r. apply st_ext. intros i _. rewrite <- st_mul. apply st_ext. intros. ring.
Qed.
End Info.
