(** Estimation of systems: Calculate without restrictions and with given ones. *)
From Verif Require Import SurModel SurSpec MatProofs MatProofs2 MatProofs3 MatProofs5 MatDotProofs DataProofs LsProofs OlsProofs SurProofs SurProofs2 SurProofs3 SurProofs4.
From Coq Require Import Lia ZifyBool.
Local Open Scope Z_scope.

Section Calc.
Context (lapack : mat Qc -> list Qc * Z) (pt : Z -> Qc -> Qc) (det_pd : mat Qc -> option Qc).
Context (d : sur_decl) (N m k : nat) (y x : mat Qc) (storage work : list Qc) (R : option (mat Qc)) (maxp : Qc).
Hypothesis Sound : lapack_sound lapack.
Hypothesis Len : forall M, length (fst (lapack M)) = length (data M).
Hypothesis Wy : mat_ok y.
Hypothesis Wx : mat_ok x.
Hypothesis Ry : rows y = N.
Hypothesis Rx : rows x = N.
Hypothesis Cy : cols y = m.
Hypothesis Cx : cols x = k.
Hypothesis SizeS : sur_storage d <= Z.of_nat (length storage).
Hypothesis SizeW : sur_work d <= Z.of_nat (length work).
Local Notation Nz := (Z.of_nat N).
Local Notation mz := (Z.of_nat m).
Local Notation kz := (Z.of_nat k).
Local Notation km := (k * m)%nat.
Local Notation need := (declare Nz mz kz (sd_restricted d) (sd_details d) (sd_iter d)).
Local Notation calc := (sur_calculate lapack pt det_pd d y x storage work R maxp).

Record checks : Prop := {
  ck_N : (0 < N)%nat; ck_m : (0 < m)%nat; ck_k : (0 < k)%nat;
  ck_storage : sur_storage need <= sur_storage d; ck_work : sur_work need <= sur_work d;
  ck_search : sd_iter d <> 0 -> maxp <> 0%Qc /\ exists R0, R = Some R0 /\ rows R0 = km /\ cols R0 = km;
  ck_given : sd_iter d = 0 -> match R with None => True | Some R0 => rows R0 = km /\ (cols R0 <= km)%nat end }.
Lemma calc_cases : calc = Throw /\ ~ checks \/ checks /\ calc = do e <- sur_estimate lapack pt d y x storage work R maxp; sur_finish pt det_pd d y x storage work e.
Proof using Ry Cy Cx.
  clear Rx Wx Wy SizeS SizeW Sound Len. unfold sur_calculate. cbv zeta. replace (nrows y) with Nz by (unfold nrows; lia). replace (ncols y) with mz by (unfold ncols; lia). replace (ncols x) with kz by (unfold ncols; lia).
  assert (Ek : kz * mz = Z.of_nat km) by lia.
  destruct ((Nz <? 1) || (mz <? 1) || (kz <? 1)) eqn:E1; [left; split; [reflexivity|]; intros [P1 P2 P3]; lia|].
  rewrite Ek. destruct ((sur_work d <? _) || (sur_storage d <? _)) eqn:E2; [left; split; [reflexivity|]; intros [P1 P2 P3 P4 P5]; lia|].
  destruct (negb (sd_iter d =? 0) && match R with Some _ => _ | None => _ end) eqn:E3.
  { left. split; [reflexivity|]. intros [P1 P2 P3 P4 P5 P6 _]. apply andb_true_iff in E3. destruct E3 as (E3 & E4). destruct P6 as (_ & R0 & -> & P7 & P8); [lia|]. unfold nrows, ncols in E4. lia. }
  destruct ((sd_iter d =? 0) && match R with Some _ => _ | None => _ end) eqn:E4.
  { left. split; [reflexivity|]. intros [P1 P2 P3 P4 P5 _ P7]. apply andb_true_iff in E4. destruct E4 as (E4 & E5). specialize (P7 ltac:(lia)). destruct R as [R0|]; [|discriminate]. unfold nrows, ncols in E5. lia. }
  destruct (negb (sd_iter d =? 0) && qeqb maxp 0) eqn:E5.
  { left. split; [reflexivity|]. intros [_ _ _ _ _ P6 _]. apply andb_true_iff in E5. destruct E5 as (E5 & E6). destruct (qeqb_spec maxp 0%Qc) as [E7|]; [|discriminate]. destruct P6 as (P6 & _); [lia|]. auto. }
  right. split; [|reflexivity]. constructor; try lia.
  - intros Ni. replace (negb (sd_iter d =? 0)) with true in E3, E5 by lia. cbn [andb] in E3, E5. split; [destruct (qeqb_spec maxp 0%Qc); auto; discriminate|]. destruct R as [R0|]; [|discriminate]. exists R0. unfold nrows, ncols in E3. split; auto. lia.
  - intros Ni. replace (sd_iter d =? 0) with true in E4 by lia. cbn [andb] in E4. destruct R as [R0|]; auto. unfold nrows, ncols in E4. lia.
Qed.

Hypothesis Ck : checks.
Lemma sizes_ok : sur_storage need <= Z.of_nat (length storage) /\ sur_work need <= Z.of_nat (length work).
Proof using Ck SizeS SizeW. destruct Ck. clear - SizeS SizeW ck_storage0 ck_work0. lia. Qed.
(** What the details are. *)
Definition details_are (restr : option (mat Qc)) (gv b : Z -> Z -> Qc) (o : option details) : Prop :=
  if sd_details d then exists dd, o = Some dd /\ has k m (fun i j => var_of restr gv (j * kz + i)) (d_var dd) /\
        d_prob dd = map (fun a => prob pt Nz (b (a mod kz) (a / kz)) (var_of restr gv a)) (upto (Z.of_nat km)) else o = None.
Local Notation s0 := (fields N m k storage).
Lemma s0_shaped : shaped N m k s0 /\ rows (s_gamma s0) = km /\ cols (s_gamma s0) = 1%nat /\ rows (s_gvar s0) = km /\ cols (s_gvar s0) = km.
Proof using Ck SizeS SizeW.
  destruct sizes_ok as (S1 & S2). assert (S3 := storage_sizes d N m k storage S1). apply fields_shaped. clear - S3. destruct (sd_details d || negb (sd_iter d =? 0)); lia.
Qed.
(** ** Without restrictions *)
Lemma un_work : (k * k + km <= length work)%nat.
Proof using Ck SizeS SizeW. destruct sizes_ok as (S1 & S2). apply (work_sizes d N m k work (ck_N Ck) (ck_k Ck) (ck_m Ck) S2). Qed.
Lemma calc_un : sd_restricted d = false ->
  exists xtx, hl (k * k) k k (product Nz (fun i l => el x l i) (el x)) xtx /\ (inv00 lapack xtx = Throw -> calc = Throw) /\
    forall xi, inv00 lapack xtx = Ok xi -> exists n1 n2 s o, un_result N m k y x (el xi) n1 n2 true s0 s /\ det_of det_pd m (el (s_rvar s)) o /\
      match o with
      | None => calc = Throw
      | Some v => exists dt, calc = Ok (Sur s R 0 v dt) /\ details_are None (kronf k k (el (s_rvar s)) (el xi)) (el (s_beta s)) dt
      end.
Proof using All.
  intros Nr. destruct calc_cases as [(_ & C)|(_ & ->)]; [contradiction|]. destruct s0_shaped as (Sh & G1 & G2 & V1 & V2). destruct sizes_ok as (S1 & S2).
  destruct (estim_un_ok lapack N m k y x work Sound Wy Wx Ry Rx Cy Cx (ck_N Ck) (ck_k Ck) (ck_m Ck) un_work true s0 Sh G1 G2 V1 V2) as (xtx & H0 & Ht & Hok).
  exists xtx. split; [exact H0|]. unfold sur_estimate. rewrite Nr, Ry, Cy, Cx. split; [intros E; rewrite (Ht E); reflexivity|].
  intros xi Ei. destruct (Hok xi Ei) as (n1 & n2 & s & E & Ur). rewrite E. cbn [bind].
  assert (Gv : sd_details d = true -> good_restr m k None (kronf k k (el (s_rvar s)) (el xi)) s). { intros _. cbn [good_restr]. assert (G := un_gvar _ _ _ _ _ _ _ _ _ _ _ Ur). cbn iota in G. rewrite (Nat.mul_comm m k) in G. exact G. }
  assert (Hb := co_beta _ _ _ _ _ _ _ (un_co _ _ _ _ _ _ _ _ _ _ _ Ur)).
  assert (Hb' : has k m (el (s_beta s)) (s_beta s)) by (destruct Hb as (A & B & C & D); split; [auto|split; [auto|split; auto]]).
  destruct (finish_ok lapack pt det_pd d N m k y x storage work maxp Sound Len Wy Wx Ry Rx Cy Cx (ck_N Ck) (ck_k Ck) (ck_m Ck) S1 S2 s R 0 _ _ None ltac:(rewrite Nr; reflexivity) (un_shaped _ _ _ _ _ _ _ _ _ _ _ Ur) Hb' Gv) as (o & D & F).
  exists n1, n2, s, o. split; [exact Ur|]. split; [exact D|]. exact F.
Qed.

(** ** With restrictions *)
Lemma r_work (R0 : mat Qc) : sd_restricted d = true -> (cols R0 <= km)%nat -> (k * k + km * km + cols R0 * km + N * m * km + N * m * cols R0 + cols R0 <= length work)%nat.
Proof using Ck SizeS SizeW.
  intros Rs Q. destruct sizes_ok as (S1 & S2). destruct (work_sizes d N m k work (ck_N Ck) (ck_k Ck) (ck_m Ck) S2) as (_ & _ & _ & K4). rewrite Rs in K4. specialize (K4 eq_refl).
  clear - K4 Q. assert (Z1 := Nat.mul_le_mono_r _ _ km Q). assert (Z2 := Nat.mul_le_mono_l _ _ (N * m) Q). revert K4 Z1 Z2. generalize (cols R0 * km)%nat (N * m * cols R0)%nat (N * m * km)%nat (km * km)%nat (k * k)%nat. intros. lia.
Qed.
(** A step with restrictions, from an estimate. *)
Lemma step_r R0 s : sd_restricted d = true -> mat_ok R0 -> rows R0 = km -> (0 < cols R0 <= km)%nat -> shaped N m k s ->
  let W := el (with_data (s_rvar s) (fst (lapack (s_rvar s)))) in
  exists gm n, hl n (cols R0) (cols R0) (gram_of N m k x R0 W) gm /\
    (inv00 lapack gm = Throw -> estim_r lapack y x R0 work s = Throw) /\
    forall gi, inv00 lapack gm = Ok gi -> exists n1 n2 s', estim_r lapack y x R0 work s = Ok s' /\ r_result N m k y x (cols R0) R0 W (el gi) n1 n2 s'.
Proof using All.
  intros Rs WR RR Q Sh. apply (estim_r_ok lapack N m k y x work Sound Wy Wx Ry Rx Cy Cx (ck_N Ck) (ck_k Ck) (ck_m Ck) un_work (cols R0) R0 WR RR eq_refl ltac:(lia) ltac:(lia) (r_work R0 Rs ltac:(lia)) Len s Sh).
Qed.
Lemma calc_r R0 : sd_restricted d = true -> sd_iter d = 0 -> R = Some R0 -> mat_ok R0 -> (0 < cols R0)%nat ->
  exists xtx, hl (k * k) k k (product Nz (fun i l => el x l i) (el x)) xtx /\ (inv00 lapack xtx = Throw -> calc = Throw) /\
    forall xi, inv00 lapack xtx = Ok xi -> exists n1 n2 s, un_result N m k y x (el xi) n1 n2 false s0 s /\
      let W := el (with_data (s_rvar s) (fst (lapack (s_rvar s)))) in
      exists gm n, hl n (cols R0) (cols R0) (gram_of N m k x R0 W) gm /\ (inv00 lapack gm = Throw -> calc = Throw) /\
        forall gi, inv00 lapack gm = Ok gi -> exists n1 n2 s2 o, r_result N m k y x (cols R0) R0 W (el gi) n1 n2 s2 /\ det_of det_pd m (el (s_rvar s2)) o /\
          match o with
          | None => calc = Throw
          | Some v => exists dt, calc = Ok (Sur s2 R 0 v dt) /\ details_are R (el gi) (el (s_beta s2)) dt
          end.
Proof using All.
  intros Rs It ER WR Pq. destruct calc_cases as [(_ & C)|(_ & ->)]; [contradiction|]. destruct s0_shaped as (Sh & G1 & G2 & V1 & V2). destruct sizes_ok as (S1 & S2).
  assert (Q := ck_given Ck It). rewrite ER in Q. destruct Q as (RR & Q).
  destruct (estim_un_ok lapack N m k y x work Sound Wy Wx Ry Rx Cy Cx (ck_N Ck) (ck_k Ck) (ck_m Ck) un_work false s0 Sh G1 G2 V1 V2) as (xtx & H0 & Ht & Hok).
  exists xtx. split; [exact H0|]. unfold sur_estimate. rewrite Rs, It, Ry, Cy, Cx, ER. cbn [Z.eqb]. split; [intros E; rewrite (Ht E); reflexivity|].
  intros xi Ei. destruct (Hok xi Ei) as (n1 & n2 & s & E & Ur). exists n1, n2, s. split; [exact Ur|]. cbv zeta. rewrite E. cbn [bind].
  destruct (step_r R0 s Rs WR RR (conj Pq Q) (un_shaped _ _ _ _ _ _ _ _ _ _ _ Ur)) as (gm & n & Hg & Gt & Gok). exists gm, n. split; [exact Hg|].
  split; [intros E2; rewrite (Gt E2); reflexivity|]. intros gi Eg. destruct (Gok gi Eg) as (n3 & n4 & s2 & E2 & Rr). rewrite E2. cbn [bind].
  assert (Gv : sd_details d = true -> good_restr m k (Some R0) (el gi) s2). { intros _. cbn [good_restr]. split; [auto|split; [auto|split; [auto|split]]]. - apply (r_gvar _ _ _ _ _ _ _ _ _ _ _ _ Rr). - destruct (r_gamma _ _ _ _ _ _ _ _ _ _ _ _ Rr) as (A & B & _). auto. }
  assert (Hb := co_beta _ _ _ _ _ _ _ (r_co _ _ _ _ _ _ _ _ _ _ _ _ Rr)).
  assert (Hb' : has k m (el (s_beta s2)) (s_beta s2)) by (destruct Hb as (A & B & C & D); split; [auto|split; [auto|split; auto]]).
  destruct (finish_ok lapack pt det_pd d N m k y x storage work maxp Sound Len Wy Wx Ry Rx Cy Cx (ck_N Ck) (ck_k Ck) (ck_m Ck) S1 S2 s2 (Some R0) 0 _ _ (Some R0) ltac:(rewrite Rs; reflexivity) (r_shaped _ _ _ _ _ _ _ _ _ _ _ _ Rr) Hb' Gv) as (o & D & F).
  exists n3, n4, s2, o. split; [exact Rr|]. split; [exact D|]. exact F.
Qed.
End Calc.
