(** Estimation of systems: the significance search. *)
From Verif Require Import SurModel SurSpec MatProofs MatProofs2 MatProofs3 MatProofs5 MatDotProofs DataProofs LsProofs OlsProofs MPolyProofs SurProofs SurProofs2 SurProofs3 SurProofs4 SurProofs5.
From Coq Require Import Lia ZifyBool.
Local Open Scope Z_scope.

Definition sel (sig : list Z) (a l : Z) : Qc := if nth (Z.to_nat l) sig (-1) =? a then 1%Qc else 0%Qc.
Lemma select_ok (km : nat) sig R : (forall c, In c sig -> 0 <= c < Z.of_nat km) -> (km * length sig <= length (data R))%nat ->
  exists R', select km sig R = Ok R' /\ hl (length (data R)) km (length sig) (sel sig) R'.
Proof.
  intros Hs HL. unfold select. set (M0 := Mat km (length sig) (data R)). assert (W0 : mat_ok M0) by (unfold mat_ok, M0; cbn; lia).
  destruct (set_value_ok M0 0%Qc W0) as (M1 & -> & B1). cbn [bind].
  assert (H1 : hl (length (data R)) km (length sig) (fun _ _ => 0%Qc) M1) by (exact (becomes_hl M0 M1 _ _ W0 B1 (fun _ _ _ => eq_refl))).
  destruct H1 as ((R1 & C1 & W1 & E1) & L1).
  destruct (mwrites_ok (fun a l => Some (sel sig a l)) (map (fun ij => (pos M1 (snd ij) (fst ij), Ok 1%Qc)) (enum sig)) M1 W1) as (M2 & E2 & B2).
  - intros p e Hin. apply in_map_iff in Hin. destruct Hin as ((l & c) & [= <- <-] & Hin). cbn [fst snd]. apply enum_in in Hin. destruct Hin as (L0 & En).
    exists c, l, 1%Qc. assert (Lt := nth_error_Some sig (Z.to_nat l)). rewrite En in Lt. assert (Lt' : (Z.to_nat l < length sig)%nat) by (apply Lt; discriminate).
    split; [|split; [reflexivity|split; [reflexivity|]]].
    + unfold inside, nrows, ncols. rewrite R1, C1. split; [apply Hs; apply nth_error_In in En; auto|lia].
    + unfold sel. rewrite (nth_error_nth _ _ _ En). rewrite Z.eqb_refl. reflexivity.
  - intros a l Hin. destruct Hin as (H1 & H2). unfold nrows, ncols in H1, H2. rewrite R1 in H1. rewrite C1 in H2.
    unfold sel. destruct (Z.eqb_spec (nth (Z.to_nat l) sig (-1)) a) as [E|E].
    + left. apply in_map_iff. exists (pos M1 a l, Ok 1%Qc). split; [reflexivity|]. apply in_map_iff. exists (l, a). split; [reflexivity|]. apply enum_in. split; [lia|]. rewrite <- E. apply nth_error_nth'. lia.
    + right. rewrite entry_el; [f_equal; apply E1; auto|auto|]. unfold inside, nrows, ncols. rewrite R1, C1. auto.
  - exists M2. split; [exact E2|]. rewrite <- R1, <- C1, <- L1. exact (becomes_hl M1 M2 _ _ W1 B2 (fun _ _ _ => eq_refl)).
Qed.
Lemma sel_out sig a l : 0 <= l < Z.of_nat (length sig) -> ~ In a sig -> sel sig a l = 0%Qc.
Proof. intros Hl Hn. unfold sel. destruct (Z.eqb_spec (nth (Z.to_nat l) sig (-1)) a) as [E|E]; auto. exfalso. apply Hn. rewrite <- E. apply nth_In. lia. Qed.

(** The coefficients whose probability is small. *)
Definition passes (maxp : Qc) (p : option Qc) : bool := match p with Some p => qleb p maxp | None => false end.
Lemma significant_ok maxp dd (km : nat) pr : d_prob dd = map pr (upto (Z.of_nat km)) -> significant maxp dd (Z.of_nat km) = Ok (filter (fun a => passes maxp (pr a)) (upto (Z.of_nat km))).
Proof.
  intros E. unfold significant. rewrite (rmap_const _ (fun j => (j, pr j))).
  - cbn [bind]. f_equal. change (zrange 0 (Z.of_nat km)) with (upto (Z.of_nat km)). clear E. induction (upto (Z.of_nat km)) as [|a t IH]; [reflexivity|]. cbn [map filter snd]. unfold passes at 1. destruct (match pr a with Some p => qleb p maxp | None => false end); cbn [map fst]; rewrite IH; reflexivity.
  - intros j Hj. apply in_zrange in Hj. rewrite E. assert (rd (map pr (upto (Z.of_nat km))) j = Ok (pr j)) as ->; [|reflexivity].
    unfold rd. replace (j <? 0) with false by lia. rewrite nth_error_map. replace (nth_error (upto (Z.of_nat km)) (Z.to_nat j)) with (Some j); [reflexivity|].
    symmetry. change (upto (Z.of_nat km)) with (zrange 0 (Z.of_nat km)). rewrite zrange_nth by lia. f_equal. lia.
Qed.

Lemma upto_NoDup n : NoDup (upto n).
Proof. unfold upto. apply FinFun.Injective_map_NoDup; [intros a b; lia|apply seq_NoDup]. Qed.

Section Loop.
Context (lapack : mat Qc -> list Qc * Z) (pt : Z -> Qc -> Qc) (det_pd : mat Qc -> option Qc).
Context (d : sur_decl) (N m k : nat) (y x : mat Qc) (storage work : list Qc) (R : option (mat Qc)) (maxp : Qc).
Hypothesis Sound : lapack_sound lapack.
Hypothesis Len : forall M, length (fst (lapack M)) = length (data M).
Hypothesis Wy : mat_ok y.
Hypothesis Wx : mat_ok x.
Hypothesis Ry : rows y = N.
Hypothesis Rx : rows x = N.
Hypothesis Cy : cols y = m.
Hypothesis Cx : cols x = k.
Hypothesis SizeS : sur_storage d <= Z.of_nat (length storage).
Hypothesis SizeW : sur_work d <= Z.of_nat (length work).
Local Notation Nz := (Z.of_nat N).
Local Notation mz := (Z.of_nat m).
Local Notation kz := (Z.of_nat k).
Local Notation km := (k * m)%nat.
Hypothesis Ck : checks d N m k R maxp.
Hypothesis Rs : sd_restricted d = true.
Hypothesis Ni : sd_iter d <> 0.
Local Notation std := (std_block N m k storage).

(** The estimates with the coefficients of sig free, from weights that belong to other estimates. *)
Definition prob_of (s : est) (restr : option (mat Qc)) (gv : Z -> Z -> Qc) (a : Z) : option Qc := prob pt Nz (el (s_beta s) (a mod kz) (a / kz)) (var_of restr gv a).
Record stage (sig : list Z) (s : est) (R' : mat Qc) : Prop := {
  sg_nodup : NoDup sig;
  sg_range : forall a, In a sig -> 0 <= a < Z.of_nat km;
  sg_ne : sig <> [];
  sg_R : hl (length (data R')) km (length sig) (sel sig) R';
  sg_len : (km * km <= length (data R'))%nat;
  sg_res : exists sp bp gi n1 n2, consistent N m k y x bp sp /\ r_result N m k y x (length sig) R' (el (with_data (s_rvar sp) (fst (lapack (s_rvar sp))))) gi n1 n2 s }.
Lemma var_sel sig R' gv a : hl (length (data R')) km (length sig) (sel sig) R' -> 0 <= a < Z.of_nat km -> ~ In a sig -> var_of (Some R') gv a = 0%Qc.
Proof.
  intros HR Ha Hn. unfold var_of. destruct HR as ((A & B & C & D) & _). rewrite B. rewrite (st_ext _ _ (fun _ => 0%Qc)); [apply st_zero|]. intros l Hl. rewrite (st_ext _ _ (fun _ => 0%Qc)); [apply st_zero|].
  intros l' Hl'. rewrite (D a l Ha Hl), (sel_out sig a l Hl Hn). ring.
Qed.
Lemma beta_sel sig s R' a : stage sig s R' -> 0 <= a < Z.of_nat km -> ~ In a sig -> el (s_beta s) (a mod kz) (a / kz) = 0%Qc.
Proof using Ck.
  intros Sg Ha Hn. assert (Pk := ck_k _ _ _ _ _ _ Ck). clear - Pk Sg Ha Hn. destruct (sg_res _ _ _ Sg) as (sp & bp & gi & n1 & n2 & _ & Rr). destruct (div_bound a kz mz) as (_ & D1 & D2); [lia|lia|].
  destruct (co_beta _ _ _ _ _ _ _ (r_co _ _ _ _ _ _ _ _ _ _ _ _ Rr)) as (_ & _ & _ & ->); auto. unfold restricted. rewrite (st_ext _ _ (fun _ => 0%Qc)); [apply st_zero|]. intros l Hl.
  destruct (sg_R _ _ _ Sg) as ((A & B & C & D) & _). replace (a / kz * kz + a mod kz) with a by (rewrite (Z.div_mod a kz) at 1; [|lia]; lia). rewrite (D a l Ha Hl), (sel_out sig a l Hl Hn). ring.
Qed.
Lemma prob_sel sig s R' gv a : stage sig s R' -> 0 <= a < Z.of_nat km -> ~ In a sig -> prob_of s (Some R') gv a = None.
Proof using Ck.
  intros Sg Ha Hn. unfold prob_of. rewrite (beta_sel sig s R' a Sg Ha Hn), (var_sel sig R' gv a (sg_R _ _ _ Sg) Ha Hn). reflexivity.
Qed.
Lemma stage_more sig s R' : stage sig s R' -> shaped N m k s /\ mat_ok R' /\ rows R' = km /\ cols R' = length sig /\ (0 < cols R' <= km)%nat /\ good_restr m k (Some R') (el (s_gvar s)) s /\ exists b, consistent N m k y x b s.
Proof.
  intros Sg. destruct (sg_R _ _ _ Sg) as ((A & B & C & _) & _). destruct (sg_res _ _ _ Sg) as (sp & bp & gi & n1 & n2 & _ & Rr).
  assert (Q : (0 < cols R' <= km)%nat).
  { rewrite B. split; [destruct sig; [destruct (sg_ne _ _ _ Sg); reflexivity|cbn; lia]|].
    assert (I : incl sig (upto (Z.of_nat km))) by (intros a Ha; apply in_upto; apply (sg_range _ _ _ Sg); auto).
    assert (Le := NoDup_incl_length (sg_nodup _ _ _ Sg) I). rewrite upto_length in Le. lia. }
  split; [apply (r_shaped _ _ _ _ _ _ _ _ _ _ _ _ Rr)|]. split; [auto|split; [auto|split; [auto|split; [auto|split]]]].
  - cbn [good_restr]. split; [auto|split; [auto|split; [auto|]]]. rewrite B. destruct (r_gvar _ _ _ _ _ _ _ _ _ _ _ _ Rr) as (G1 & G2 & G3 & G4), (r_gamma _ _ _ _ _ _ _ _ _ _ _ _ Rr) as (G5 & G6 & _). split; [split; [auto|split; [auto|split; auto]]|auto].
  - eexists. apply (r_co _ _ _ _ _ _ _ _ _ _ _ _ Rr).
Qed.
Lemma details_step R' s : mat_ok R' -> rows R' = km -> shaped N m k s -> good_restr m k (Some R') (el (s_gvar s)) s ->
  exists dd, calc_details pt Nz (Some R') work s std = Ok dd /\ d_prob dd = map (prob_of s (Some R') (el (s_gvar s))) (upto (Z.of_nat km)).
Proof using Ck SizeS SizeW Ni.
  intros W0 R0 Sh (G1 & G2 & G3 & G4 & G5 & G6). destruct (sizes_ok d N m k storage work R maxp SizeS SizeW Ck) as (S1 & S2).
  destruct (std_ok d N m k storage S1) as (T1 & T2 & T3). { replace (negb (sd_iter d =? 0)) with true by (clear - Ni; lia). apply orb_true_r. }
  destruct (work_sizes d N m k work (ck_N _ _ _ _ _ _ Ck) (ck_k _ _ _ _ _ _ Ck) (ck_m _ _ _ _ _ _ Ck) S2) as (_ & _ & K3 & _). specialize (K3 ltac:(replace (negb (sd_iter d =? 0)) with true by (clear - Ni; lia); apply orb_true_r)).
  destruct (sh_beta _ _ _ _ Sh) as (B1 & B2 & B3). assert (Hb : has k m (el (s_beta s)) (s_beta s)) by (split; [auto|split; [auto|split; auto]]).
  destruct (calc_details_ok pt N m k work (ck_N _ _ _ _ _ _ Ck) (ck_k _ _ _ _ _ _ Ck) (ck_m _ _ _ _ _ _ Ck) (Some R') s std _ (el (s_gvar s)) Hb T1 T2 T3) as (dd & E & _ & P).
  - split; [auto|split; [auto|split; [apply G3|split; [auto|split; [auto|split; [auto|]]]]]]. clear - K3 G3. assert (Z3 := Nat.mul_le_mono_l _ _ km (proj2 G3)). lia.
  - exists dd. split; auto.
Qed.
(** The set of the coefficients that pass. *)
Local Notation passing pr := (filter (fun a => passes maxp (pr a)) (upto (Z.of_nat km))).
Lemma loop_ok : forall n iter cs s dd R0 pr b, shaped N m k s -> consistent N m k y x b s -> (km * km <= length (data R0))%nat ->
  d_prob dd = map pr (upto (Z.of_nat km)) -> (length (passing pr) <= cs)%nat ->
  match search_loop lapack pt n iter y x work std maxp (Z.of_nat cs) s dd R0 with
  | UB => False
  | Throw => True
  | Ok (s', R', it) =>
      s' = s /\ R' = R0 /\ it = iter /\ (n = 0%nat \/ length (passing pr) = cs) \/
      exists sig, stage sig s' R' /\ incl sig (passing pr) /\ iter < it <= iter + Z.of_nat n /\ Z.of_nat (length sig) + (it - iter) <= Z.of_nat cs /\
        (it = iter + Z.of_nat n \/ forall a, In a sig -> passes maxp (prob_of s' (Some R') (el (s_gvar s')) a) = true)
  end.
Proof using All.
  induction n as [|n IH]; intros iter cs s dd R0 pr b Sh Co HL HP HC; [left; auto|]. cbn [search_loop]. rewrite Cx, Cy.
  rewrite (significant_ok maxp dd km pr HP). cbn [bind]. set (sig := passing pr) in *.
  destruct (Z.eqb_spec (Z.of_nat (length sig)) (Z.of_nat cs)) as [E|E]; [left; split; [auto|split; [auto|split; [auto|right; lia]]]|].
  destruct (Z.eqb_spec (Z.of_nat (length sig)) 0) as [E0|E0]; [constructor|].
  assert (Rg : forall a, In a sig -> 0 <= a < Z.of_nat km) by (intros a Ha; apply filter_In in Ha; destruct Ha as (Ha & _); apply in_upto; auto).
  assert (ND : NoDup sig) by (apply NoDup_filter, upto_NoDup).
  assert (Le : (length sig <= km)%nat) by (assert (I := NoDup_incl_length ND (l' := upto (Z.of_nat km)) (fun a Ha => proj2 (in_upto _ _) (Rg a Ha))); rewrite upto_length in I; lia).
  destruct (select_ok km sig R0 Rg) as (R1 & -> & HR1). { clear - HL Le. assert (Z3 := Nat.mul_le_mono_l _ _ km Le). lia. } cbn [bind].
  assert (HR1' := HR1). destruct HR1 as ((A1 & A2 & A3 & A4) & A5).
  destruct (step_r lapack pt det_pd d N m k y x storage work R maxp Sound Len Wy Wx Ry Rx Cy Cx SizeS SizeW Ck R1 s Rs A3 A1 ltac:(rewrite A2; lia) Sh) as (gm & ng & Hg & Gt & Gok).
  destruct (inv00 lapack gm) as [gi| |] eqn:Eg; [|rewrite (Gt eq_refl); exact Logic.I|exfalso; unfold inv00 in Eg; destruct (lapack gm) as (dq & info); destruct (info =? 0); discriminate].
  destruct (Gok gi eq_refl) as (n1 & n2 & s1 & -> & Rr). cbn [bind].
  assert (Sg : stage sig s1 R1).
  { constructor; auto. - intros E1. rewrite E1 in E0. apply E0. reflexivity. - rewrite <- A5 in HR1'. exact HR1'. - rewrite A5. exact HL. - exists s, b, (el gi), n1, n2. rewrite A2 in Rr. auto. }
  destruct (stage_more sig s1 R1 Sg) as (Sh1 & W1 & Rw1 & Cw1 & Q1 & Gr1 & b1 & Co1).
  destruct (details_step R1 s1 W1 Rw1 Sh1 Gr1) as (d1 & E1 & P1). replace (nrows y) with Nz by (unfold nrows; rewrite Ry; reflexivity). rewrite E1. cbn [bind].
  set (pr1 := prob_of s1 (Some R1) (el (s_gvar s1))) in *.
  assert (Sub : incl (passing pr1) sig).
  { intros a Ha. apply filter_In in Ha. destruct Ha as (Ha & Hp). destruct (in_dec Z.eq_dec a sig) as [|Hn]; auto. exfalso. apply in_upto in Ha. unfold pr1 in Hp. rewrite (prob_sel sig s1 R1 _ a Sg Ha Hn) in Hp. discriminate. }
  assert (Lp : (length (passing pr1) <= length sig)%nat) by (apply NoDup_incl_length; auto; apply NoDup_filter, upto_NoDup).
  specialize (IH (iter + 1) (length sig) s1 d1 R1 pr1 b1 Sh1 Co1 (sg_len _ _ _ Sg) P1 Lp).
  destruct (search_loop _ _ _ _ _ _ _ _ _ _ _ _ _) as [((s' & R') & it)| |]; auto.
  destruct IH as [(-> & -> & -> & Hc)|(sg & S1 & S2 & S3 & S4 & S5)]; right.
  - exists sig. split; [auto|split; [apply incl_refl|split; [lia|split; [lia|]]]]. destruct Hc as [->|Hc]; [left; lia|right].
    intros a Ha. assert (In a (passing pr1)) as F by (refine (NoDup_length_incl (NoDup_filter _ (upto_NoDup _)) _ Sub a Ha); lia). apply filter_In in F. apply F.
  - exists sg. split; [auto|split; [intros a Ha; apply Sub, S2, Ha|split; [lia|split; [lia|]]]]. destruct S5 as [S5|S5]; [left; lia|right; exact S5].
Qed.
Context (R0 : mat Qc).
Hypothesis ER : R = Some R0.
Hypothesis WR : mat_ok R0.
Local Notation s0 := (fields N m k storage).
Local Notation calc := (sur_calculate lapack pt det_pd d y x storage work R maxp).
Lemma zeros_R : rows R0 = km -> cols R0 = km -> exists Z0, set_value R0 0 = Ok Z0 /\ hl (length (data R0)) km km (fun _ _ => 0%Qc) Z0.
Proof using WR.
  intros A B. destruct (set_value_ok R0 0%Qc WR) as (Z0 & E & Bc). exists Z0. split; auto. rewrite <- A at 1. rewrite <- B at 1. exact (becomes_hl R0 Z0 _ _ WR Bc (fun _ _ _ => eq_refl)).
Qed.
(** The two ways in which the search ends. *)
Definition found (s1 : est) (gi : Z -> Z -> Qc) (s' : est) (R' : mat Qc) (it : Z) : Prop :=
  s' = s1 /\ it = 0 /\ hl (length (data R0)) km km (fun _ _ => 0%Qc) R' /\ (sd_iter d <= 0 \/ forall a, 0 <= a < Z.of_nat km -> passes maxp (prob_of s1 None (kronf k k (el (s_rvar s1)) gi) a) = true) \/
  exists sig, stage sig s' R' /\ 0 < it <= sd_iter d /\ Z.of_nat (length sig) + it <= Z.of_nat km /\
    (it = sd_iter d \/ forall a, In a sig -> passes maxp (prob_of s' (Some R') (el (s_gvar s')) a) = true).
Lemma calc_search : 
  exists xtx, hl (k * k) k k (product Nz (fun i l => el x l i) (el x)) xtx /\ (inv00 lapack xtx = Throw -> calc = Throw) /\
    forall xi, inv00 lapack xtx = Ok xi -> exists n1 n2 s1, un_result N m k y x (el xi) n1 n2 true s0 s1 /\
     (calc = Throw \/ exists s' R' it o, found s1 (el xi) s' R' it /\ det_of det_pd m (el (s_rvar s')) o /\
          match o with
          | None => calc = Throw
          | Some v => exists dt, calc = Ok (Sur s' (Some R') it v dt) /\ details_are pt d N m k (Some R') (el (s_gvar s')) (el (s_beta s')) dt
          end).
Proof using All.
  destruct (calc_cases lapack pt det_pd d N m k y x storage work R maxp Ry Cy Cx) as [(_ & C)|(_ & ->)]; [contradiction|].
  destruct (s0_shaped d N m k storage work R maxp SizeS SizeW Ck) as (Sh & G1 & G2 & V1 & V2). destruct (sizes_ok d N m k storage work R maxp SizeS SizeW Ck) as (S1 & S2).
  destruct (ck_search _ _ _ _ _ _ Ck Ni) as (Mp & R00 & ER0 & RR & RC). assert (R00 = R0) by congruence. subst R00.
  assert (PN := ck_N _ _ _ _ _ _ Ck). assert (Pk := ck_k _ _ _ _ _ _ Ck). assert (Pm := ck_m _ _ _ _ _ _ Ck).
  destruct (estim_un_ok lapack N m k y x work Sound Wy Wx Ry Rx Cy Cx PN Pk Pm (un_work d N m k storage work R maxp SizeS SizeW Ck) true s0 Sh G1 G2 V1 V2) as (xtx & H0 & Ht & Hok).
  exists xtx. split; [exact H0|]. unfold sur_estimate. rewrite Rs, Ry, Cy, Cx, ER. replace (sd_iter d =? 0) with false by (clear - Ni; lia). unfold estim_search.
  split; [intros E; rewrite (Ht E); reflexivity|].
  intros xi Ei. destruct (Hok xi Ei) as (n1 & n2 & s1 & E & Ur). exists n1, n2, s1. split; [exact Ur|]. rewrite E. cbn [bind].
  assert (Sh1 := un_shaped _ _ _ _ _ _ _ _ _ _ _ Ur). assert (Co1 := un_co _ _ _ _ _ _ _ _ _ _ _ Ur). assert (Gv := un_gvar _ _ _ _ _ _ _ _ _ _ _ Ur). cbn iota in Gv. rewrite (Nat.mul_comm m k) in Gv.
  destruct (std_ok d N m k storage S1) as (T1 & T2 & T3). { replace (negb (sd_iter d =? 0)) with true by (clear - Ni; lia). apply orb_true_r. }
  destruct (sh_beta _ _ _ _ Sh1) as (B1 & B2 & B3). assert (Hb : has k m (el (s_beta s1)) (s_beta s1)) by (split; [auto|split; [auto|split; auto]]).
  destruct (calc_details_ok pt N m k work PN Pk Pm None s1 std _ _ Hb T1 T2 T3 Gv) as (d1 & E1 & _ & P1).
  replace (nrows y) with Nz by (unfold nrows; rewrite Ry; reflexivity). rewrite E1. cbn [bind].
  destruct (zeros_R RR RC) as (Z0 & -> & HZ). cbn [bind]. replace (ncols x * ncols y) with (Z.of_nat km) by (unfold ncols; rewrite Cx, Cy; clear; lia).
  set (pr := fun a => prob pt Nz (el (s_beta s1) (a mod kz) (a / kz)) (var_of None (kronf k k (el (s_rvar s1)) (el xi)) a)) in *.
  assert (HLZ : (km * km <= length (data Z0))%nat) by (destruct HZ as ((A & B & C & _) & _); unfold mat_ok in C; rewrite A, B in C; exact C).
  assert (HC : (length (passing pr) <= km)%nat) by (assert (I := NoDup_incl_length (NoDup_filter (fun a => passes maxp (pr a)) (upto_NoDup (Z.of_nat km))) (l' := upto (Z.of_nat km)) (fun a Ha => proj1 (proj1 (filter_In _ _ _) Ha))); rewrite upto_length in I; clear - I; lia).
  assert (Lp := loop_ok (Z.to_nat (sd_iter d)) 0 km s1 d1 Z0 pr _ Sh1 Co1 HLZ P1 HC).
  destruct (search_loop _ _ _ _ _ _ _ _ _ _ _ _ _) as [((s' & R') & it)| |]; [|left; reflexivity|destruct Lp].
  right. cbn [bind]. exists s', R', it.
  assert (Fd : found s1 (el xi) s' R' it /\ shaped N m k s' /\ good_restr m k (Some R') (el (s_gvar s')) s').
  { destruct Lp as [(-> & -> & -> & Hc)|(sig & Sg & _ & I1 & I2 & I3)].
    - split; [left; split; [auto|split; [auto|split; [auto|]]]|split; [auto|]].
      + destruct Hc as [Hc|Hc]; [left; clear - Hc; lia|right]. intros a Ha.
        assert (In a (passing pr)) as F. { refine (NoDup_length_incl (l' := upto (Z.of_nat km)) (NoDup_filter _ (upto_NoDup _)) _ _ a (proj2 (in_upto _ _) Ha)); [rewrite upto_length; clear - Hc; lia|intros c Hcc; apply filter_In in Hcc; apply Hcc]. }
        apply filter_In in F. apply F.
      + destruct HZ as ((A & B & C & _) & _). cbn [good_restr]. rewrite B. split; [auto|split; [auto|split]]; [clear - Pk Pm; nia|]. destruct Gv as (Gv1 & Gv2 & Gv3 & Gv4). split; [split; [auto|split; [auto|split; auto]]|]. destruct (has_shape _ _ _ _ (un_gamma _ _ _ _ _ _ _ _ _ _ _ Ur)) as (Ga1 & Ga2 & _); auto.
    - destruct (stage_more sig s' R' Sg) as (Q1 & Q2 & Q3 & Q4 & Q5 & Q6 & Q7). split; [right; exists sig|auto]. split; [auto|split; [clear - I1; lia|split; [clear - I2; lia|]]]. destruct I3 as [I3|I3]; [left; clear - I3 I1; lia|right; exact I3]. }
  destruct Fd as (Fd & Sh' & Gr').
  destruct (sh_beta _ _ _ _ Sh') as (B1' & B2' & B3'). assert (Hb' : has k m (el (s_beta s')) (s_beta s')) by (split; [auto|split; [auto|split; auto]]).
  destruct (finish_ok lapack pt det_pd d N m k y x storage work maxp Sound Len Wy Wx Ry Rx Cy Cx PN Pk Pm S1 S2 s' (Some R') it _ _ (Some R') ltac:(rewrite Rs; reflexivity) Sh' Hb' (fun _ => Gr')) as (o & D & F).
  exists o. split; [exact Fd|]. split; [exact D|]. exact F.
Qed.
End Loop.
