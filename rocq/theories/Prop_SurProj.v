(** C93: projections with a system of equations. *)
From Verif Require Import SurModel SurSpec MatProofs MatDotProofs DataProofs LsProofs SurProofs SurProofs2 SurProofs3 SurProofs4 SurProofs5 SurProofs6 SurProofs7 SurProofs8 SurProofs9 Prop_Sur.
From Verif Require HistProofs2.
From Coq Require Import Lia ZifyBool.
Local Open Scope Z_scope.

(** The lemma for all estimated models: sizes. *)
Lemma estimated lapack pt det_pd d y x storage work R maxp u : sur_call lapack d y x storage work -> has_restrictions d R -> 0 <= sd_iter d ->
  sur_calculate lapack pt det_pd d y x storage work R maxp = Ok u -> let m := cols y in let k := cols x in
  (0 < m)%nat /\ (0 < k)%nat /\ sized k m (s_beta (u_est u)) /\ sized m m (s_rvar (u_est u)) /\
  if sd_restricted d then exists R0, u_R u = Some R0 /\ mat_ok R0 /\ rows R0 = (k * m)%nat /\ (0 < cols R0 <= k * m)%nat /\ sized (cols R0) (cols R0) (s_gvar (u_est u))
  else sized (k * m) (k * m) (s_gvar (u_est u)).
Proof.
  intros Call HR It E m k. destruct (sd_restricted d) eqn:Rs.
  - destruct (HR Rs) as (R0 & ER & WR & Pq). destruct (Z.eq_dec (sd_iter d) 0) as [It0|It0].
    + destruct (r_ok lapack pt det_pd d y x storage work R maxp Call u R0 E Rs It0 ER WR Pq) as (Ck & s1 & g1 & m1 & m2 & sa & U & g & n1 & n2 & Rr & E1 & _). destruct Ck as [PN Pm Pk _ _ _ C7].
      split; [exact Pm|]. split; [exact Pk|]. split; [apply (sh_beta _ _ _ _ (r_shaped _ _ _ _ _ _ _ _ _ _ _ _ Rr))|]. split; [apply (sh_rvar _ _ _ _ (r_shaped _ _ _ _ _ _ _ _ _ _ _ _ Rr))|].
      specialize (C7 It0). rewrite ER in C7. exists R0. split; [congruence|]. split; [exact WR|]. split; [apply C7|]. split; [split; [exact Pq|apply C7]|]. destruct (r_gvar _ _ _ _ _ _ _ _ _ _ _ _ Rr) as (A & B & C & _). split; auto.
    + destruct (search_ok lapack pt det_pd d y x storage work R maxp Call u R0 E Rs It0 ER WR) as (Ck & s1 & g1 & m1 & m2 & sa & R' & U & Fd & E1 & _). destruct Ck as [PN Pm Pk _ _ _ _].
      split; [exact Pm|]. split; [exact Pk|]. fold m k in Pm, Pk. assert (Pkm : (0 < k * m)%nat) by nia. destruct Fd as [(Es & I0 & HZ & _)|(sig & Sg & I1 & I2 & _)].
      * rewrite Es. split; [apply (sh_beta _ _ _ _ (un_shaped _ _ _ _ _ _ _ _ _ _ _ U))|]. split; [apply (sh_rvar _ _ _ _ (un_shaped _ _ _ _ _ _ _ _ _ _ _ U))|].
        destruct HZ as ((A & B & C & D) & _). fold k m in A, B. exists R'. split; [exact E1|]. split; [exact C|]. split; [exact A|]. rewrite B. split; [lia|].
        assert (Gv := un_gvar _ _ _ _ _ _ _ _ _ _ _ U). cbn iota in Gv. destruct Gv as (V1 & V2 & V3 & _). fold k m in V1, V2. split; [lia|]. split; [lia|exact V3].
      * destruct (sg_res _ _ _ _ _ _ _ _ _ Sg) as (sp & bp & gi & n1 & n2 & _ & Rr). split; [apply (sh_beta _ _ _ _ (r_shaped _ _ _ _ _ _ _ _ _ _ _ _ Rr))|]. split; [apply (sh_rvar _ _ _ _ (r_shaped _ _ _ _ _ _ _ _ _ _ _ _ Rr))|].
        destruct (sg_R _ _ _ _ _ _ _ _ _ Sg) as ((A & B & C & D) & _). fold k m in A. assert (Ne := sg_ne _ _ _ _ _ _ _ _ _ Sg). exists R'. split; [exact E1|]. split; [exact C|]. split; [exact A|]. rewrite B.
        assert (0 < length sig)%nat by (destruct sig; [contradiction|cbn; lia]). split; [unfold k, m; lia|]. destruct (r_gvar _ _ _ _ _ _ _ _ _ _ _ _ Rr) as (V1 & V2 & V3 & _). split; auto.
  - destruct (un_ok lapack pt det_pd d y x storage work R maxp Call u E Rs) as (Ck & g & n1 & n2 & sa & U & _). destruct Ck as [PN Pm Pk _ _ _ _].
    split; [exact Pm|]. split; [exact Pk|]. split; [apply (sh_beta _ _ _ _ (un_shaped _ _ _ _ _ _ _ _ _ _ _ U))|]. split; [apply (sh_rvar _ _ _ _ (un_shaped _ _ _ _ _ _ _ _ _ _ _ U))|].
    assert (Gv := un_gvar _ _ _ _ _ _ _ _ _ _ _ U). cbn iota in Gv. destruct Gv as (V1 & V2 & V3 & _). split; [unfold k, m; lia|]. split; [unfold k, m; lia|exact V3].
Qed.

(** Every model that Calculate estimates can be projected with an object that is restricted if the model is. *)
Theorem c93_estimated lapack pt det_pd d y x storage work R maxp u pd xn pstorage pwork : sur_call lapack d y x storage work -> has_restrictions d R -> 0 <= sd_iter d ->
  sur_calculate lapack pt det_pd d y x storage work R maxp = Ok u -> pd_restricted pd = sd_restricted d -> mat_ok xn -> ncols xn = ncols x ->
  proj_storage pd <= Z.of_nat (length pstorage) -> proj_work pd <= Z.of_nat (length pwork) -> proj_call pd (u_est u) (u_R u) (cols y) xn pstorage pwork.
Proof.
  intros Call HR It E Fl Wn Cn S1 S2. assert (Cn' : cols xn = cols x) by (unfold ncols in Cn; lia).
  destruct (estimated _ _ _ _ _ _ _ _ _ _ _ Call HR It E) as (A & B & C & D & F). constructor; rewrite ?Cn'; auto. rewrite Fl. exact F.
Qed.
Print Assumptions c93_estimated.
(** The projections and their covariances; there is always a result if the object was made for data of this size. *)
Theorem c93_projection d s R m x storage work : proj_call d s R m x storage work ->
  let n := nrows x in let k := ncols x in let need := PD n (Z.of_nat m) k (pd_restricted d) (pd_var d) in let restr := if pd_restricted d then R else None in
  let cf := proj_covariance k (el x) (all_covariances restr (el (s_gvar s))) (el (s_rvar s)) in
  proj_storage need <= proj_storage d -> proj_work need <= proj_work d ->
  exists p, proj_calculate d s R m x storage work = Ok p /\ has (rows x) m (projected k (el x) (el (s_beta s))) (p_means p) /\
  if pd_var d then exists Vr Cv c, p_vars p = Some Vr /\ p_cov p = Some Cv /\ has (rows x) m (fun t j => cf t j j) Vr /\ has m m c Cv /\ (0 < n -> forall i j, c i j = cf (n - 1) i j)
  else p_vars p = None /\ p_cov p = None.
Proof. apply proj_ok. Qed.
Print Assumptions c93_projection.
(** An object that was made for less data throws. *)
Theorem c93_rejects d s R m x storage work :
  let need := PD (nrows x) (Z.of_nat m) (ncols x) (pd_restricted d) (pd_var d) in
  proj_storage d < proj_storage need \/ proj_work d < proj_work need -> proj_calculate d s R m x storage work = Throw.
Proof.
  intros need H. unfold proj_calculate. cbv zeta. fold need. destruct (Z.ltb_spec (proj_work d) (proj_work need)); [reflexivity|]. destruct (Z.ltb_spec (proj_storage d) (proj_storage need)); [reflexivity|lia].
Qed.
Print Assumptions c93_rejects.
(** So does one for a model with another number of variables. *)
Theorem c93_columns d s R m x storage work : (0 < rows x)%nat -> (0 < m)%nat -> mat_ok x -> proj_storage d <= Z.of_nat (length storage) -> proj_work d <= Z.of_nat (length work) ->
  (pd_restricted d = true -> R <> None) -> nrows (s_beta s) <> ncols x -> proj_calculate d s R m x storage work = Throw.
Proof.
  intros Pn Pm Wx Ss Sw HR Ne. unfold proj_calculate. cbv zeta. set (need := PD _ _ _ _ _).
  destruct (Z.ltb_spec (proj_work d) (proj_work need)) as [|L2]; [reflexivity|]. destruct (Z.ltb_spec (proj_storage d) (proj_storage need)) as [|L1]; [reflexivity|]. cbn [orb].
  replace (pd_restricted d && match R with None => true | _ => false end) with false by (destruct (pd_restricted d), R; auto; destruct HR; auto).
  assert (Lw : Z.of_nat m + ncols x <= Z.of_nat (length work)). { unfold proj_work, need in *. cbn [pd_n pd_m pd_k pd_restricted pd_var] in *. unfold ncols in *. destruct (pd_var d), (pd_restricted d); nia. }
  assert (Ez : zrange 0 (nrows x) = 0 :: zrange 1 (nrows x - 1)) by (apply (MatProofs6.zrange_cons 0); unfold nrows; lia). rewrite Ez. cbn [proj_loop].
  destruct (block_ok (cols x) 1 1 (proj_wblocks (Z.of_nat m) (Z.of_nat (cols x)) 0) work (Z.of_nat m)) as (B1 & _); [cbn; f_equal; lia|lia|unfold ncols in *; lia|].
  destruct (get_row0_hl _ (rows x) (cols x) (el x) x 0 (Mat (cols x) 1 (nth_block (proj_wblocks (Z.of_nat m) (Z.of_nat (cols x)) 0) 1 work)) (hl_self x Wx) B1 eq_refl eq_refl ltac:(lia)) as (row & -> & Hr). cbn [bind].
  unfold t_dot_vector. destruct (negb (is_vector row)); [reflexivity|]. destruct (negb (is_vector _)); [reflexivity|]. replace (negb (nrows (s_beta s) =? nrows row)) with true; [reflexivity|]. rewrite (hl_rows _ _ _ _ _ Hr). unfold ncols in Ne. lia.
Qed.
Print Assumptions c93_columns.
(** The parts of the storage and of the work array do not overlap (q free coefficients). *)
Theorem c93_layout n m k restricted : 0 <= n -> 0 <= m -> 0 <= k -> let d := PD n m k restricted true in
  packed (proj_storage d) (proj_blocks n m) /\ forall q, 0 <= q <= k * m -> packed (proj_work d) (if restricted then proj_wblocks m k q else layout 0 [m; k; k * m * m; m * (k * m)]).
Proof.
  intros Pn Pm Pk d. assert (0 <= n * m) by nia. assert (0 <= m * m) by nia. assert (0 <= k * m * m) by nia. split.
  - apply layout_packed; [intros v Hv; repeat (destruct Hv as [<-|Hv]; [nia|]); destruct Hv|]. unfold d, proj_storage. cbn [pd_n pd_m pd_k pd_restricted pd_var fold_right]. lia.
  - intros q Hq. assert (0 <= m * q <= m * (k * m)) by nia. assert (E : m * (k * m) = k * m * m) by lia. unfold d, proj_work. cbn [pd_n pd_m pd_k pd_restricted pd_var]. destruct restricted.
    + apply layout_packed; [intros v Hv; repeat (destruct Hv as [<-|Hv]; [nia|]); destruct Hv|]. cbn [fold_right]. lia.
    + apply layout_packed; [intros v Hv; repeat (destruct Hv as [<-|Hv]; [nia|]); destruct Hv|]. cbn [fold_right]. lia.
Qed.
Print Assumptions c93_layout.
(** For the data of the estimation, the projections are the fitted values. *)
Theorem c93_in_sample lapack pt det_pd d y x storage work R maxp u pd pstorage pwork p : sur_call lapack d y x storage work -> has_restrictions d R -> 0 <= sd_iter d ->
  sur_calculate lapack pt det_pd d y x storage work R maxp = Ok u -> pd_restricted pd = sd_restricted d ->
  proj_storage pd <= Z.of_nat (length pstorage) -> proj_work pd <= Z.of_nat (length pwork) ->
  proj_calculate pd (u_est u) (u_R u) (cols y) x pstorage pwork = Ok p -> forall t j, 0 <= t < nrows y -> 0 <= j < ncols y -> el (p_means p) t j = el (s_yhat (u_est u)) t j.
Proof.
  intros Call HR It E Fl S1 S2 Ep t j Ht Hj. assert (Cl := Call). destruct Cl as [_ _ _ Wx Rx _ _].
  assert (Pc := c93_estimated _ _ _ _ _ _ _ _ _ _ _ pd x pstorage pwork Call HR It E Fl Wx eq_refl S1 S2).
  destruct (Z_lt_le_dec (proj_storage pd) (proj_storage (PD (nrows x) (Z.of_nat (cols y)) (ncols x) (pd_restricted pd) (pd_var pd)))) as [K|L1]; [rewrite c93_rejects in Ep by auto; discriminate|].
  destruct (Z_lt_le_dec (proj_work pd) (proj_work (PD (nrows x) (Z.of_nat (cols y)) (ncols x) (pd_restricted pd) (pd_var pd)))) as [K|L2]; [rewrite c93_rejects in Ep by auto; discriminate|].
  destruct (proj_ok _ _ _ _ _ _ _ Pc L1 L2) as (p' & E' & (_ & _ & _ & Hm) & _). assert (p' = p) by congruence. subst p'. assert (Et : nrows y = nrows x) by (unfold nrows; lia). rewrite Hm by (unfold nrows, ncols in *; lia).
  assert (Y : has (rows y) (cols y) (fun t j => sum_to (ncols x) (fun l => el x t l * el (s_beta (u_est u)) l j)%Qc) (s_yhat (u_est u))).
  { assert (Co : forall b, consistent (rows y) (cols y) (cols x) y x b (u_est u) -> has (rows y) (cols y) (fun t j => sum_to (ncols x) (fun l => el x t l * el (s_beta (u_est u)) l j)%Qc) (s_yhat (u_est u))).
    { intros b [(_ & _ & _ & C1) (A & B & C & C2) _ _]. split; [exact A|]. split; [exact B|]. split; [exact C|]. intros a c Ha Hc. rewrite C2 by auto. apply st_ext. intros l Hl. rewrite C1 by auto. reflexivity. }
    destruct (sd_restricted d) eqn:Rs; [destruct (HR Rs) as (R0 & ER & WR & Pq); destruct (Z.eq_dec (sd_iter d) 0) as [It0|It0]|].
    - destruct (r_ok lapack pt det_pd d y x storage work R maxp Call u R0 E Rs It0 ER WR Pq) as (_ & s1 & g1 & m1 & m2 & sa & U & g & n1 & n2 & Rr & _). apply (Co _ (r_co _ _ _ _ _ _ _ _ _ _ _ _ Rr)).
    - destruct (search_ok lapack pt det_pd d y x storage work R maxp Call u R0 E Rs It0 ER WR) as (_ & s1 & g1 & m1 & m2 & sa & R' & U & Fd & _). destruct Fd as [(Es & _)|(sig & Sg & _)].
      + rewrite Es in Co |- *. apply (Co _ (un_co _ _ _ _ _ _ _ _ _ _ _ U)).
      + destruct (sg_res _ _ _ _ _ _ _ _ _ Sg) as (sp & bp & gi & n1 & n2 & _ & Rr). apply (Co _ (r_co _ _ _ _ _ _ _ _ _ _ _ _ Rr)).
    - destruct (un_ok lapack pt det_pd d y x storage work R maxp Call u E Rs) as (_ & g & n1 & n2 & sa & U & _). apply (Co _ (un_co _ _ _ _ _ _ _ _ _ _ _ U)). }
  destruct Y as (_ & _ & _ & Y). rewrite Y by auto. reflexivity.
Qed.
Print Assumptions c93_in_sample.
(** Covariances of projections are positive semidefinite and variances are not less than those of the residuals, if the
    covariances of the free coefficients are positive semidefinite; the estimated ones are. *)
Theorem c93_variances d s R m x storage work : proj_call d s R m x storage work ->
  let k := ncols x in let restr := if pd_restricted d then R else None in
  psd (match restr with Some R0 => ncols R0 | None => k * Z.of_nat m end) (el (s_gvar s)) -> psd (Z.of_nat m) (el (s_rvar s)) ->
  forall t, let cf := proj_covariance k (el x) (all_covariances restr (el (s_gvar s))) (el (s_rvar s)) t in
  psd (Z.of_nat m) cf /\ forall j, 0 <= j < Z.of_nat m -> (0 <= el (s_rvar s) j j)%Qc /\ (el (s_rvar s) j j <= cf j j)%Qc.
Proof.
  intros [Pm Pk Wx Sb Sr Fr Ss Sw] k restr PV PS t cf.
  assert (PA : psd (k * Z.of_nat m) (all_covariances restr (el (s_gvar s)))) by (unfold restr in *; destruct (pd_restricted d); [destruct R as [R0|]|]; [apply sandwich_psd; exact PV|exact PV|exact PV]).
  assert (PP := part_psd m (cols x) (el x) _ t Pk PA). cbv zeta in PP. split; [apply psd_add; auto|]. intros j Hj. assert (Q := psd_diag _ _ j PP Hj). split; [apply (psd_diag _ _ j PS Hj)|]. unfold cf, proj_covariance. fold (ncols x) in Q. fold k in Q. cbv beta in Q. revert Q. generalize (sum_to k (fun i => sum_to k (fun i' => el x t i * all_covariances restr (el (s_gvar s)) (j * k + i) (j * k + i') * el x t i'))%Qc). intros c Q. clear - Q. qlra.
Qed.
Print Assumptions c93_variances.
Lemma fit_psd N m k y x b beta yhat resid rvar : (0 < N)%nat -> fitted_by N m k y x b beta yhat resid rvar -> psd (Z.of_nat m) (el rvar).
Proof.
  intros PN (_ & _ & _ & (_ & _ & _ & V)). apply (psd_ext _ (res_cov (Z.of_nat N) (Z.of_nat k) y x b)); [intros i j Hi Hj; symmetry; apply V; auto|]. apply cross_psd. apply Qclt_le_weak. apply Verif.HistProofs2.Qc_inv_pos. apply (qz_lt 0). lia.
Qed.
Theorem c93_unrestricted lapack pt det_pd d y x storage work R maxp u : sur_call lapack d y x storage work -> sd_restricted d = false ->
  sur_calculate lapack pt det_pd d y x storage work R maxp = Ok u ->
  psd (ncols x * ncols y) (el (s_gvar (u_est u))) /\ psd (ncols y) (el (s_rvar (u_est u))).
Proof.
  intros Call Rs E. destruct (un_ok lapack pt det_pd d y x storage work R maxp Call u E Rs) as (Ck & g & n1 & n2 & sa & U & _). destruct Ck as [PN Pm Pk _ _ _ _].
  assert (Ft := un_fitted y x _ _ _ _ _ _ U). split; [|apply (fit_psd _ _ _ _ _ _ _ _ _ _ PN Ft)].
  assert (Gv := un_gvar _ _ _ _ _ _ _ _ _ _ _ U). cbn iota in Gv. destruct Gv as (_ & _ & _ & Gv). destruct Ft as (_ & _ & _ & (_ & _ & _ & Rv)). assert (Inv := proj1 (inv_xx y x g) (un_inv _ _ _ _ _ _ _ _ _ _ _ U)).
  assert (Pg : psd (Z.of_nat (cols x)) g).
  { apply (inv_psd _ (xtx (nrows y) (el x))); [| |exact Inv].
    - intros i j _ _. unfold xtx. apply st_ext. intros. ring.
    - apply (psd_ext _ (fun i j => cross (nrows y) (el x) i j * 1)%Qc); [intros; unfold cross, xtx; ring|]. apply cross_psd. discriminate. }
  apply (psd_ext _ (kronf (cols x) (cols x) (fun j j' => cross (nrows y) (residual (ncols x) (el y) (el x) (el (s_beta (u_est u)))) j j' * / qz (nrows y))%Qc g)).
  - intros a b Ha Hb. unfold ncols in Ha, Hb. rewrite Gv by lia. unfold kronf. destruct (MatProofs5.div_bound a (Z.of_nat (cols x)) (Z.of_nat (cols y))) as (_ & D1 & D2); [lia|lia|]. destruct (MatProofs5.div_bound b (Z.of_nat (cols x)) (Z.of_nat (cols y))) as (_ & D3 & D4); [lia|lia|].
    rewrite Rv by auto. reflexivity.
  - apply kron_psd; auto. apply Qclt_le_weak. apply Verif.HistProofs2.Qc_inv_pos. apply (qz_lt 0). unfold nrows. lia.
Qed.
Print Assumptions c93_unrestricted.
Lemma info_inv_psd (N m k q : nat) y x b W g R : (0 < N)%nat -> inverse_of (Z.of_nat m) (res_cov (Z.of_nat N) (Z.of_nat k) y x b) W -> inverse_of (Z.of_nat q) (info_matrix (Z.of_nat N) (Z.of_nat m) (Z.of_nat k) W x R) g -> psd (Z.of_nat q) g.
Proof.
  intros PN Iw Ig. assert (Sy : StatSpec.symmetric (Z.of_nat m) (res_cov (Z.of_nat N) (Z.of_nat k) y x b)) by (intros i j _ _; unfold res_cov; rewrite cross_sym; reflexivity).
  assert (Ps : psd (Z.of_nat m) (res_cov (Z.of_nat N) (Z.of_nat k) y x b)) by (apply cross_psd; apply Qclt_le_weak; apply Verif.HistProofs2.Qc_inv_pos; apply (qz_lt 0); lia).
  apply (inv_psd _ _ g (info_sym N m k q W x R (inv_sym _ _ _ Sy Iw)) (info_psd N m k q W x R (inv_psd _ _ _ Sy Ps Iw)) Ig).
Qed.
Theorem c93_restricted lapack pt det_pd d y x storage work R maxp u : sur_call lapack d y x storage work -> sd_restricted d = true -> sd_iter d = 0 ->
  mat_ok R -> (0 < cols R)%nat -> lapack_complete (ncols y) lapack ->
  (forall b0, normal (nrows y) (ncols y) (ncols x) (el y) (el x) b0 -> exists G, inverse_of (ncols y) (res_cov (nrows y) (ncols x) (el y) (el x) b0) G) ->
  sur_calculate lapack pt det_pd d y x storage work (Some R) maxp = Ok u ->
  psd (ncols R) (el (s_gvar (u_est u))) /\ psd (ncols y) (el (s_rvar (u_est u))).
Proof.
  intros Call Rs It WR Pq Cp Reg E. destruct (r_ok lapack pt det_pd d y x storage work (Some R) maxp Call u R E Rs It eq_refl WR Pq) as (Ck & _). destruct Ck as [PN Pm Pk _ _ _ _].
  destruct (c91_gls lapack pt det_pd d y x storage work R maxp u Call Rs It WR Pq Cp E) as (_ & Ft & b0 & Nm & H). split; [|apply (fit_psd _ _ _ _ _ _ _ _ _ _ PN Ft)].
  destruct (H (Reg b0 Nm)) as (W & Iw & _ & _ & Ig). apply (info_inv_psd (rows y) (cols y) (cols x) (cols R) _ _ b0 W _ (el R) PN Iw Ig).
Qed.
Print Assumptions c93_restricted.
(** After a search in which all coefficients pass, the projected variances are those of the residuals alone: nothing is added
    for the estimated coefficients, although their covariances are known and positive. *)
Theorem c93_all_pass_refuted lapack pt det_pd d y x storage work R maxp u pd xn pstorage pwork p Vr : sur_call lapack d y x storage work -> sd_restricted d = true -> 0 < sd_iter d -> mat_ok R ->
  sur_calculate lapack pt det_pd d y x storage work (Some R) maxp = Ok u -> u_iter u = 0 -> pd_restricted pd = true -> pd_var pd = true -> mat_ok xn -> ncols xn = ncols x ->
  proj_storage pd <= Z.of_nat (length pstorage) -> proj_work pd <= Z.of_nat (length pwork) ->
  proj_calculate pd (u_est u) (u_R u) (cols y) xn pstorage pwork = Ok p -> p_vars p = Some Vr ->
  forall t j, 0 <= t < nrows xn -> 0 <= j < ncols y -> el Vr t j = el (s_rvar (u_est u)) j j.
Proof.
  intros Call Rs It WR E I0 Fl Fv Wn Cn S1 S2 Ep Ev t j Ht Hj.
  assert (CkR : (0 < cols R)%nat). { assert (C := calc_ok _ _ _ _ _ _ _ _ _ _ _ E). destruct C as [PN Pm Pk _ _ C6 _]. destruct (C6 ltac:(lia)) as (_ & R1 & [= <-] & _ & ->). nia. }
  assert (HR : has_restrictions d (Some R)) by (intros _; exists R; auto).
  assert (Pc := c93_estimated _ _ _ _ _ _ _ _ _ _ _ pd xn pstorage pwork Call HR ltac:(lia) E (eq_trans Fl (eq_sym Rs)) Wn Cn S1 S2).
  destruct (Z_lt_le_dec (proj_storage pd) (proj_storage (PD (nrows xn) (Z.of_nat (cols y)) (ncols xn) (pd_restricted pd) (pd_var pd)))) as [K|L1]; [rewrite c93_rejects in Ep by auto; discriminate|].
  destruct (Z_lt_le_dec (proj_work pd) (proj_work (PD (nrows xn) (Z.of_nat (cols y)) (ncols xn) (pd_restricted pd) (pd_var pd)))) as [K|L2]; [rewrite c93_rejects in Ep by auto; discriminate|].
  destruct (proj_ok _ _ _ _ _ _ _ Pc L1 L2) as (p' & E' & _ & Hv). assert (p' = p) by congruence. subst p'. rewrite Fv, Fl in Hv. destruct Hv as (Vr' & Cv & c & E1 & _ & (_ & _ & _ & Hv) & _). assert (Vr' = Vr) by congruence. subst Vr'.
  rewrite Hv by (unfold nrows, ncols in *; lia). destruct (search_ok lapack pt det_pd d y x storage work (Some R) maxp Call u R E Rs ltac:(lia) eq_refl WR) as (Ck & s1 & g1 & m1 & m2 & sa & R' & U & Fd & ER & _).
  destruct Fd as [(_ & _ & HZ & _)|(sig & _ & K & _)]; [|lia]. rewrite ER. unfold proj_covariance. cbn [all_covariances]. destruct HZ as ((_ & B & _ & F) & _).
  rewrite (st_ext _ _ (fun _ => 0%Qc)); [rewrite st_zero; ring|]. intros i Hi. rewrite (st_ext _ _ (fun _ => 0%Qc)); [apply st_zero|]. intros i' Hi'.
  replace (sandwich (ncols R') (el R') (el (s_gvar (u_est u))) (j * ncols xn + i) (j * ncols xn + i')) with 0%Qc; [ring|]. symmetry. unfold sandwich. rewrite (st_ext _ _ (fun _ => 0%Qc)); [apply st_zero|]. intros l Hl. rewrite (st_ext _ _ (fun _ => 0%Qc)); [apply st_zero|]. intros l' Hl'.
  rewrite (F (j * ncols xn + i) l); [ring| |unfold ncols in Hl; lia]. rewrite Cn in *. unfold ncols in *. nia.
Qed.
Print Assumptions c93_all_pass_refuted.
(** Without the flag: SurExtended makes the projections unrestricted unless it was told otherwise, while a search makes the model
    restricted (sur_extended.cpp:55-59, sur.cpp:15-18). Then the variances cannot be calculated if any coefficient was removed. *)
Theorem c93_flag_refuted lapack pt det_pd d y x storage work R maxp u pd xn pstorage pwork : sur_call lapack d y x storage work -> sd_restricted d = true -> 0 < sd_iter d -> mat_ok R ->
  sur_calculate lapack pt det_pd d y x storage work (Some R) maxp = Ok u -> 0 < u_iter u -> pd_restricted pd = false -> pd_var pd = true -> mat_ok xn -> ncols xn = ncols x -> 0 < nrows xn ->
  proj_storage pd <= Z.of_nat (length pstorage) -> proj_work pd <= Z.of_nat (length pwork) ->
  proj_calculate pd (u_est u) (u_R u) (cols y) xn pstorage pwork = Throw.
Proof.
  intros Call Rs It WR E I0 Fl Fv Wn Cn Pn S1 S2. destruct (search_ok lapack pt det_pd d y x storage work (Some R) maxp Call u R E Rs ltac:(lia) eq_refl WR) as (Ck & s1 & g1 & m1 & m2 & sa & R' & U & Fd & ER & _).
  destruct Fd as [(_ & K & _)|(sig & Sg & I1 & I2 & _)]; [lia|]. destruct Ck as [PN Pm Pk _ _ _ _]. destruct (sg_res _ _ _ _ _ _ _ _ _ Sg) as (sp & bp & gi & n1 & n2 & _ & Rr). set (s := u_est u) in *.
  destruct (sh_beta _ _ _ _ (r_shaped _ _ _ _ _ _ _ _ _ _ _ _ Rr)) as (B1 & B2 & B3). destruct (r_gvar _ _ _ _ _ _ _ _ _ _ _ _ Rr) as (V1 & V2 & V3 & _). set (m := cols y) in *. set (k := cols x) in *. assert (Cn' : cols xn = k) by (unfold ncols in Cn; lia).
  unfold proj_calculate. cbv zeta. set (need := PD _ _ _ _ _).
  destruct (Z.ltb_spec (proj_work pd) (proj_work need)) as [|L2]; [reflexivity|]. destruct (Z.ltb_spec (proj_storage pd) (proj_storage need)) as [|L1]; [reflexivity|]. cbn [orb]. rewrite Fl, Fv. cbn [andb].
  unfold proj_work, need in L2. unfold proj_storage, need in L1. cbn [pd_n pd_m pd_k pd_restricted pd_var] in L1, L2. rewrite Fl, Fv in L2. rewrite Fv in L1. unfold proj_work in S2. unfold proj_storage in S1. rewrite Fl, Fv in S2. rewrite Fv in S1. unfold nrows, ncols in L1, L2. rewrite Cn' in L2.
  assert (Ez : zrange 0 (nrows xn) = 0 :: zrange 1 (nrows xn - 1)) by (apply (MatProofs6.zrange_cons 0); lia). rewrite Ez. cbn [proj_loop]. rewrite Cn'. set (n := rows xn) in *.
  assert (Mk : 0 <= Z.of_nat m * (Z.of_nat k * Z.of_nat m)) by lia. assert (Nm : Z.of_nat m * Z.of_nat n = Z.of_nat (n * m)) by lia. assert (E0 : Z.of_nat (k * m * m) = Z.of_nat m * (Z.of_nat k * Z.of_nat m)) by lia.
  destruct (block_ok k 1 1 (proj_wblocks (Z.of_nat m) (Z.of_nat k) 0) pwork (Z.of_nat m)) as (W1 & _); [cbn; f_equal; lia|lia|lia|].
  destruct (block_ok m 1 0 (proj_wblocks (Z.of_nat m) (Z.of_nat k) 0) pwork 0) as (W0 & _); [cbn; f_equal; lia|lia|lia|].
  assert (Hx : hl (length (data xn)) n k (el xn) xn) by (rewrite <- Cn'; apply hl_self; auto).
  assert (Hb : hl (length (data (s_beta s))) k m (el (s_beta s)) (s_beta s)) by (apply sized_hl; split; auto).
  destruct (get_row0_hl _ n k (el xn) xn 0 (Mat k 1 (nth_block (proj_wblocks (Z.of_nat m) (Z.of_nat k) 0) 1 pwork)) Hx W1 eq_refl eq_refl ltac:(unfold nrows in Pn; fold n in Pn; lia)) as (row & -> & Hr). cbn [bind].
  destruct (t_dot_vector_hl _ _ k m _ _ (s_beta s) row (Mat m 1 (nth_block (proj_wblocks (Z.of_nat m) (Z.of_nat k) 0) 0 pwork)) Hb Hr W0 eq_refl eq_refl Pk) as (v & -> & Hvv). cbn [bind p_means].
  destruct (block_ok n m 0 (proj_blocks (nrows xn) (Z.of_nat m)) pstorage 0) as (M0 & _); [cbn; f_equal; unfold nrows; fold n; lia|lia|lia|].
  destruct (set_row0_hl _ _ n m _ _ (Mat n m (nth_block (proj_blocks (nrows xn) (Z.of_nat m)) 0 pstorage)) 0 v (hl_self (Mat n m _) M0) Hvv ltac:(unfold nrows in Pn; fold n in Pn; lia)) as (means & -> & _). cbn [bind p_vars p_cov].
  unfold proj_cov. cbv zeta. destruct (block_ok (k * m) m 2 (proj_wblocks (Z.of_nat m) (Z.of_nat k) (Z.of_nat (k * m))) pwork (Z.of_nat m + Z.of_nat k)) as (W2 & _); [cbn; f_equal; lia|lia|lia|].
  destruct (iden_kron_hl m k 1 _ _ row (Mat (k * m) m (nth_block (proj_wblocks (Z.of_nat m) (Z.of_nat k) (Z.of_nat (k * m))) 2 pwork)) Hr W2) as (Iox & -> & H1); [cbn; lia|cbn; lia|]. cbn [bind].
  unfold tr_dot at 1. rewrite (hl_rows _ _ _ _ _ H1). unfold nrows at 1. rewrite V1. replace (negb (Z.of_nat (m * k) =? Z.of_nat (length sig))) with true; [reflexivity|]. lia.
Qed.
Print Assumptions c93_flag_refuted.
(** Two projections with the model of [c90_ex]; and the two defects with the models of [c92_ex]. *)
Definition x22 : mat Qc := Mat 2 2 (map qz [1; 1; 4; 0]).
Definition x12 : mat Qc := Mat 1 2 (map qz [1; 1]).
Definition after (y : mat Qc) (maxp : Qc) (flag : bool) : res proj := do u <- call92 y maxp; proj_calculate (PD 1 1 2 flag true) (u_est u) (u_R u) 1 x12 (repeat 0%Qc 3) (repeat 0%Qc 9).
Example c93_ex : (exists u p Vr Cv, sur_calculate lapack12 pt1 det2 (declare 4 2 2 false true 0) y42 x42 (repeat 0%Qc 60) (repeat 0%Qc 40) None 0 = Ok u /\
    proj_call (PD 2 2 2 false true) (u_est u) None 2 x22 (repeat 0%Qc 12) (repeat 0%Qc 20) /\ proj_calculate (PD 2 2 2 false true) (u_est u) None 2 x22 (repeat 0%Qc 12) (repeat 0%Qc 20) = Ok p /\ p_vars p = Some Vr /\ p_cov p = Some Cv /\
    el (p_means p) 0 0 = q 11 2 /\ el (p_means p) 1 0 = q 3 2 /\ el (p_means p) 0 1 = q (-1) 2 /\ el Vr 1 0 = q 17 40 /\ el Cv 0 0 = q 17 40 /\ el Cv 0 1 = el Cv 1 0) /\
  (exists p Vr, after y1 (q 1 2) true = Ok p /\ p_vars p = Some Vr /\ el Vr 0 0 = q 1 18) /\ after y1b (q 1 11) false = Throw.
Proof.
  split; [|split].
  - do 4 eexists. split; [vm_compute; reflexivity|]. split.
    { constructor; try (vm_compute; lia); try (vm_compute; discriminate); split; try reflexivity; (split; [reflexivity|vm_compute; lia]). }
    split; [vm_compute; reflexivity|]. split; [reflexivity|]. split; [reflexivity|]. repeat split; qeq.
  - do 2 eexists. split; [vm_compute; reflexivity|]. split; [reflexivity|]. qeq.
  - vm_compute. reflexivity.
Qed.
