(** Estimation of systems: from the calculation to the specification. *)
From Verif Require Import SurModel SurSpec MatProofs MatProofs2 MatProofs3 MatProofs5 MatDotProofs DataProofs LsProofs OlsProofs SurProofs SurProofs2 SurProofs3 SurProofs4 SurProofs5 SurProofs6.
From Verif Require HistProofs2.
From Coq Require Import Lia ZifyBool.
Local Open Scope Z_scope.

(** ** Layout *)
Lemma layout_spec lens : forall p, 0 <= p -> (forall n, In n lens -> 0 <= n) ->
  (forall b, In b (layout p lens) -> p <= fst b /\ 0 <= snd b /\ fst b + snd b <= p + fold_right Z.add 0 lens) /\
  (forall i j a b, (i < j)%nat -> nth_error (layout p lens) i = Some a -> nth_error (layout p lens) j = Some b -> fst a + snd a <= fst b).
Proof.
  induction lens as [|n t IH]; intros p Hp Hn; cbn [layout fold_right].
  - split; [intros b []|]. intros i j a b _ E. destruct i; discriminate.
  - assert (N0 : 0 <= n) by (apply Hn; left; auto). destruct (IH (p + n) ltac:(lia) ltac:(intros; apply Hn; right; auto)) as (I1 & I2).
    assert (F0 : 0 <= fold_right Z.add 0 t). { clear - Hn. assert (H : forall n, In n t -> 0 <= n) by (intros; apply Hn; right; auto). clear Hn. induction t as [|c t IH]; cbn; [lia|]. assert (0 <= c) by (apply H; left; auto). assert (0 <= fold_right Z.add 0 t) by (apply IH; intros; apply H; right; auto). lia. }
    split.
    + intros b [<-|Hb]; [cbn; lia|]. specialize (I1 b Hb). lia.
    + intros i j a b Hij Ea Eb. destruct j as [|j]; [lia|]. cbn in Eb. destruct i as [|i]; cbn in Ea.
      * injection Ea as <-. cbn. apply nth_error_In in Eb. apply I1 in Eb. lia.
      * apply (I2 i j a b); auto. lia.
Qed.
Lemma layout_packed n lens : (forall v, In v lens -> 0 <= v) -> fold_right Z.add 0 lens <= n -> packed n (layout 0 lens).
Proof.
  intros Hn Hs. destruct (layout_spec lens 0 ltac:(lia) Hn) as (A & B). split.
  - intros b Hb. specialize (A b Hb). lia.
  - intros i j a b Hij Ea Eb. left. eauto.
Qed.

(** ** Norms *)
Lemma absolute_q v : absolute v = qabs v. Proof. reflexivity. Qed.
Lemma norm_spec r c f v : (0 < c) -> norm1_of r c f v -> is_norm1 r c f v.
Proof. intros Pc (_ & A & B). split; [exact A|exact (B Pc)]. Qed.
Lemma qabs_tri a b : (qabs (a + b) <= qabs a + qabs b)%Qc.
Proof. unfold qabs. destruct (qltb_spec (a + b)%Qc 0%Qc), (qltb_spec a 0%Qc), (qltb_spec b 0%Qc); repeat match goal with H : ~ _ |- _ => apply Qcnot_lt_le in H end; qlra. Qed.
Lemma Qc_mul_pos_le (a b : Qc) : (0 <= a)%Qc -> (0 <= b)%Qc -> (0 <= a * b)%Qc.
Proof. intros Ha Hb. assert (P := Qcmult_le_compat_r _ _ _ Ha Hb). rewrite Qcmult_0_l in P. auto. Qed.
Lemma qabs_mul a b : qabs (a * b)%Qc = (qabs a * qabs b)%Qc.
Proof.
  assert (K : forall u v, (0 <= u)%Qc -> (0 <= v)%Qc -> qabs (u * v)%Qc = (u * v)%Qc).
  { intros u v Hu Hv. assert (P := Qc_mul_pos_le u v Hu Hv). unfold qabs. destruct (qltb_spec (u * v)%Qc 0%Qc); auto. exfalso. qlra. }
  assert (Neg : forall u, qabs (- u)%Qc = qabs u). { intros u. unfold qabs. destruct (qltb_spec (- u)%Qc 0%Qc) as [A|A], (qltb_spec u 0%Qc) as [B|B]; try apply Qcnot_lt_le in A; try apply Qcnot_lt_le in B; try (apply Qcle_antisym; qlra); ring. }
  assert (Pa : (0 <= a)%Qc -> qabs a = a) by (intros; unfold qabs; destruct (qltb_spec a 0%Qc); auto; exfalso; qlra).
  assert (Pb : (0 <= b)%Qc -> qabs b = b) by (intros; unfold qabs; destruct (qltb_spec b 0%Qc); auto; exfalso; qlra).
  assert (Na : ~ (0 <= a)%Qc -> qabs a = (- a)%Qc) by (intros HH; unfold qabs; destruct (qltb_spec a 0%Qc) as [|A]; auto; apply Qcnot_lt_le in A; contradiction).
  assert (Nb : ~ (0 <= b)%Qc -> qabs b = (- b)%Qc) by (intros HH; unfold qabs; destruct (qltb_spec b 0%Qc) as [|A]; auto; apply Qcnot_lt_le in A; contradiction).
  destruct (Qclt_le_dec a 0) as [A|A], (Qclt_le_dec b 0) as [B|B].
  - rewrite Na, Nb by (apply Qclt_not_le; auto). rewrite <- (K (- a) (- b))%Qc by qlra. f_equal. ring.
  - rewrite Na by (apply Qclt_not_le; auto). rewrite Pb by auto. rewrite <- (K (- a) b)%Qc by qlra. rewrite <- Neg. f_equal. ring.
  - rewrite Nb by (apply Qclt_not_le; auto). rewrite Pa by auto. rewrite <- (K a (- b))%Qc by qlra. rewrite <- Neg. f_equal. ring.
  - rewrite Pa, Pb by auto. apply K; auto.
Qed.
Lemma qabs_sum n f : (qabs (sum_to n f) <= sum_to n (fun i => qabs (f i)))%Qc.
Proof.
  unfold sum_to. induction (upto n) as [|a t IH]; cbn [map]; [vm_compute; discriminate|]. rewrite !qsum_cons'. assert (T := qabs_tri (f a) (qsum (map f t))). qlra.
Qed.
Lemma st_le n f g : (forall i, 0 <= i < n -> (f i <= g i)%Qc) -> (sum_to n f <= sum_to n g)%Qc.
Proof.
  intros H. assert (E : (sum_to n g = sum_to n f + sum_to n (fun i => g i - f i))%Qc) by (rewrite st_sub; ring). rewrite E.
  assert (P : (0 <= sum_to n (fun i => g i - f i))%Qc) by (apply st_nonneg; intros i Hi; specialize (H i Hi); qlra). qlra.
Qed.
(** The product of the norms of a matrix and of its inverse is at least one. *)
Lemma cond_ge1 n a g n1 n2 : 0 < n -> inverse_of n a g -> norm1_of n n a n1 -> norm1_of n n g n2 -> (1 <= n1 * n2)%Qc.
Proof.
  intros Pn Inv (N0 & A & _) (M0 & B & _).
  assert (I : (1 <= sum_to n (fun i => qabs (product n a g i 0%Z)))%Qc).
  { rewrite (st_ext n _ (fun i => if 0 =? i then 1%Qc else 0%Qc)); [rewrite (st_pick n (fun _ => 1%Qc)) by lia; apply Qcle_refl|].
    intros i Hi. destruct (Inv i 0 Hi ltac:(lia)) as (-> & _). unfold iden. destruct (Z.eqb_spec i 0), (Z.eqb_spec 0 i); subst; try lia; reflexivity. }
  eapply Qcle_trans; [exact I|]. clear I.
  apply Qcle_trans with (sum_to n (fun i => sum_to n (fun l => qabs (a i l) * qabs (g l 0%Z)))%Qc).
  { apply st_le. intros i Hi. rewrite product_sum. eapply Qcle_trans; [apply qabs_sum|]. apply st_le. intros l _. rewrite qabs_mul. apply Qcle_refl. }
  rewrite st_swap. apply Qcle_trans with (sum_to n (fun l => n1 * qabs (g l 0%Z))%Qc).
  - apply st_le. intros l Hl. rewrite st_mul_r. apply Qcmult_le_compat_r; [apply A; auto|apply qabs_nn].
  - rewrite st_mul. rewrite !(Qcmult_comm n1). apply Qcmult_le_compat_r; [apply B; lia|auto].
Qed.

(** ** Least squares of a system *)
Lemma st_sq_zero n f : (sum_to n (fun t => f t * f t) = 0)%Qc -> forall t, 0 <= t < n -> f t = 0%Qc.
Proof.
  intros H t Ht. assert (P : (f t * f t <= sum_to n (fun t => f t * f t))%Qc).
  { rewrite <- (st_pick n (fun s => f s * f s)%Qc t Ht). apply st_le. intros s _. destruct (t =? s); [apply Qcle_refl|apply sq_nn]. }
  rewrite H in P. assert (Q := sq_nn (f t)). assert (E : (f t * f t = 0)%Qc) by (apply Qcle_antisym; auto). destruct (Qcmult_integral _ _ E); auto.
Qed.
(** Coefficients with the smallest sum of squares solve the normal equations. *)
Lemma ssr_at N k (y x b c : Z -> Z -> Qc) j : (forall i, 0 <= i < k -> sum_to N (fun t => x t i * residual k y x b t j)%Qc = 0%Qc) ->
  (ssr N k y x c j = ssr N k y x b j + sum_to N (fun t => sum_to k (fun l => x t l * (c l j - b l j)) * sum_to k (fun l => x t l * (c l j - b l j))))%Qc.
Proof.
  intros H. set (u := fun t => sum_to k (fun l => x t l * (c l j - b l j))%Qc).
  assert (Rc : forall t, residual k y x c t j = (residual k y x b t j - u t)%Qc).
  { intros t. unfold u, residual. rewrite (st_ext k (fun l => x t l * (c l j - b l j))%Qc (fun l => x t l * c l j - x t l * b l j)%Qc) by (intros; ring). rewrite st_sub. ring. }
  assert (Cr : sum_to N (fun t => u t * residual k y x b t j)%Qc = 0%Qc).
  { unfold u. rewrite (st_ext N _ (fun t => sum_to k (fun l => (c l j - b l j) * (x t l * residual k y x b t j))%Qc)) by (intros; rewrite <- st_mul_r; apply st_ext; intros; ring).
    rewrite st_swap. rewrite (st_ext k _ (fun _ => 0%Qc)); [apply st_zero|]. intros l Hl. rewrite st_mul, H by auto. ring. }
  unfold ssr. rewrite (st_ext N (fun t => residual k y x c t j * residual k y x c t j)%Qc (fun t => residual k y x b t j * residual k y x b t j + (u t * u t - (1 + 1) * (u t * residual k y x b t j)))%Qc) by (intros; rewrite Rc; ring).
  rewrite st_add, st_sub, st_mul, Cr. unfold u. ring.
Qed.
Lemma ssr_unique N k (g y x b c : Z -> Z -> Qc) j : (forall i l, 0 <= i < k -> 0 <= l < k -> product k g (product N (fun i l => x l i) x) i l = iden i l) ->
  (forall i, 0 <= i < k -> sum_to N (fun t => x t i * residual k y x b t j)%Qc = 0%Qc) -> (ssr N k y x c j <= ssr N k y x b j)%Qc -> forall i, 0 <= i < k -> c i j = b i j.
Proof.
  intros G B L. rewrite (ssr_at N k y x b c j B) in L. set (u := fun t => sum_to k (fun l => x t l * (c l j - b l j))%Qc).
  assert (L' : (ssr N k y x b j + sum_to N (fun t => u t * u t) <= ssr N k y x b j)%Qc) by exact L. clear L.
  assert (U : forall t, 0 <= t < N -> u t = 0%Qc).
  { apply st_sq_zero. apply Qcle_antisym; [clearbody u; qlra|apply st_nonneg; intros; apply sq_nn]. }
  apply (normal_unique N k (fun i l => x l i) x g y c b j G); auto.
  intros i Hi. rewrite <- (B i Hi). apply st_ext. intros t Ht. f_equal. unfold residual. assert (E := U t Ht). unfold u in E.
  rewrite (st_ext k _ (fun l => x t l * c l j - x t l * b l j)%Qc) in E by (intros; ring). rewrite st_sub in E. qlra.
Qed.

Section Calc.
Context (lapack : mat Qc -> list Qc * Z) (pt : Z -> Qc -> Qc) (det_pd : mat Qc -> option Qc).
Context (d : sur_decl) (y x : mat Qc) (storage work : list Qc) (R : option (mat Qc)) (maxp : Qc).
Hypothesis Call : sur_call lapack d y x storage work.
Local Notation N := (rows y).
Local Notation m := (cols y).
Local Notation k := (cols x).
Local Notation Nz := (Z.of_nat N).
Local Notation mz := (Z.of_nat m).
Local Notation kz := (Z.of_nat k).
Local Notation km := (k * m)%nat.
Local Notation calc := (sur_calculate lapack pt det_pd d y x storage work R maxp).
Local Notation ck := (checks d N m k R maxp).

Lemma calc_ok u : calc = Ok u -> ck.
Proof. intros E. destruct (calc_cases lapack pt det_pd d N m k y x storage work R maxp eq_refl eq_refl eq_refl) as [(E2 & _)|(C & _)]; auto. congruence. Qed.
Lemma inv_ub M : inv00 lapack M <> UB.
Proof. unfold inv00. destruct (lapack M) as (dd & info). destruct (info =? 0); discriminate. Qed.
Lemma no_ub : has_restrictions d R -> calc <> UB.
Proof using Call.
  intros HR. destruct Call as [So Le Wy Wx Rx SS SW]. destruct (calc_cases lapack pt det_pd d N m k y x storage work R maxp eq_refl eq_refl eq_refl) as [(E & _)|(C & _)]; [rewrite E; discriminate|].
  destruct (sd_restricted d) eqn:Rs.
  - destruct (HR Rs) as (R0 & ER & WR & Pq). destruct (Z.eq_dec (sd_iter d) 0) as [It|It].
    + destruct (calc_r lapack pt det_pd d N m k y x storage work R maxp So Le Wy Wx eq_refl Rx eq_refl eq_refl SS SW C R0 Rs It ER WR Pq) as (X & _ & T & O).
      destruct (inv00 lapack X) as [xi| |] eqn:E; [|rewrite T by auto; discriminate|destruct (inv_ub _ E)].
      destruct (O xi eq_refl) as (n1 & n2 & s & _ & gm & n & _ & T2 & O2). destruct (inv00 lapack gm) as [gi| |] eqn:E2; [|rewrite T2 by auto; discriminate|destruct (inv_ub _ E2)].
      destruct (O2 gi eq_refl) as (_ & _ & s2 & [v|] & _ & _ & F); [destruct F as (dt & -> & _); discriminate|rewrite F; discriminate].
    + destruct (calc_search lapack pt det_pd d N m k y x storage work R maxp So Le Wy Wx eq_refl Rx eq_refl eq_refl SS SW C Rs It R0 ER WR) as (X & _ & T & O).
      destruct (inv00 lapack X) as [xi| |] eqn:E; [|rewrite T by auto; discriminate|destruct (inv_ub _ E)].
      destruct (O xi eq_refl) as (n1 & n2 & s1 & _ & [E2|(s' & R' & it & [v|] & _ & _ & F)]); [rewrite E2; discriminate| |rewrite F; discriminate]. destruct F as (dt & -> & _). discriminate.
  - destruct (calc_un lapack pt det_pd d N m k y x storage work R maxp So Le Wy Wx eq_refl Rx eq_refl eq_refl SS SW C Rs) as (X & _ & T & O).
    destruct (inv00 lapack X) as [xi| |] eqn:E; [|rewrite T by auto; discriminate|destruct (inv_ub _ E)].
    destruct (O xi eq_refl) as (_ & _ & s & [v|] & _ & _ & F); [destruct F as (dt & -> & _); discriminate|rewrite F; discriminate].
Qed.
(** ** Unrestricted *)
Lemma co_fitted b s : consistent N m k y x b s -> fitted_by N m k (el y) (el x) b (s_beta s) (s_yhat s) (s_resid s) (s_rvar s).
Proof. intros [A B C D]. split; [exact A|split; [exact B|split; [exact C|exact D]]]. Qed.
Lemma fitted_ext b b' B Y E V : (forall i j, 0 <= i < kz -> 0 <= j < mz -> b i j = b' i j) -> fitted_by N m k (el y) (el x) b B Y E V -> fitted_by N m k (el y) (el x) b' B Y E V.
Proof.
  intros Eq (A & B' & C & D). assert (Rs : forall t j, 0 <= j < mz -> residual kz (el y) (el x) b t j = residual kz (el y) (el x) b' t j) by (intros t j Hj; unfold residual; f_equal; apply st_ext; intros; rewrite Eq; auto).
  split; [|split; [|split]].
  - destruct A as (A1 & A2 & A3 & A4). split; [auto|split; [auto|split; [auto|]]]. intros. rewrite A4 by auto. auto.
  - destruct B' as (A1 & A2 & A3 & A4). split; [auto|split; [auto|split; [auto|]]]. intros. rewrite A4 by auto. apply st_ext. intros. rewrite Eq; auto.
  - destruct C as (A1 & A2 & A3 & A4). split; [auto|split; [auto|split; [auto|]]]. intros. rewrite A4 by auto. auto.
  - destruct D as (A1 & A2 & A3 & A4). split; [auto|split; [auto|split; [auto|]]]. intros. rewrite A4 by auto. unfold res_cov, cross. f_equal. apply st_ext. intros. rewrite !Rs by auto. auto.
Qed.
Lemma xx_prod i j : product Nz (fun i l => el x l i) (el x) i j = xtx Nz (el x) i j.
Proof. rewrite product_sum. reflexivity. Qed.
Lemma inv_xx g : inverse_of kz (product Nz (fun i l => el x l i) (el x)) g <-> inverse_of kz (xtx Nz (el x)) g.
Proof.
  split; intros H i j Hi Hj; destruct (H i j Hi Hj) as (A & B); split; [rewrite <- A|rewrite <- B|rewrite <- A|rewrite <- B]; apply product_ext'; intros l Hl; split; auto using xx_prod; symmetry; apply xx_prod.
Qed.
Lemma un_normal g n1 n2 dg sa s : un_result N m k y x g n1 n2 dg sa s -> normal Nz mz kz (el y) (el x) (el (s_beta s)).
Proof.
  intros U i j Hi Hj. destruct (un_co _ _ _ _ _ _ _ _ _ _ _ U) as [(_ & _ & _ & Cb) _ _ _].
  apply (normal_equations Nz kz (fun i l => el x l i) (el x) g (el y) (el (s_beta s)) j); auto.
  - intros a b Ha Hb. apply (un_inv _ _ _ _ _ _ _ _ _ _ _ U a b Ha Hb).
  - intros l Hl. rewrite Cb by auto. symmetry. apply product_assoc'.
Qed.
Lemma un_fitted g n1 n2 dg sa s : un_result N m k y x g n1 n2 dg sa s -> fitted_by N m k (el y) (el x) (el (s_beta s)) (s_beta s) (s_yhat s) (s_resid s) (s_rvar s).
Proof.
  intros U. assert (Co := un_co _ _ _ _ _ _ _ _ _ _ _ U). apply co_fitted in Co. revert Co. apply fitted_ext. intros i j Hi Hj. destruct (un_co _ _ _ _ _ _ _ _ _ _ _ U) as [(_ & _ & _ & Cb) _ _ _]. symmetry. auto.
Qed.
Lemma un_ok u : calc = Ok u -> sd_restricted d = false -> ck /\ exists g n1 n2 sa, un_result N m k y x g n1 n2 true sa (u_est u) /\ u_R u = R /\ u_iter u = 0 /\ det_of det_pd m (el (s_rvar (u_est u))) (Some (u_det u)) /\
  details_are pt d N m k None (kronf k k (el (s_rvar (u_est u))) g) (el (s_beta (u_est u))) (u_details u).
Proof using Call.
  intros E Rs. assert (C := calc_ok u E). split; [exact C|]. destruct Call as [So Le Wy Wx Rx SS SW].
  destruct (calc_un lapack pt det_pd d N m k y x storage work R maxp So Le Wy Wx eq_refl Rx eq_refl eq_refl SS SW C Rs) as (X & _ & T & O).
  destruct (inv00 lapack X) as [xi| |] eqn:Ei; [|rewrite T in E by auto; discriminate|destruct (inv_ub _ Ei)].
  destruct (O xi eq_refl) as (n1 & n2 & s & o & U & D & F). destruct o as [v|]; [|congruence]. destruct F as (dt & F & De). rewrite F in E. injection E as <-. cbn [u_est u_R u_iter u_det u_details].
  exists (el xi), n1, n2. eexists. split; [exact U|]. auto.
Qed.
(** ** Restricted *)
Lemma r_ok u R0 : calc = Ok u -> sd_restricted d = true -> sd_iter d = 0 -> R = Some R0 -> mat_ok R0 -> (0 < cols R0)%nat -> ck /\
  exists s1 g1 m1 m2 sa, un_result N m k y x g1 m1 m2 false sa s1 /\
  exists g n1 n2, r_result N m k y x (cols R0) R0 (el (with_data (s_rvar s1) (fst (lapack (s_rvar s1))))) g n1 n2 (u_est u) /\ u_R u = R /\ u_iter u = 0 /\ det_of det_pd m (el (s_rvar (u_est u))) (Some (u_det u)) /\
  details_are pt d N m k (Some R0) g (el (s_beta (u_est u))) (u_details u).
Proof using Call.
  intros E Rs It ER WR Pq. assert (C := calc_ok u E). split; [exact C|]. destruct Call as [So Le Wy Wx Rx SS SW].
  destruct (calc_r lapack pt det_pd d N m k y x storage work R maxp So Le Wy Wx eq_refl Rx eq_refl eq_refl SS SW C R0 Rs It ER WR Pq) as (X & _ & T & O).
  destruct (inv00 lapack X) as [xi| |] eqn:Ei; [|rewrite T in E by auto; discriminate|destruct (inv_ub _ Ei)].
  destruct (O xi eq_refl) as (m1 & m2 & s1 & U & gm & n & _ & T2 & O2). exists s1, (el xi), m1, m2. eexists. split; [exact U|].
  destruct (inv00 lapack gm) as [gi| |] eqn:Eg; [|rewrite T2 in E by auto; discriminate|destruct (inv_ub _ Eg)].
  destruct (O2 gi eq_refl) as (n1 & n2 & s2 & o & Rr & D & F). destruct o as [v|]; [|congruence]. destruct F as (dt & F & De). rewrite F in E. injection E as <-. cbn [u_est u_R u_iter u_det u_details].
  exists (el gi), n1, n2. split; [exact Rr|]. rewrite ER in De. auto.
Qed.
Lemma search_ok u R0 : calc = Ok u -> sd_restricted d = true -> sd_iter d <> 0 -> R = Some R0 -> mat_ok R0 -> ck /\
  exists s1 g1 m1 m2 sa R', un_result N m k y x g1 m1 m2 true sa s1 /\ found lapack pt d N m k y x maxp R0 s1 g1 (u_est u) R' (u_iter u) /\
  u_R u = Some R' /\ det_of det_pd m (el (s_rvar (u_est u))) (Some (u_det u)) /\ details_are pt d N m k (Some R') (el (s_gvar (u_est u))) (el (s_beta (u_est u))) (u_details u).
Proof using Call.
  intros E Rs It ER WR. assert (C := calc_ok u E). split; [exact C|]. destruct Call as [So Le Wy Wx Rx SS SW].
  destruct (calc_search lapack pt det_pd d N m k y x storage work R maxp So Le Wy Wx eq_refl Rx eq_refl eq_refl SS SW C Rs It R0 ER WR) as (X & _ & T & O).
  destruct (inv00 lapack X) as [xi| |] eqn:Ei; [|rewrite T in E by auto; discriminate|destruct (inv_ub _ Ei)].
  destruct (O xi eq_refl) as (m1 & m2 & s1 & U & [E2|(s' & R' & it & o & Fo & D & F)]); [congruence|]. destruct o as [v|]; [|congruence]. destruct F as (dt & F & De). rewrite F in E. injection E as <-. cbn [u_est u_R u_iter u_det u_details].
  exists s1, (el xi), m1, m2. eexists. exists R'. split; [exact U|]. auto.
Qed.
End Calc.

(** ** The restricted estimates *)
Section Gls.
Context (lapack : mat Qc -> list Qc * Z) (N m k q : nat) (y x R : mat Qc).
Hypothesis Sound : lapack_sound lapack.
Hypothesis PN : (0 < N)%nat.
Hypothesis Pk : (0 < k)%nat.
Hypothesis Pm : (0 < m)%nat.
Local Notation Nz := (Z.of_nat N).
Local Notation mz := (Z.of_nat m).
Local Notation kz := (Z.of_nat k).
Local Notation qz' := (Z.of_nat q).
Local Notation lin g := (restricted kz qz' (el R) g).
Local Notation obj W g := (sys_ssr Nz mz W (residual kz (el y) (el x) (lin g))).
Lemma gram_info W l l' : gram_of N m k x R W l l' = info_matrix Nz mz kz W (el x) (el R) l l'.
Proof using Pk PN.
  unfold gram_of, info_matrix. rewrite product_sum, (st_km N m k Pk PN).
  transitivity (sum_to mz (fun j' => sum_to kz (fun i' => sum_to mz (fun j => sum_to kz (fun i => (el R (j * kz + i) l * (W j j' * xtx Nz (el x) i i') * el R (j' * kz + i') l')%Qc))))).
  - apply st_ext. intros j' Hj'. apply st_ext. intros i' Hi'. unfold rv_of. rewrite product_sum, (st_km N m k Pk PN), <- st_mul_r. apply st_ext. intros j Hj. rewrite <- st_mul_r. apply st_ext. intros i Hi.
    unfold kronf. destruct (pair_div j i kz Hi) as (-> & ->). destruct (pair_div j' i' kz Hi') as (-> & ->). rewrite product_sum. reflexivity.
  - rewrite (st_ext mz _ (fun j' => sum_to mz (fun j => sum_to kz (fun i' => sum_to kz (fun i => (el R (j * kz + i) l * (W j j' * xtx Nz (el x) i i') * el R (j' * kz + i') l')%Qc))))) by (intros; apply st_swap).
    rewrite st_swap. apply st_ext. intros j _. apply st_ext. intros j' _. apply st_swap.
Qed.
Lemma weights (rv : mat Qc) S0 : mat_ok rv -> rows rv = m -> cols rv = m -> (forall i j, 0 <= i < mz -> 0 <= j < mz -> el rv i j = S0 i j) -> lapack_complete mz lapack -> (exists G, inverse_of mz S0 G) ->
  inverse_of mz S0 (el (with_data rv (fst (lapack rv)))).
Proof using Sound.
  intros W0 A B E Cp (G & Inv). assert (I1 : inverse_of mz (el rv) G). { intros i j Hi Hj. destruct (Inv i j Hi Hj) as (J1 & J2). split; [rewrite <- J1|rewrite <- J2]; apply product_ext'; intros l Hl; rewrite ?E; auto. }
  assert (Nr : nrows rv = mz) by (unfold nrows; rewrite A; auto). assert (Nc : ncols rv = mz) by (unfold ncols; rewrite B; auto).
  assert (Z0 := Cp rv G W0 Nr Nc I1). destruct (lapack rv) as (dd & info) eqn:El. cbn in Z0. subst info. destruct (Sound rv dd W0 (eq_trans Nr (eq_sym Nc)) El) as (_ & I2). rewrite Nr in I2. cbn [fst].
  intros i j Hi Hj. destruct (I2 i j Hi Hj) as (J1 & J2). split; [rewrite <- J1|rewrite <- J2]; apply product_ext'; intros l Hl; rewrite ?E; auto.
Qed.
Lemma gls_best W g n1 n2 s b0 : r_result N m k y x q R W g n1 n2 s -> inverse_of mz (res_cov Nz kz (el y) (el x) b0) W -> let ga := fun l => el (s_gamma s) l 0 in
  inverse_of qz' (info_matrix Nz mz kz W (el x) (el R)) (el (s_gvar s)) /\
  (forall h, (obj W ga <= obj W h)%Qc) /\ (forall h, (obj W h <= obj W ga)%Qc -> forall l, 0 <= l < qz' -> h l = ga l).
Proof using PN Pk Pm.
  intros Rr Inv ga.
  assert (Sy0 : StatSpec.symmetric mz (res_cov Nz kz (el y) (el x) b0)) by (intros i j _ _; unfold res_cov; rewrite cross_sym; auto).
  assert (Ps0 : psd mz (res_cov Nz kz (el y) (el x) b0)).
  { apply cross_psd. apply Qclt_le_weak. apply Verif.HistProofs2.Qc_inv_pos. apply (qz_lt 0). lia. }
  assert (Sy := inv_sym _ _ _ Sy0 Inv). assert (Ps := inv_psd _ _ _ Sy0 Ps0 Inv).
  assert (Hg : forall l, 0 <= l < qz' -> ga l = product qz' g (z_of N m k y x R W) l 0).
  { intros l Hl. unfold ga. destruct (r_gamma _ _ _ _ _ _ _ _ _ _ _ _ Rr) as (_ & _ & _ & ->); auto; lia. }
  assert (Ig := r_inv _ _ _ _ _ _ _ _ _ _ _ _ Rr).
  split; [|split].
  - intros i j Hi Hj. destruct (Ig i j Hi Hj) as (J1 & J2). split; [rewrite <- J1|rewrite <- J2]; apply product_ext'; intros l Hl; (split; [|]); try (symmetry; apply gram_info); destruct (r_gvar _ _ _ _ _ _ _ _ _ _ _ _ Rr) as (_ & _ & _ & ->); auto.
  - intros h. apply gls_min; auto. intros l Hl. apply (gls_normal N m k q W (el y) (el x) (el R) g ga Sy Pk PN Ig Hg l Hl).
  - intros h Hh. apply (gls_strict N m k q W (el y) (el x) (el R) g ga Sy Pk PN Ig Hg Ps h Hh).
Qed.
(** If the ordinary estimates meet the restrictions, they are the result. *)
Lemma gls_same W g n1 n2 s b0 h : r_result N m k y x q R W g n1 n2 s -> inverse_of mz (res_cov Nz kz (el y) (el x) b0) W -> normal Nz mz kz (el y) (el x) b0 ->
  (forall i j, 0 <= i < kz -> 0 <= j < mz -> b0 i j = lin h i j) -> forall l, 0 <= l < qz' -> el (s_gamma s) l 0 = h l.
Proof using PN Pk Pm.
  intros Rr Inv Nm Eq l Hl.
  assert (Sy0 : StatSpec.symmetric mz (res_cov Nz kz (el y) (el x) b0)) by (intros i j _ _; unfold res_cov; rewrite cross_sym; auto).
  assert (Sy := inv_sym _ _ _ Sy0 Inv). assert (Ig := r_inv _ _ _ _ _ _ _ _ _ _ _ _ Rr).
  assert (Hg : forall l, 0 <= l < qz' -> (fun l => el (s_gamma s) l 0) l = product qz' g (z_of N m k y x R W) l 0).
  { intros l' Hl'. cbn beta. destruct (r_gamma _ _ _ _ _ _ _ _ _ _ _ _ Rr) as (_ & _ & _ & ->); auto; lia. }
  symmetry. apply (gls_unique N m k q W (el y) (el x) (el R) g (fun l => el (s_gamma s) l 0) Sy Pk PN Ig Hg h); auto.
  intros l' Hl'. unfold grad. rewrite (st_ext mz _ (fun _ => 0%Qc)); [apply st_zero|]. intros j' _. rewrite (st_ext mz _ (fun _ => 0%Qc)); [apply st_zero|]. intros j Hj.
  rewrite (st_ext kz _ (fun _ => 0%Qc)); [rewrite st_zero; ring|]. intros i Hi. rewrite <- (Qcmult_0_r (el R (j' * kz + i) l')). f_equal. rewrite <- (Nm i j Hi Hj). apply st_ext. intros t _. f_equal.
  unfold residual. f_equal. apply st_ext. intros l2 Hl2. rewrite Eq; auto.
Qed.
End Gls.

(** ** Details and the determinant *)
Lemma prob_spec pt n b v : two_sided pt n b v (prob pt n b v).
Proof.
  unfold two_sided, prob. split; [|split; [|split]].
  - intros H. destruct (qltb_spec v 0%Qc) as [A|A]; [exfalso; qlra|]. destruct (qeqb_spec v 0%Qc) as [B|B]; [subst; exfalso; qlra|reflexivity].
  - intros -> B. destruct (qltb_spec 0%Qc 0%Qc) as [A|A]; [exfalso; qlra|]. destruct (qeqb_spec 0%Qc 0%Qc) as [_|C]; [|contradiction]. destruct (qeqb_spec b 0%Qc); [contradiction|reflexivity].
  - intros -> ->. reflexivity.
  - intros H. rewrite (proj2 (qltb_lt v 0%Qc) H). reflexivity.
Qed.
Lemma details_spec pt d (N m k : nat) restr gv b o : (0 < k)%nat -> sd_details d = true -> details_are pt d N m k restr gv b o ->
  exists dd, o = Some dd /\ details_of pt N m k b (fun i j => var_of restr gv (j * Z.of_nat k + i)) dd.
Proof.
  unfold details_are. intros Pk -> (dd & -> & H1 & H2). exists dd. split; [reflexivity|]. split; [exact H1|]. rewrite H2. split; [rewrite map_length, upto_length; lia|].
  intros i j Hi Hj. eexists. split; [|apply prob_spec]. rewrite nth_error_map. assert (Hn : 0 <= j * Z.of_nat k + i < Z.of_nat (k * m)) by nia.
  change (upto (Z.of_nat (k * m))) with (zrange 0 (Z.of_nat (k * m))). rewrite zrange_nth by lia. cbn [option_map]. rewrite Z2Nat.id by lia. rewrite Z.add_0_l.
  destruct (pair_div j i (Z.of_nat k) Hi) as (-> & ->). reflexivity.
Qed.
Lemma det_spec det_pd (m : nat) rv v : rows rv = m -> cols rv = m -> det_of det_pd m (el rv) (Some v) -> log_determinant det_pd rv v.
Proof.
  intros A B (W & HW & E). exists W. rewrite A, B. split; [exact HW|]. unfold ncols. rewrite B. destruct (Nat.eqb_spec m 1) as [->|Hm]; [injection E as ->; reflexivity|]. replace (Z.of_nat m =? 1) with false by lia. auto.
Qed.
Lemma kron_at (p : nat) a b i j i' j' : 0 <= i < Z.of_nat p -> 0 <= i' < Z.of_nat p -> kronf p p a b (j * Z.of_nat p + i) (j' * Z.of_nat p + i') = (a j j' * b i i')%Qc.
Proof. intros Hi Hi'. unfold kronf. destruct (pair_div j i (Z.of_nat p) Hi) as (-> & ->). destruct (pair_div j' i' (Z.of_nat p) Hi') as (-> & ->). reflexivity. Qed.
