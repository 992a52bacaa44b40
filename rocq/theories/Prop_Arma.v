(** C113, C114: the polynomials and the impulse responses of a VARMA model, and the variances of its forecasts. *)
From Verif Require Import ArmaModel ArmaSpec MPolySpec MatProofs MatProofs2 MatDotProofs SplitProofs SplitProofs4 MatProofs4 MatProofs6 PolyProofs PolyProofs2 MPolyProofs MPolyProofs2 VarmaProofs VarmaProofs3 VarmaProofs4 ForecastProofs ArmaProofs ArmaProofs2 ArmaProofs3 ArmaProofs4 ArmaProofs5 ArmaProofs6 Prop_Varma Prop_Forecast.
From Coq Require Import Lia ZifyBool Sorted.
Local Open Scope Z_scope.

(** ** Specifications whose lags are different *)
Definition no_overlap (p P q Q s : Z) : Prop := (p < s \/ P = 0) /\ (q < s \/ Q = 0).
Lemma sorted_ascending l : forall l0, StronglySorted Z.lt l -> (forall x, In x l -> l0 < x) -> ascending l0 l.
Proof.
  induction l as [|x t IH]; intros l0 HS H; cbn; [exact Logic.I|]. inversion HS; subst. split; [apply H; left; auto|]. apply IH; auto. intros y Hy. match goal with F : Forall _ t |- _ => rewrite Forall_forall in F; apply F; exact Hy end.
Qed.
Lemma orders_ok obs eqs exo p d q P D Q s work z : valid_spec p d q P D Q s -> enough d D s work -> no_overlap p P q Q s -> make_sizes obs eqs exo p d q P D Q s work = Ok z ->
  v_eqs z = eqs /\ v_exo z = exo /\ ascending 0 (v_arlags z) /\ ascending 0 (v_malags z) /\ hd_error (v_diff z) = Some 1%Qc /\ (forall f t, lag_sum (v_diff z) f t = delta d D s f t) /\
  v_paramseq z = (p + P) * eqs + exo + (q + Q) * eqs /\ v_mastart z = (p + P) * eqs + exo /\ v_armaxd z = v_armax z + (d + seasons s * D).
Proof.
  intros V E [O1 O2] EZ. destruct (c39_sizes obs eqs exo p d q P D Q s work V E) as (z1 & E1 & _ & H1 & H2 & H3 & H4 & _ & _ & H5 & H6 & _ & H7). rewrite EZ in E1. injection E1 as <-.
  destruct (c39_distinct_partial obs eqs exo p d q P D Q s work V E) as (z1 & E1 & D1 & D2). rewrite EZ in E1. injection E1 as <-.
  destruct (sizes_ok obs eqs exo p d q P D Q s work V E) as (df & E2 & LD & S2 & EV & _). rewrite EZ in E2. injection E2 as E2.
  assert (Vd : v_diff z = df) by (rewrite E2; reflexivity). destruct V as (Hp & Hd & Hq & HP & HD & HQ & HS & HZ).
  split; [exact H1|]. split; [exact H2|]. split; [|split; [|split; [|split; [|split; [exact H6|split; [exact H5|unfold v_armaxd; rewrite H7; reflexivity]]]]]].
  - apply sorted_ascending; [apply D1; exact O1|]. intros x Hx. apply H3 in Hx. destruct Hx as [Hx|(k & Hk & ->)]; [lia|]. destruct (Z.lt_ge_cases s 2) as [L|L]; [destruct HS; lia|nia].
  - apply sorted_ascending; [apply D2; exact O2|]. intros x Hx. apply H4 in Hx. destruct Hx as [Hx|(k & Hk & ->)]; [lia|]. destruct (Z.lt_ge_cases s 2) as [L|L]; [destruct HS; lia|nia].
  - rewrite Vd. specialize (EV 0%Qc). destruct df as [|x r]; [exfalso; cbn in LD; assert (0 <= seasons s * D) by (unfold seasons; destruct (Z.ltb_spec s 2); nia); lia|]. cbn [hd_error]. f_equal.
    transitivity (eval (x :: r) 0); [unfold eval; cbn; ring|]. rewrite EV.
    assert (O : forall n, qpow (1 - 0) n = 1%Qc) by (induction n as [|n IH]; [reflexivity|cbn [qpow]; rewrite IH; ring]). rewrite O.
    destruct (Z.lt_ge_cases s 2) as [L|L]; [assert (D = 0) as -> by tauto; cbn; ring|]. unfold seasons. replace (s <? 2) with false by lia. destruct (Z.to_nat s) as [|k] eqn:Ek; [lia|]. cbn [qpow]. replace (1 - 0 * qpow 0 k)%Qc with (1 - 0)%Qc by ring. rewrite O. ring.
  - intros f t. rewrite Vd. apply S2.
Qed.

(** ** C113 *)
(** The storage: all polynomials; one block more for a model without lags of the variables and without differences (see c113_storage_refuted). *)
Definition storage_needed (eqs p P d D s : Z) (z : vsizes) (n : nat) : Z := arma_storage z (Z.of_nat n) + (if (p + P =? 0) && (d + seasons s * D =? 0) then eqs * eqs else 0).
Section C113.
Variables (lapack : mat Qc -> list Qc -> list Qc * Z) (obs eqs exo p d q P D Q s : Z) (work0 : list Qc) (z : vsizes) (n : nat) (coef : mat Qc) (st work : list Qc).
Hypotheses (V : valid_spec p d q P D Q s) (E : enough d D s work0) (O : no_overlap p P q Q s) (EZ : make_sizes obs eqs exo p d q P D Q s work0 = Ok z) (G : 1 <= eqs) (NX : 0 <= exo)
  (WC : mat_ok coef) (RC : nrows coef = eqs) (CC : ncols coef = (p + P) * eqs + exo + (q + Q) * eqs) (HI : inverts_identity lapack (Z.to_nat eqs))
  (BT : v_armax z + (d + seasons s * D) < ti_max) (BN : Z.of_nat n <= ti_max) (LS : storage_needed eqs p P d D s z n <= Z.of_nat (length st)) (LW : arma_work z (Z.of_nat n) <= Z.of_nat (length work)).
Lemma calc_full : exists st', arma_calc lapack z n coef st work = Ok st' /\ length st' = length st /\
  (forall k, (k <= Z.to_nat (v_armax z))%nat -> same (Z.to_nat eqs) (bel (Z.to_nat eqs) st' k) (poly_coef (- (1)) eqs (v_arlags z) (el coef) 0 k)) /\
  (forall k, (k <= Z.to_nat (v_mamax z))%nat -> same (Z.to_nat eqs) (bel (Z.to_nat eqs) st' (S (Z.to_nat (v_armax z)) + k)) (poly_coef 1 eqs (v_malags z) (el coef) ((p + P) * eqs + exo) k)) /\
  responses eqs exo (v_arlags z) (v_malags z) (delta d D s) (el coef) (Z.of_nat n) (fun t a b => if t <? 0 then 0%Qc else mcoef (ma_inf z n st') (Z.to_nat t) a b).
Proof using V E O EZ G NX WC RC CC HI BT BN LS LW.
  destruct (orders_ok obs eqs exo p d q P D Q s work0 z V E O EZ) as (HE & HX & A1 & A2 & HD & HL & HPar & HMs & HAd). destruct (sizes_nonneg z ltac:(lia) A1 A2) as (N1 & N2 & N3 & N4).
  set (pure := negb (v_hasdiff z) && negb (v_hasar z)). assert (EP : (if (p + P =? 0) && (d + seasons s * D =? 0) then eqs * eqs else 0) = if pure then eqs * eqs else 0).
  { replace ((p + P =? 0) && (d + seasons s * D =? 0)) with pure; [reflexivity|]. destruct (c39_sizes obs eqs exo p d q P D Q s work0 V E) as (z1 & E1 & _ & _ & _ & _ & _ & H5 & _ & _ & _ & _ & H7). rewrite EZ in E1. injection E1 as <-.
    unfold pure, v_hasdiff, v_hasar. rewrite H5. rewrite <- H7. unfold v_diffdeg. destruct (v_diff z) as [|x r]; [discriminate HD|]. cbn [length Nat.eqb]. destruct (Nat.ltb_spec 1 (S (length r))), (Z.eqb_spec (p + P) 0), (Z.eqb_spec (Z.of_nat (S (length r)) - 1) 0); cbn; try reflexivity; lia. }
  unfold storage_needed in LS. rewrite EP in LS. set (m := Z.to_nat eqs) in *. assert (Gm : Z.of_nat m = eqs) by (unfold m; lia). assert (EM : mm z = Z.of_nat (m * m)) by (unfold mm; rewrite HE; nia).
  destruct (arma_calc_ok lapack z n coef st work) as (st' & E' & L' & B1 & B2 & B3 & _ & _); auto; try lia; try (rewrite HE; auto; fail).
  { rewrite HE. fold m. fold pure. unfold arma_storage in LS. rewrite EM in LS. replace (if 0 <? Z.of_nat n then Z.of_nat n * Z.of_nat (m * m) else 0) with (Z.of_nat n * Z.of_nat (m * m)) in LS by (destruct (Z.ltb_spec 0 (Z.of_nat n)); [reflexivity|replace n with 0%nat by lia; reflexivity]).
    assert (PQ : (if pure then eqs * eqs else 0) = (if pure then 1 else 0) * Z.of_nat (m * m)) by (destruct pure; nia). rewrite PQ in LS. destruct pure; nia. }
  rewrite HE in B1, B2, B3. fold m in B1, B2, B3. rewrite HMs in B2, B3. exists st'. split; [exact E'|]. split; [exact L'|]. split; [exact B1|]. split; [exact B2|].
  apply (responses_ext eqs exo (v_arlags z) (v_malags z) (lag_sum (v_diff z)) (delta d D s) (el coef) (Z.of_nat n) _ HL).
  apply (responses_ok eqs exo (v_arlags z) (v_malags z) (v_diff z) (el coef) (mcoef (ma_inf z n st')) n G NX A1 A2). intros k Hk. fold m.
  intros i j W. replace (Z.of_nat (length (v_arlags z)) * eqs + exo) with ((p + P) * eqs + exo) by (rewrite <- HMs; unfold v_mastart, v_arlen; lia).
  rewrite <- (B3 k Hk i j W). apply mconv_ext; [intros x _ i0 j0 _; reflexivity| |exact W]. intros x Hx i0 j0 W0. unfold filtered. apply sumn_ext. intros y Hy. f_equal.
  unfold ma_inf. rewrite HE. fold m. destruct (blocks_poly m st' (S (Z.to_nat (v_armax z)) + S (Z.to_nat (v_mamax z))) n) as [_ VB].
  - rewrite L'. unfold arma_storage in LS. rewrite EM in LS. replace (if 0 <? Z.of_nat n then Z.of_nat n * Z.of_nat (m * m) else 0) with (Z.of_nat n * Z.of_nat (m * m)) in LS by (destruct (Z.ltb_spec 0 (Z.of_nat n)); [reflexivity|replace n with 0%nat by lia; reflexivity]).
    assert (0 <= if pure then eqs * eqs else 0) by (destruct pure; nia). nia.
  - rewrite VB. replace (x - y <? n)%nat with true by lia. reflexivity.
Qed.
End C113.
(** The polynomials: the coefficient at a lag is (minus, for AR) the matrix of the coefficients of that lag, zero at all other lags; the first coefficient is the identity matrix. The coefficients of
    equation i are row i of [coef]: first those of the lags of the variables, then those of the exogenous variables, then those of the lags of the errors. *)
Definition polynomial_of (m : nat) (lags : list Z) (max : Z) (c : Z -> Z -> Z -> Qc) (B : Z -> mat Qc) : Prop :=
  forall i j, 0 <= i < Z.of_nat m -> 0 <= j < Z.of_nat m ->
    el (B 0) i j = (if i =? j then 1%Qc else 0%Qc) /\ (forall r l, nth_error lags r = Some l -> el (B l) i j = c (Z.of_nat r) i j) /\ (forall l, 1 <= l <= max -> ~ In l lags -> el (B l) i j = 0%Qc).
Lemma polynomial_ok m (lags : list Z) sgn a s0 (st : list Qc) base : ascending 0 lags -> (forall k, (k <= Z.to_nat (last_lag lags))%nat -> same m (bel m st (base + k)) (poly_coef sgn (Z.of_nat m) lags a s0 k)) ->
  polynomial_of m lags (last_lag lags) (fun r i j => (sgn * a i (s0 + Z.of_nat m * r + j)%Z)%Qc) (fun l => block m st (base + Z.to_nat l)).
Proof.
  intros A H i j Hi Hj. assert (W : within m i j) by (split; auto). pose proof (last_lag_pos lags A) as L0. split; [|split].
  - change (Z.to_nat 0) with 0%nat. fold (bel m st (base + 0) i j). rewrite (H 0%nat) by (try exact W; lia). reflexivity.
  - intros r l Hr. pose proof (nth_error_In _ _ Hr) as Hin. pose proof (last_lag_max 0 lags A l Hin) as LM. pose proof (ascending_all 0 lags A l Hin) as LP. fold (bel m st (base + Z.to_nat l) i j). rewrite (H (Z.to_nat l)) by (try exact W; lia).
    destruct (Z.to_nat l) as [|k] eqn:Ek; [lia|]. cbn [poly_coef]. replace (Z.of_nat (S k)) with l by lia. rewrite (proj2 (isin_spec lags l) Hin). rewrite (rank_nth lags 0 r l A Hr). reflexivity.
  - intros l Hl Hn. fold (bel m st (base + Z.to_nat l) i j). rewrite (H (Z.to_nat l)) by (try exact W; lia). destruct (Z.to_nat l) as [|k] eqn:Ek; [lia|]. cbn [poly_coef]. replace (Z.of_nat (S k)) with l by lia.
    destruct (isin lags l) eqn:Ei; [|reflexivity]. apply isin_spec in Ei. contradiction.
Qed.
Theorem c113_polynomials (lapack : mat Qc -> list Qc -> list Qc * Z) (obs eqs exo p d q P D Q s : Z) (work0 : list Qc) (z : vsizes) (n : nat) (coef : mat Qc) (st work : list Qc) :
  valid_spec p d q P D Q s -> enough d D s work0 -> no_overlap p P q Q s -> make_sizes obs eqs exo p d q P D Q s work0 = Ok z -> 1 <= eqs -> 0 <= exo ->
  mat_ok coef -> nrows coef = eqs -> ncols coef = (p + P) * eqs + exo + (q + Q) * eqs -> inverts_identity lapack (Z.to_nat eqs) ->
  v_armax z + (d + seasons s * D) < ti_max -> Z.of_nat n <= ti_max -> storage_needed eqs p P d D s z n <= Z.of_nat (length st) -> arma_work z (Z.of_nat n) <= Z.of_nat (length work) ->
  exists st', arma_calc lapack z n coef st work = Ok st' /\ length st' = length st /\ let m := Z.to_nat eqs in
    polynomial_of m (v_arlags z) (v_armax z) (fun r i j => (- el coef i (r * eqs + j)%Z)%Qc) (fun l => block m st' (Z.to_nat l)) /\
    polynomial_of m (v_malags z) (v_mamax z) (fun r i j => el coef i ((p + P) * eqs + exo + r * eqs + j)) (fun l => block m st' (S (Z.to_nat (v_armax z)) + Z.to_nat l)).
Proof.
  intros V E O EZ G NX WC RC CC HI BT BN LS LW. destruct (calc_full lapack obs eqs exo p d q P D Q s work0 z n coef st work) as (st' & E' & L' & B1 & B2 & _); auto.
  destruct (orders_ok obs eqs exo p d q P D Q s work0 z V E O EZ) as (HE & HX & A1 & A2 & _). exists st'. split; [exact E'|]. split; [exact L'|]. cbv zeta. set (m := Z.to_nat eqs) in *. assert (Gm : Z.of_nat m = eqs) by (unfold m; lia). split.
  - intros i j Hi Hj. destruct (polynomial_ok m (v_arlags z) (- (1)) (el coef) 0 st' 0 A1) with (i := i) (j := j) as (Q1 & Q2 & Q3); auto.
    { intros k Hk. rewrite Gm. apply B1. exact Hk. }
    split; [exact Q1|]. split; [|exact Q3]. intros r l Hr. etransitivity; [exact (Q2 r l Hr)|]. rewrite Gm. replace (0 + eqs * Z.of_nat r + j) with (Z.of_nat r * eqs + j) by lia. ring.
  - intros i j Hi Hj. destruct (polynomial_ok m (v_malags z) 1 (el coef) ((p + P) * eqs + exo) st' (S (Z.to_nat (v_armax z))) A2) with (i := i) (j := j) as (Q1 & Q2 & Q3); auto.
    { intros k Hk. rewrite Gm. apply B2. exact Hk. }
    split; [exact Q1|]. split; [|exact Q3]. intros r l Hr. etransitivity; [exact (Q2 r l Hr)|]. rewrite Gm. replace ((p + P) * eqs + exo + eqs * Z.of_nat r + j) with ((p + P) * eqs + exo + Z.of_nat r * eqs + j) by lia. ring.
Qed.
Print Assumptions c113_polynomials.
(** MaInf: coefficient t is the matrix of the responses at time t to unit errors at time 0 ... *)
Theorem c113_response (lapack : mat Qc -> list Qc -> list Qc * Z) (obs eqs exo p d q P D Q s : Z) (work0 : list Qc) (z : vsizes) (n : nat) (coef : mat Qc) (st work : list Qc) :
  valid_spec p d q P D Q s -> enough d D s work0 -> no_overlap p P q Q s -> make_sizes obs eqs exo p d q P D Q s work0 = Ok z -> 1 <= eqs -> 0 <= exo ->
  mat_ok coef -> nrows coef = eqs -> ncols coef = (p + P) * eqs + exo + (q + Q) * eqs -> inverts_identity lapack (Z.to_nat eqs) ->
  v_armax z + (d + seasons s * D) < ti_max -> Z.of_nat n <= ti_max -> storage_needed eqs p P d D s z n <= Z.of_nat (length st) -> arma_work z (Z.of_nat n) <= Z.of_nat (length work) ->
  exists st', arma_calc lapack z n coef st work = Ok st' /\ length (ma_inf z n st') = n /\
    responses eqs exo (v_arlags z) (v_malags z) (delta d D s) (el coef) (Z.of_nat n) (fun t a b => if t <? 0 then 0%Qc else mcoef (ma_inf z n st') (Z.to_nat t) a b).
Proof.
  intros V E O EZ G NX WC RC CC HI BT BN LS LW. destruct (calc_full lapack obs eqs exo p d q P D Q s work0 z n coef st work) as (st' & E' & L' & _ & _ & R); auto.
  exists st'. split; [exact E'|]. split; [unfold ma_inf; rewrite map_length; apply seq_length|exact R].
Qed.
Print Assumptions c113_response.
(** ... and there is only one such matrix. *)
Theorem c113_unique (obs eqs exo p d q P D Q s : Z) (work0 : list Qc) (z : vsizes) (coef : Z -> Z -> Qc) (n : Z) (psi psi' : Z -> Z -> Z -> Qc) :
  valid_spec p d q P D Q s -> enough d D s work0 -> no_overlap p P q Q s -> make_sizes obs eqs exo p d q P D Q s work0 = Ok z ->
  responses eqs exo (v_arlags z) (v_malags z) (delta d D s) coef n psi -> responses eqs exo (v_arlags z) (v_malags z) (delta d D s) coef n psi' ->
  forall t a b, t < n -> 0 <= a < eqs -> 0 <= b < eqs -> psi t a b = psi' t a b.
Proof.
  intros V E O EZ H1 H2. destruct (orders_ok obs eqs exo p d q P D Q s work0 z V E O EZ) as (_ & _ & A1 & A2 & HD & HL & _).
  apply (responses_unique eqs exo (v_arlags z) (v_malags z) (v_diff z) coef n); auto; eapply responses_ext; try eassumption; intros f t; symmetry; apply HL.
Qed.
Print Assumptions c113_unique.
(** A lapack for the examples: the identity matrix is its own inverse. *)
Definition copy_lapack (A : mat Qc) (d : list Qc) : list Qc * Z := (firstn (rows A * cols A) (data A) ++ skipn (rows A * cols A) d, 0).
Lemma copy_lapack_ok m : inverts_identity copy_lapack m.
Proof.
  intros A W RA CA H d Hd. unfold copy_lapack. rewrite RA, CA. eexists. split; [reflexivity|]. unfold mat_ok in W. rewrite RA, CA in W. assert (LF : length (firstn (m * m) (data A)) = (m * m)%nat) by (rewrite firstn_length; lia). constructor; cbn [rows cols data]; auto.
  - rewrite app_length, LF, skipn_length. lia.
  - intros i j Hij. assert (Wi : within m i j) by (destruct Hij as [Hi Hj]; unfold nrows, ncols in *; cbn [rows cols] in *; split; lia). rewrite <- (H i j Wi).
    assert (IA : inside A i j) by (unfold inside, nrows, ncols; rewrite RA, CA; exact Wi). rewrite <- (entry_el A i j) by (try exact IA; unfold mat_ok; rewrite RA, CA; exact W).
    unfold entry. rewrite (proj2 (inside_b (Mat m m _) i j)) by (unfold inside, nrows, ncols; cbn [rows cols]; exact Wi). rewrite (proj2 (inside_b A i j) IA). cbn [data]. unfold nrows. cbn [rows]. rewrite RA.
    pose proof (within_pos _ _ _ Wi) as Wp. rewrite nth_error_app1 by lia. apply nth_firstn. exact Wp.
  - intros k Hk. rewrite nth_error_app2 by lia. rewrite LF, nth_skipn. f_equal. lia.
Qed.
(** ARIMA(1, 1, 1): differences w(t) = 2 w(t-1) + e(t) + 3 e(t-1): the responses of the differences are 1, 5, 10, 20, those of the variable their sums. *)
Example c113_case : exists z st', make_sizes 9 1 0 1 1 1 0 0 0 0 (repeat (qz 7) 10) = Ok z /\ valid_spec 1 1 1 0 0 0 0 /\ enough 1 0 0 (repeat (qz 7) 10) /\ no_overlap 1 0 1 0 0 /\
  storage_needed 1 1 0 1 0 0 z 4 = 8 /\ arma_work z 4 = 13 /\ arma_calc copy_lapack z 4 (Mat 1 2 (map qz [2; 3])) (repeat (qz 7) 8) (repeat (qz 7) 13) = Ok st' /\ st' = map qz [1; -2; 1; 3; 1; 6; 16; 36].
Proof.
  do 2 eexists. split; [vm_compute; reflexivity|]. split; [unfold valid_spec; lia|]. split; [split; vm_compute; discriminate|]. split; [split; right; reflexivity|]. split; [vm_compute; reflexivity|]. split; [vm_compute; reflexivity|]. split; [vm_compute; reflexivity|]. qeq.
Qed.
(** Two variables, AR(1) and MA(1). *)
Example c113_case2 : exists z st', make_sizes 9 2 0 1 0 1 0 0 0 0 [] = Ok z /\
  arma_calc copy_lapack z 3 (Mat 2 4 (map qz [2; 0; 1; 1; 1; 0; 0; 1])) (repeat (qz 7) (4 * 7)) (repeat (qz 7) 20) = Ok st' /\
  map (fun k => map (fun ij => mcoef (ma_inf z 3 st') k (fst ij) (snd ij)) [(0, 0); (1, 0); (0, 1); (1, 1)]) [0; 1; 2]%nat = map (map qz) [[1; 0; 0; 1]; [3; 0; 1; 2]; [6; 0; 4; 2]].
Proof. do 2 eexists. split; [vm_compute; reflexivity|]. split; [vm_compute; reflexivity|]. qeq. Qed.
(** For a model with MA lags only, the function writes one block more than StorageSize declares. *)
Theorem c113_storage_refuted : exists z, make_sizes 9 1 0 0 0 1 0 0 0 0 [] = Ok z /\ valid_spec 0 0 1 0 0 0 0 /\ no_overlap 0 0 1 0 0 /\ arma_work z 3 = 0 /\
  (forall lapack x st, length st = Z.to_nat (arma_storage z 3) -> arma_calc lapack z 3 (Mat 1 1 [x]) st [] = UB) /\
  (forall lapack x st, length st = Z.to_nat (arma_storage z 1) -> arma_calc lapack z 1 (Mat 1 1 [x]) st [] = UB).
Proof.
  eexists. split; [vm_compute; reflexivity|]. split; [unfold valid_spec; lia|]. split; [split; right; reflexivity|]. split; [vm_compute; reflexivity|]. split; intros lapack x st HL.
  - change (Z.to_nat (arma_storage _ 3)) with 6%nat in HL. do 6 (destruct st as [|? st]; [discriminate HL|]). destruct st; [|discriminate HL]. vm_compute. reflexivity.
  - change (Z.to_nat (arma_storage _ 1)) with 4%nat in HL. do 4 (destruct st as [|? st]; [discriminate HL|]). destruct st; [|discriminate HL]. vm_compute. reflexivity.
Qed.
Print Assumptions c113_storage_refuted.
(** If a seasonal lag is one of the other lags, one of the two coefficients of the lag is ignored: the responses are not those of the equation. *)
Theorem c113_overlap_refuted : exists z st', make_sizes 9 1 0 2 0 0 1 0 0 2 [] = Ok z /\ valid_spec 2 0 0 1 0 0 2 /\ arma_calc copy_lapack z 3 (Mat 1 3 (map qz [1; 1; 1])) (repeat (qz 7) 7) (repeat (qz 7) 3) = Ok st' /\
  forall psi, responses 1 0 (v_arlags z) (v_malags z) (delta 0 0 2) (el (Mat 1 3 (map qz [1; 1; 1]))) 3 psi -> psi 2 0 0 <> mcoef (ma_inf z 3 st') 2 0 0.
Proof.
  do 2 eexists. split; [vm_compute; reflexivity|]. split; [unfold valid_spec; lia|]. split; [vm_compute; reflexivity|].
  intros psi (H0 & H). assert (X0 := H 0 0 0 ltac:(lia) ltac:(lia) ltac:(lia)). assert (X1 := H 1 0 0 ltac:(lia) ltac:(lia) ltac:(lia)). assert (X2 := H 2 0 0 ltac:(lia) ltac:(lia) ltac:(lia)). clear H.
  assert (D0 : forall f t, delta 0 0 2 f t = f t) by reflexivity. cbv beta zeta in X0, X1, X2. rewrite D0 in X0, X1, X2.
  unfold varma_equation in X0, X1, X2. cbn [v_arlags v_malags lag_terms length] in X0, X1, X2. change (upto 1) with [0] in X0, X1, X2. change (upto 0) with (@nil Z) in X0, X1, X2. cbn [map] in X0, X1, X2. change (qsum (?x :: [])) with (x + 0)%Qc in X0, X1, X2. change (qsum []) with 0%Qc in X0, X1, X2.
  rewrite !D0 in X0, X1, X2.
  repeat match type of X0 with context [el ?M ?i ?j] => change (el M i j) with (qz 1) in X0, X1, X2 end. 
  change (0 - 1) with (-1) in X0. change (0 - 2) with (-2) in X0. change (1 - 1) with 0 in X1. change (1 - 2) with (-1) in X1. change (2 - 1) with 1 in X2. change (2 - 2) with 0 in X2. assert (M1 := H0 (-1) 0 0 ltac:(lia)). assert (M2 := H0 (-2) 0 0 ltac:(lia)). rewrite M1, ?M2 in X0. rewrite M1 in X1.
  change (impulse 0 0 0) with 1%Qc in X0. change (impulse 0 0 1) with 0%Qc in X1. change (impulse 0 0 2) with 0%Qc in X2. rewrite X0 in X1. rewrite X1, X0 in X2. rewrite X2. vm_compute. intros K. apply (f_equal this) in K. discriminate K.
Qed.
Print Assumptions c113_overlap_refuted.

(** ** C114 *)
(** A positive semidefinite matrix. *)
Definition semidefinite (g : Z) (s : Z -> Z -> Qc) : Prop := forall x, (0 <= quadratic g s x)%Qc.
Section C114.
Variables (lapack : mat Qc -> list Qc -> list Qc * Z) (obs eqs exo p d q P D Q s : Z) (work0 : list Qc) (mh horizon : Z) (e : vest) (coef sigma : mat Qc) (vstorage work : list Qc).
(** The state in which the variances are calculated: a valid specification whose lags are different, coefficients and covariances of the errors have been estimated, the arrays have the declared sizes. *)
Definition ready : Prop :=
  valid_spec p d q P D Q s /\ enough d D s work0 /\ no_overlap p P q Q s /\ make_sizes obs eqs exo p d q P D Q s work0 = Ok (e_sizes e) /\ 1 <= eqs /\ 0 <= exo /\
  e_coef e = Some coef /\ mat_ok coef /\ nrows coef = eqs /\ ncols coef = (p + P) * eqs + exo + (q + Q) * eqs /\ mat_ok sigma /\ nrows sigma = eqs /\ ncols sigma = eqs /\
  inverts_identity lapack (Z.to_nat eqs) /\ v_armax (e_sizes e) + (d + seasons s * D) < ti_max /\ mh <= ti_max /\ (horizon = -1 \/ horizon <= mh) /\ 0 <= (if horizon =? -1 then mh else horizon) /\
  eqs * ((if horizon =? -1 then mh else horizon) + (v_armax (e_sizes e) + (d + seasons s * D))) <= Z.of_nat (length vstorage) /\ forecast_work (e_sizes e) mh <= Z.of_nat (length work).
Lemma variance_full (unc : bool) : ready -> let h := if horizon =? -1 then mh else horizon in let m := v_armax (e_sizes e) + (d + seasons s * D) in
  exists V psi, forecast_variance lapack mh unc e sigma vstorage work horizon = (if unc then Throw else Ok V) /\ nrows V = eqs /\ ncols V = m + h /\
    responses eqs exo (v_arlags (e_sizes e)) (v_malags (e_sizes e)) (delta d D s) (el coef) h psi /\
    forall a, 0 <= a < eqs -> (forall j, 0 <= j < m -> entry V a j = Some 0%Qc) /\ (forall i, 1 <= i <= h -> entry V a (m + (i - 1)) = Some (error_variance eqs (el sigma) psi a i)).
Proof using.
  intros (H1 & H2 & H3 & H4 & H5 & H6 & H7 & H8 & H9 & H10 & H11 & H12 & H13 & H14 & H15 & H16 & H17 & H18 & H19 & H20) h m.
  destruct (orders_ok obs eqs exo p d q P D Q s work0 (e_sizes e) H1 H2 H3 H4) as (HE & HX & A1 & A2 & HD & HL & HPar & HMs & HAd).
  destruct (variance_ok lapack mh horizon e coef sigma vstorage work) with (unc := unc) as (V & psi & E1 & E2 & E3 & E4 & E5 & E6); auto; try lia; try (rewrite HE; auto; fail); try (rewrite HPar; exact H10); try (rewrite HE, HAd; exact H19); try (rewrite HAd; exact H15).
  rewrite HE in E3, E5, E6. rewrite HX in E5. fold h in E4, E5, E6. rewrite HAd in E4, E6. fold m in E4, E6. exists V, psi. split; [exact E1|]. split; [exact E3|]. split; [exact E4|]. split; [apply (responses_ext _ _ _ _ _ _ _ _ _ HL E5)|].
  assert (M0 : 0 <= m) by (destruct (sizes_nonneg (e_sizes e) ltac:(lia) A1 A2) as (N1 & _ & N3 & _); unfold m; rewrite <- HAd; unfold v_armaxd; lia).
  intros a Ha. destruct (E6 a Ha) as [E7 E8]. split.
  - intros j Hj. rewrite <- (E7 j Hj). apply entry_el; [exact E2|]. split; lia.
  - intros i Hi. rewrite entry_el by (try exact E2; split; lia). rewrite (E8 (i - 1)) by lia. do 2 f_equal. lia.
Qed.
(** The variance of the forecast for step i: that of the sum of the responses to the errors of the steps 1, ..., i; zero before the forecasts. *)
Theorem c114_variance : ready -> let h := if horizon =? -1 then mh else horizon in let m := v_armax (e_sizes e) + (d + seasons s * D) in
  exists V psi, forecast_variance lapack mh false e sigma vstorage work horizon = Ok V /\ nrows V = eqs /\ ncols V = m + h /\
    responses eqs exo (v_arlags (e_sizes e)) (v_malags (e_sizes e)) (delta d D s) (el coef) h psi /\
    forall a, 0 <= a < eqs -> (forall j, 0 <= j < m -> entry V a j = Some 0%Qc) /\ (forall i, 1 <= i <= h -> entry V a (m + (i - 1)) = Some (error_variance eqs (el sigma) psi a i)).
Proof using. apply (variance_full false). Qed.
(** Variances are not negative, and they do not decrease with the step. *)
Theorem c114_monotone : ready -> semidefinite eqs (el sigma) -> let h := if horizon =? -1 then mh else horizon in let m := v_armax (e_sizes e) + (d + seasons s * D) in
  exists V, forecast_variance lapack mh false e sigma vstorage work horizon = Ok V /\
    forall a, 0 <= a < eqs -> (forall j, 0 <= j < m + h -> exists x, entry V a j = Some x /\ (0 <= x)%Qc) /\
      (forall j j' x x', 0 <= j -> j <= j' -> j' < m + h -> entry V a j = Some x -> entry V a j' = Some x' -> (x <= x')%Qc).
Proof using.
  intros R SD h m. destruct (variance_full false R) as (V & psi & E1 & E2 & E3 & E4 & E5). fold h m in E3, E4, E5. exists V. split; [exact E1|].
  assert (Mono : forall a (k k' : nat), (k <= k')%nat -> (error_variance eqs (el sigma) psi a (Z.of_nat k) <= error_variance eqs (el sigma) psi a (Z.of_nat k'))%Qc).
  { intros a k k' Hk. induction Hk as [|k' Hk IH]; [apply Qcle_refl|]. eapply Qcle_trans; [exact IH|]. unfold error_variance. rewrite !upto_sumn by lia. rewrite !Nat2Z.id, sumn_S. specialize (SD (psi (Z.of_nat k') a)). qlra. }
  assert (Zero : forall a, error_variance eqs (el sigma) psi a (Z.of_nat 0) = 0%Qc) by reflexivity.
  intros a Ha. destruct (E5 a Ha) as [E6 E7].
  assert (Val : forall j, 0 <= j < m + h -> entry V a j = Some (error_variance eqs (el sigma) psi a (Z.of_nat (Z.to_nat (j - m + 1))))).
  { intros j Hj. destruct (Z.lt_ge_cases j m) as [L|L].
    - rewrite (E6 j) by lia. replace (Z.to_nat (j - m + 1)) with 0%nat by lia. rewrite Zero. reflexivity.
    - replace j with (m + (j - m + 1 - 1)) at 1 by lia. rewrite (E7 (j - m + 1)) by lia. do 2 f_equal. lia. }
  split.
  - intros j Hj. eexists. split; [apply Val; exact Hj|]. rewrite <- (Zero a). apply Mono. lia.
  - intros j j' x x' H0 H1 H2 Hx Hx'. rewrite Val in Hx, Hx' by lia. injection Hx as <-. injection Hx' as <-. apply Mono. lia.
Qed.
(** The variance for the first step is that of the error of the equation. *)
Theorem c114_first : ready -> let h := if horizon =? -1 then mh else horizon in let m := v_armax (e_sizes e) + (d + seasons s * D) in 1 <= h ->
  exists V, forecast_variance lapack mh false e sigma vstorage work horizon = Ok V /\ forall a, 0 <= a < eqs -> entry V a m = entry sigma a a.
Proof using.
  intros R h m H1. destruct (variance_full false R) as (V & psi & E1 & E2 & E3 & E4 & E5). fold h m in E3, E4, E5. exists V. split; [exact E1|]. intros a Ha. destruct (E5 a Ha) as [_ E6]. specialize (E6 1 ltac:(lia)). replace (m + (1 - 1)) with m in E6 by lia. rewrite E6.
  destruct R as (V1 & V2 & V3 & V4 & V5 & V6 & V7 & V8 & V9 & V10 & V11 & V12 & V13 & _). rewrite (entry_el sigma a a) by (try exact V11; split; lia). f_equal.
  destruct (orders_ok obs eqs exo p d q P D Q s work0 (e_sizes e) V1 V2 V3 V4) as (HE & HX & A1 & A2 & HD & HL & _).
  assert (P0 : forall b, 0 <= b < eqs -> psi 0 a b = if a =? b then 1%Qc else 0%Qc).
  { intros b Hb. assert (R2 : responses eqs exo (v_arlags (e_sizes e)) (v_malags (e_sizes e)) (lag_sum (v_diff (e_sizes e))) (el coef) h psi) by (eapply responses_ext; [|exact E4]; intros f t; symmetry; apply HL).
    destruct (v_diff (e_sizes e)) as [|c0 c]; [discriminate HD|]. injection HD as ->. destruct R2 as [Z0 R2]. specialize (R2 0 a b ltac:(lia) Ha Hb). cbv beta zeta in R2.
    assert (ZL : forall j t, t < 0 -> lag_sum (1%Qc :: c) (fun s => psi s j b) t = 0%Qc) by (intros j t Ht; apply lag_sum_neg; auto).
    assert (ZT : forall k v s lags, (forall x l, In l lags -> v x l = 0%Qc) -> lag_terms eqs k s lags v = 0%Qc).
    { clear. intros k v s lags. revert s. induction lags as [|l r IH]; intros s Hv; cbn [lag_terms]; [reflexivity|]. rewrite IH by (intros; apply Hv; right; auto). rewrite qsum_map0; [ring|]. intros x _. rewrite Hv by (left; auto). ring. }
    unfold varma_equation in R2. rewrite !ZT in R2.
    - rewrite qsum_map0 in R2 by (intros; ring). cbn [lag_sum] in R2. rewrite (lag_sum_neg c) in R2 by (auto; lia). unfold impulse in R2. rewrite Z.eqb_refl, andb_true_r in R2. ring_simplify in R2. rewrite R2. reflexivity.
    - intros x l Hl. pose proof (ascending_all 0 _ A2 l Hl). unfold impulse. replace (0 - l =? 0) with false by lia. rewrite andb_false_r. reflexivity.
    - intros x l Hl. pose proof (ascending_all 0 _ A1 l Hl). apply ZL. lia. }
  unfold error_variance. change (upto 1) with [0]. cbn [map]. change (qsum [?x]) with (x + 0)%Qc. unfold quadratic.
  transitivity (qsum (map (fun b => if b =? a then el sigma b a else 0%Qc) (upto eqs)) + 0)%Qc; [|rewrite (pick eqs (fun b => el sigma b a) a Ha); ring]. f_equal. f_equal. apply map_ext_in. intros b Hb. apply in_upto' in Hb.
  transitivity (qsum (map (fun b' => if b' =? a then (psi 0%Z a b * el sigma b a)%Qc else 0%Qc) (upto eqs))).
  - f_equal. apply map_ext_in. intros b' Hb'. apply in_upto' in Hb'. rewrite (P0 b' Hb'). rewrite (Z.eqb_sym a b'). destruct (Z.eqb_spec b' a) as [->|]; ring.
  - rewrite (pick eqs (fun _ => (psi 0%Z a b * el sigma b a)%Qc) a Ha). rewrite (P0 b Hb), (Z.eqb_sym a b). destruct (b =? a); ring.
Qed.
(** With the uncertainty of the coefficients the function always ends in an exception (not implemented). *)
Theorem c114_uncertainty_refuted : ready -> forecast_variance lapack mh true e sigma vstorage work horizon = Throw.
Proof using. intros R. destruct (variance_full true R) as (V & psi & E1 & _). exact E1. Qed.
(** These responses give the errors of the forecasts of C77: if the data follow the model with errors [err], and the forecasts [f] follow it with the errors up to the end of the sample and none behind it,
    from the same data, then the difference in step i is the sum of the responses to the errors in the steps 1, ..., i. *)
Theorem c114_error (h : Z) (psi : Z -> Z -> Z -> Qc) (t0 : Z) (y f x err : Z -> series) : ready ->
  let mean := v_arlags (e_sizes e) in let ma := v_malags (e_sizes e) in
  responses eqs exo mean ma (delta d D s) (el coef) h psi -> (forall a t, 0 <= a < eqs -> t <= t0 -> f a t = y a t) ->
  follows eqs exo mean ma (delta d D s) (el coef) t0 h y x err -> follows eqs exo mean ma (delta d D s) (el coef) t0 h f x (fun b t => if t <=? t0 then err b t else 0%Qc) ->
  forall a i, 0 <= a < eqs -> 1 <= i <= h -> (y a (t0 + i)%Z - f a (t0 + i)%Z = forecast_error eqs psi err t0 a i)%Qc.
Proof using.
  intros (V1 & V2 & V3 & V4 & _) mean ma R HP FY FF. destruct (orders_ok obs eqs exo p d q P D Q s work0 (e_sizes e) V1 V2 V3 V4) as (HE & HX & A1 & A2 & HD & HL & _).
  assert (FE : forall y x e0, follows eqs exo mean ma (delta d D s) (el coef) t0 h y x e0 -> follows eqs exo mean ma (lag_sum (v_diff (e_sizes e))) (el coef) t0 h y x e0).
  { intros y1 x1 e1 H t a Ht Ha. rewrite HL. rewrite (H t a Ht Ha). f_equal. unfold varma_equation. f_equal. f_equal. apply lag_terms_ext. intros. symmetry. apply HL. }
  apply (forecast_error_ok eqs exo mean ma (v_diff (e_sizes e)) (el coef) h psi t0 y f x err A1 A2 HD); auto. eapply responses_ext; [|exact R]. intros. symmetry. apply HL.
Qed.
End C114.
Print Assumptions c114_variance.
Print Assumptions c114_monotone.
Print Assumptions c114_first.
Print Assumptions c114_uncertainty_refuted.
Print Assumptions c114_error.
(** The model of c113_case with variance 2: 2, 2 + 2*36, 2 + 2*36 + 2*256. *)
Example c114_case : exists z V, let e := VEst z 0 (Mat 1 0 []) (Mat 1 0 []) (Some (Mat 1 2 (map qz [2; 3]))) in
  ready copy_lapack 9 1 0 1 1 1 0 0 0 0 (repeat (qz 7) 10) 3 (-1) e (Mat 1 2 (map qz [2; 3])) (Mat 1 1 [qz 2]) (repeat (qz 7) 5) (repeat (qz 7) 27) /\
  forecast_variance copy_lapack 3 false e (Mat 1 1 [qz 2]) (repeat (qz 7) 5) (repeat (qz 7) 27) (-1) = Ok V /\ data V = map qz [0; 0; 2; 74; 586].
Proof.
  let r := eval vm_compute in (make_sizes 9 1 0 1 1 1 0 0 0 0 (repeat (qz 7) 10)) in match r with Ok ?z => exists z end.
  eexists. cbv zeta. split; [|split; [vm_compute; reflexivity|qeq]]. unfold ready. split; [unfold valid_spec; lia|]. split; [split; vm_compute; discriminate|]. split; [split; right; reflexivity|]. split; [vm_compute; reflexivity|].
  split; [lia|]. split; [lia|]. split; [reflexivity|]. split; [vm_compute; lia|]. split; [reflexivity|]. split; [reflexivity|]. split; [vm_compute; lia|]. split; [reflexivity|]. split; [reflexivity|]. split; [apply copy_lapack_ok|].
  split; [vm_compute; reflexivity|]. split; [vm_compute; discriminate|]. split; [left; reflexivity|]. split; [vm_compute; discriminate|]. split; vm_compute; discriminate.
Qed.
(** Only MA: e(t) + 3 e(t-1), horizon 1 and 3: the storage of the polynomials overlaps the next array, which is zeroed. *)
Example c114_case_ma : exists z V V', let e := VEst z 0 (Mat 1 0 []) (Mat 1 0 []) (Some (Mat 1 1 [qz 3])) in
  ready copy_lapack 9 1 0 0 0 1 0 0 0 0 [] 3 1 e (Mat 1 1 [qz 3]) (Mat 1 1 [qz 2]) (repeat (qz 7) 3) (repeat (qz 7) 11) /\
  forecast_variance copy_lapack 3 false e (Mat 1 1 [qz 2]) (repeat (qz 7) 3) (repeat (qz 7) 11) 1 = Ok V /\ firstn 1 (data V) = [qz 2] /\
  forecast_variance copy_lapack 3 false e (Mat 1 1 [qz 2]) (repeat (qz 7) 3) (repeat (qz 7) 11) 3 = Ok V' /\ data V' = map qz [2; 20; 20].
Proof.
  let r := eval vm_compute in (make_sizes 9 1 0 0 0 1 0 0 0 0 []) in match r with Ok ?z => exists z end.
  do 2 eexists. cbv zeta. split; [|split; [vm_compute; reflexivity|split; [qeq|split; [vm_compute; reflexivity|qeq]]]]. unfold ready. split; [unfold valid_spec; lia|]. split; [split; vm_compute; discriminate|]. split; [split; right; reflexivity|]. split; [vm_compute; reflexivity|].
  split; [lia|]. split; [lia|]. split; [reflexivity|]. split; [vm_compute; lia|]. split; [reflexivity|]. split; [reflexivity|]. split; [vm_compute; lia|]. split; [reflexivity|]. split; [reflexivity|]. split; [apply copy_lapack_ok|].
  split; [vm_compute; reflexivity|]. split; [vm_compute; discriminate|]. split; [right; vm_compute; discriminate|]. split; [vm_compute; discriminate|]. split; vm_compute; discriminate.
Qed.
