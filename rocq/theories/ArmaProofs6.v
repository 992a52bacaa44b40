(** Variances of forecasts: the whole calculation. *)
From Verif Require Import ArmaModel ArmaSpec MPolySpec MatProofs MatProofs2 MatDotProofs SplitProofs SplitProofs4 MatProofs4 MatProofs6 PolyProofs PolyProofs2 MPolyProofs MPolyProofs2 VarmaProofs3 VarmaProofs4 ForecastProofs ArmaProofs ArmaProofs2 ArmaProofs3 ArmaProofs4 ArmaProofs5.
From Coq Require Import Lia ZifyBool.
Local Open Scope Z_scope.

Lemma rank_nth lags l0 r l : ascending l0 lags -> nth_error lags r = Some l -> rank lags l = Z.of_nat r.
Proof.
  revert l0 r. induction lags as [|l1 t IH]; intros l0 r A H; [destruct r; discriminate|]. destruct r as [|r].
  - injection H as ->. destruct A as [A0 A]. apply (rank_0 _ (l - 1)); [cbn; split; [lia|exact A]|lia].
  - cbn [nth_error] in H. destruct A as [A0 A]. specialize (IH l1 r A H). pose proof (ascending_all l1 t A l (nth_error_In _ _ H)) as G. unfold rank in *. cbn [filter]. replace (l1 <? l) with true by lia. cbn [length]. lia.
Qed.
Lemma sizes_nonneg z : 1 <= v_eqs z -> ascending 0 (v_arlags z) -> ascending 0 (v_malags z) -> 0 <= v_armax z /\ 0 <= v_mamax z /\ 0 <= v_diffdeg z /\ 1 <= mm z.
Proof.
  intros G A1 A2. split; [apply last_lag_pos; exact A1|]. split; [apply last_lag_pos; exact A2|]. split; [unfold v_diffdeg; destruct (Nat.eqb_spec (length (v_diff z)) 0); lia|]. unfold mm. nia.
Qed.
Lemma arma_work_mono z h h' : 1 <= v_eqs z -> ascending 0 (v_arlags z) -> ascending 0 (v_malags z) -> 0 <= h <= h' -> 0 <= arma_work z h <= arma_work z h'.
Proof.
  intros G A1 A2 H. destruct (sizes_nonneg z G A1 A2) as (N1 & N2 & N3 & N4). unfold arma_work.
  assert (AD0 : 0 <= ardiff_degree z) by (unfold ardiff_degree; destruct (v_hasdiff z); lia).
  assert (M10 : 0 <= mul1_size z). { unfold mul1_size. apply Z.mul_nonneg_nonneg; [|lia]. unfold mmul_len, ti_max. lia. }
  assert (H1 : 0 <= (ardiff_degree z + 1) * mm z) by (apply Z.mul_nonneg_nonneg; lia). assert (H2 : 0 <= h * mm z) by (apply Z.mul_nonneg_nonneg; lia).
  assert (H3 : h * mm z <= h' * mm z) by (apply Z.mul_le_mono_nonneg_r; lia).
  destruct (Z.ltb_spec 0 h), (Z.ltb_spec 0 h'); try lia; destruct (negb (v_hasdiff z) && negb (v_hasar z)); destruct (v_hasdiff z), (v_hasma z); lia.
Qed.
Lemma error_variance_sum m s (psi : nat -> fn) a k : error_variance (Z.of_nat m) s (zseries psi) a (Z.of_nat k) = var_sum m s psi k a a.
Proof.
  rewrite var_sum_quadratic. unfold error_variance. rewrite upto_sumn by lia. rewrite Nat2Z.id. apply sumn_ext. intros t _. unfold zseries. replace (Z.of_nat t <? 0) with false by lia. rewrite Nat2Z.id. reflexivity.
Qed.
Lemma variance_ok lapack mh horizon (e : vest) (cm sigma : mat Qc) (vst work : list Qc) :
  let z := e_sizes e in let h := if horizon =? -1 then mh else horizon in let g := v_eqs z in
  1 <= g -> 0 <= v_exo z -> ascending 0 (v_arlags z) -> ascending 0 (v_malags z) -> hd_error (v_diff z) = Some 1%Qc ->
  e_coef e = Some cm -> mat_ok cm -> nrows cm = g -> ncols cm = v_paramseq z -> mat_ok sigma -> nrows sigma = g -> ncols sigma = g ->
  inverts_identity lapack (Z.to_nat g) -> v_armaxd z < ti_max -> mh <= ti_max -> horizon = -1 \/ horizon <= mh -> 0 <= h ->
  g * (h + v_armaxd z) <= Z.of_nat (length vst) -> forecast_work z mh <= Z.of_nat (length work) ->
  forall unc : bool, exists V psi, forecast_variance lapack mh unc e sigma vst work horizon = (if unc then Throw else Ok V) /\ mat_ok V /\ nrows V = g /\ ncols V = v_armaxd z + h /\
    responses g (v_exo z) (v_arlags z) (v_malags z) (lag_sum (v_diff z)) (el cm) h psi /\
    forall a, 0 <= a < g -> (forall j, 0 <= j < v_armaxd z -> el V a j = 0%Qc) /\ (forall i, 0 <= i < h -> el V a (v_armaxd z + i) = error_variance g (el sigma) psi a (i + 1)).
Proof.
  intros z h g G NX A1 A2 HD EC WC RC CC WS RS CS HI BT BN HH H0 LV LW unc. destruct (sizes_nonneg z G A1 A2) as (N1 & N2 & N3 & N4).
  unfold forecast_variance. fold z. replace (negb (horizon =? -1) && (mh <? horizon)) with false by (destruct (Z.eqb_spec horizon (-1)); cbn [negb andb]; lia). cbv zeta.
  change (if horizon =? -1 then mh else horizon) with h. fold g. set (m := Z.to_nat g) in *. set (hn := Z.to_nat h). assert (Eh : h = Z.of_nat hn) by (unfold hn; lia). assert (Hmh : h <= mh) by (unfold h in *; destruct (Z.eqb_spec horizon (-1)); lia).
  set (a := Z.to_nat (v_armax z)). set (q := Z.to_nat (v_mamax z)). set (p := (S a + S q)%nat). set (start := v_paramseq z + g).
  assert (Gm : Z.of_nat m = g) by (unfold m; lia). assert (M1 : (1 <= m)%nat) by lia. assert (EM : mm z = Z.of_nat (m * m)) by (unfold mm; fold g; nia).
  assert (P0 : 0 <= v_paramseq z) by (unfold v_paramseq, v_mastart, v_arlen, v_malen; fold g; nia).
  pose proof (arma_work_mono z h mh G A1 A2 ltac:(lia)) as AW.
  assert (LW1 : start + arma_work z h + Z.of_nat ((p + hn + 3) * (m * m)) <= Z.of_nat (length work)).
  { etransitivity; [|exact LW]. unfold forecast_work, arma_storage. fold g. unfold start. rewrite EM in *. replace (if 0 <? mh then mh * Z.of_nat (m * m) else 0) with (mh * Z.of_nat (m * m)) by (destruct (Z.ltb_spec 0 mh); [reflexivity|replace mh with 0 by lia; reflexivity]).
    assert (h * Z.of_nat (m * m) <= mh * Z.of_nat (m * m)) by (apply Z.mul_le_mono_nonneg_r; lia). rewrite Eh in *. unfold p, a, q. nia. }
  set (st := skipn (Z.to_nat (start + arma_work z h)) work). assert (S0 : 0 <= start) by (unfold start; lia).
  assert (Lst : ((p + hn + 3) * (m * m) <= length st)%nat) by (unfold st; rewrite skipn_length; lia).
  assert (Lw : arma_work z (Z.of_nat hn) <= Z.of_nat (length (piece work start (arma_work z h)))) by (rewrite <- Eh; unfold piece; rewrite firstn_length, skipn_length; lia).
  set (b := (p + hn)%nat). assert (Fb : (S b * (m * m) <= length st)%nat) by (apply (block_fit m st b (p + hn + 3)); [unfold b; lia|exact Lst]).
  destruct (set_value_ok (block m st b) 0 (block_ok _ _ _ Fb)) as (Pb & EPb & BPb). rewrite EPb. cbn [bind]. rewrite EC.
  assert (TPb : turns (block m st b) (fun _ _ => 0%Qc) Pb) by exact BPb. pose proof (put_length _ _ _ _ _ Fb TPb) as Lp. pose proof (put_bel _ _ _ _ _ Fb TPb) as Bp. set (st0 := put m st b Pb) in *. clearbody st0 st.
  set (V0 := Mat m (Z.to_nat (h + v_armaxd z)) vst). assert (WV0 : mat_ok V0) by (unfold mat_ok, V0; cbn [rows cols data]; unfold v_armaxd in *; nia).
  assert (RV0 : nrows V0 = g) by (unfold V0, nrows; cbn [rows]; lia). assert (CV0 : ncols V0 = h + v_armaxd z) by (unfold V0, ncols; cbn [cols]; unfold v_armaxd in *; lia).
  destruct (zero_columns_ok (Z.to_nat (v_armaxd z)) 0 V0 WV0) as (V1 & E1 & T1); [unfold v_armaxd in *; lia|].
  replace (zrange 0 (v_armaxd z)) with (map Z.of_nat (seq 0 (Z.to_nat (v_armaxd z)))) by (rewrite <- zrange_seq; f_equal; unfold v_armaxd in *; lia). rewrite E1. cbn [bind].
  assert (AD0 : 0 <= v_armaxd z) by (unfold v_armaxd; lia).
  destruct (arma_calc_ok lapack z hn cm st0 (piece work start (arma_work z h)) G NX A1 A2 HD WC RC CC HI BT ltac:(lia)) as (st' & E' & L' & _ & _ & BS & BK & BZ).
  { fold a q p m g. fold m. rewrite Lp. etransitivity; [|exact Lst]. apply Nat.mul_le_mono_r. destruct (_ && _); lia. }
  { exact Lw. }
  change (Z.to_nat (v_eqs z)) with m in *. fold a q p in BS, BK, BZ. rewrite E'. cbn [bind].
  set (psi := fun k => bel m st' (p + k)).
  assert (Loop : exists V, variance_loop m sigma p b (v_armaxd z) (seq 0 hn) st' V1 = Ok V /\ turns V1 (fun i j => if (v_armaxd z + Z.of_nat 0 <=? j) && (j <? v_armaxd z + Z.of_nat (0 + hn)) then var_sum m (el sigma) psi (Z.to_nat (j - v_armaxd z + 1)) i i else el V1 i j) V).
  { assert (W1 : mat_ok V1) by apply (turns_ok _ _ _ WV0 T1). assert (R1 : nrows V1 = g) by (rewrite (turns_nrows _ _ _ T1); exact RV0). assert (C1 : ncols V1 = h + v_armaxd z) by (rewrite (turns_ncols _ _ _ T1); exact CV0).
    destruct (Nat.eq_dec hn 0) as [Ehn|Ehn].
    - replace (seq 0 hn) with (@nil nat) by (rewrite Ehn; reflexivity). cbn [variance_loop]. exists V1. split; [reflexivity|]. eapply turns_ext; [apply turns_id; exact W1|]. cbn beta. intros i j _. replace ((v_armaxd z + Z.of_nat 0 <=? j) && (j <? v_armaxd z + Z.of_nat (0 + hn))) with false by lia. reflexivity.
    - apply (variance_loop_ok m sigma p b (v_armaxd z) psi M1 WS); auto; try (unfold nrows, ncols in *; lia); try (unfold b; lia).
      + intros k Hk i j W. reflexivity.
      + intros i j W. unfold var_sum. rewrite sumn_0. destruct (negb (v_hasdiff z) && negb (v_hasar z)) eqn:EP; [apply BZ; [reflexivity|lia|exact W]|]. rewrite (BK b) by (try exact W; unfold b; lia). rewrite Bp by exact W. rewrite Nat.eqb_refl. reflexivity. }
  destruct Loop as (V & EV & TV). rewrite EV. cbn [bind]. exists V, (zseries psi). split; [destruct unc; reflexivity|].
  assert (W1 : mat_ok V1) by apply (turns_ok _ _ _ WV0 T1). split; [apply (turns_ok _ _ _ W1 TV)|].
  split; [rewrite (turns_nrows _ _ _ TV), (turns_nrows _ _ _ T1); exact RV0|]. split; [rewrite (turns_ncols _ _ _ TV), (turns_ncols _ _ _ T1), CV0; lia|].
  split; [rewrite Eh; apply responses_ok; auto|]. intros a0 Ha. rewrite <- Gm in Ha. split.
  - intros j Hj. assert (I0 : inside V0 a0 j) by (split; lia). assert (I1 : inside V1 a0 j) by (apply (turns_inside _ _ _ _ _ T1); exact I0). rewrite (turns_el _ _ _ _ _ TV I1). replace (v_armaxd z + Z.of_nat 0 <=? j) with false by lia. cbn [andb].
    rewrite (turns_el _ _ _ _ _ T1 I0). replace ((Z.of_nat 0 <=? j) && (j <? Z.of_nat 0 + Z.of_nat (Z.to_nat (v_armaxd z)))) with true by lia. reflexivity.
  - intros i Hi. assert (I0 : inside V0 a0 (v_armaxd z + i)) by (split; lia). assert (I1 : inside V1 a0 (v_armaxd z + i)) by (apply (turns_inside _ _ _ _ _ T1); exact I0). rewrite (turns_el _ _ _ _ _ TV I1).
    replace ((v_armaxd z + Z.of_nat 0 <=? v_armaxd z + i) && (v_armaxd z + i <? v_armaxd z + Z.of_nat (0 + hn))) with true by lia. replace (v_armaxd z + i - v_armaxd z + 1) with (i + 1) by lia.
    rewrite <- Gm. rewrite <- error_variance_sum. f_equal. lia.
Qed.
