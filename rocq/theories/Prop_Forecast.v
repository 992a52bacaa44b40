(** C77: forecasts of VARMA models. *)
From Verif Require Import ForecastModel ForecastSpec PolyProofs MatProofs MatProofs2 MatDotProofs SplitProofs VarmaProofs VarmaProofs3 VarmaProofs4 ForecastProofs Prop_Varma.
From Coq Require Import Lia ZifyBool.
Local Open Scope Z_scope.

Lemma eval_zero c : eval c 0 = hd 0%Qc c.
Proof. destruct c as [|x c]; [reflexivity|]. cbn [eval hd]. ring. Qed.
Lemma writes_length {A} (l : list (Z * res A)) : forall d d', writes l d = Ok d' -> length d' = length d.
Proof.
  induction l as [|(k, r) l IH]; intros d d' H; cbn [writes] in H; [congruence|]. destruct r as [v| |]; try discriminate. cbn [bind] in H. unfold wr in H.
  destruct ((k <? 0) || _); [discriminate|]. cbn [bind] in H. apply IH in H. rewrite H. apply upd_length.
Qed.
Lemma ols_y_ok z dat exo se work sy sx y X : ols_arrays z dat exo se work sy sx = Ok (y, X) -> mat_ok (Mat (rows dat) (Z.to_nat (v_T (ols_sizes z dat exo) - se)) sy) -> mat_ok y.
Proof.
  intros E W. unfold ols_arrays in E. destruct (_ || _ || _); [discriminate|]. destruct (ols_data _ _ _) as [dd| |]; try discriminate. cbn [bind] in E.
  set (M := Mat (rows dat) _ sy) in *. assert (G : forall y', set_sub0 M 0 0 dd 0 (v_armax (ols_sizes z dat exo)) (v_eqs (ols_sizes z dat exo)) (v_T (ols_sizes z dat exo) - se) = Ok y' -> mat_ok y').
  { intros y' E'. unfold set_sub0, mwrites in E'. destruct (writes _ (data M)) as [dt| |] eqn:EW; try discriminate. injection E' as <-. unfold mat_ok. cbn [with_data rows cols data]. rewrite (writes_length _ _ _ EW). exact W. }
  destruct (set_sub0 M _ _ _ _ _ _ _) as [y'| |]; try discriminate. specialize (G y' eq_refl). cbn [bind] in E.
  destruct (v_hasarexo _); [|injection E as <- _; auto]. destruct (set_lags _ _ _ _ _ _ _) as [[X1 r]| |]; try discriminate. cbn [bind] in E.
  destruct (match exo with Some _ => _ | None => _ end) as [X2| |]; try discriminate. injection E as <- _. auto.
Qed.

(** Exogenous variable c at time t (a new array begins with the first forecasted time n). *)
Definition exo_at (exo : option (mat Qc)) (isnew : bool) (n c t : Z) : Qc := match exo with Some e => el e c (if isnew then t - n else t) | None => 0%Qc end.
(** Error of variable b at time t: residuals begin at time m; errors after the sample are 0. *)
Definition error_at (resid : mat Qc) (m n b t : Z) : Qc := if t <? n then el resid b (t - m) else 0%Qc.
(** The d-th difference of the D-th seasonal difference. *)
Definition delta (d D s : Z) (f : series) : series := diff_times (Z.to_nat d) 1 (diff_times (Z.to_nat D) (seasons s) f).

(** The array of forecasts is a path of the variables: first the m = (largest lag + differences) last observations
    of the sample, then h values which satisfy the equations of the model with no future errors. Time t counts from
    the first observation; the sample has n observations and the residuals start at time m. *)
Theorem c77_path_partial (obs eqs exo0 p d q P D Q s : Z) (work0 : list Qc) (dat : mat Qc) (exo exof : option (mat Qc)) (sampleEnd mh horizon : Z) (isnew : bool)
    (work sy sx storage work2 : list Qc) (z : vsizes) (y X resid coef : mat Qc) :
  valid_spec p d q P D Q s -> enough d D s work0 -> p <= s * P \/ P = 0 ->
  mat_ok dat -> 1 <= nrows dat -> 0 <= sampleEnd -> (match exo with Some e => mat_ok e /\ ncols dat - sampleEnd <= ncols e | None => True end) ->
  make_sizes obs eqs exo0 p d q P D Q s work0 = Ok z ->
  let m := v_armax z + (d + seasons s * D) in let g := nrows dat in let n := ncols dat - sampleEnd in let T := n - m in
  let k := (match exo with Some e => nrows e | None => 0 end) in let h := if horizon =? -1 then mh else horizon in
  1 <= T -> g * (ncols dat - (d + seasons s * D)) <= Z.of_nat (length work) -> g * T <= Z.of_nat (length sy) -> T * ((p + P) * g + k) <= Z.of_nat (length sx) ->
  ols_arrays z dat exo sampleEnd work sy sx = Ok (y, X) ->
  mat_ok resid -> nrows resid = g -> ncols resid = T -> mat_ok coef -> nrows coef = g -> ncols coef = (p + P) * g + k + (q + Q) * g ->
  horizon = -1 \/ horizon <= mh -> 0 <= h -> v_armax z <= T -> (isnew = false -> m <= T) -> (forall l, is_lag q Q s l -> l <= T) ->
  (k <> 0 -> exists x, exof = Some x /\ mat_ok x /\ nrows x = k /\ (if isnew then h else n + h) <= ncols x) ->
  g * (h + m) <= Z.of_nat (length storage) -> (p + P) * g + k + (q + Q) * g + g <= Z.of_nat (length work2) ->
  exists F, forecast mh (VEst (ols_sizes z dat exo) sampleEnd y resid (Some coef)) exof (Some dat) storage work2 horizon isnew = Ok F /\
    nrows F = g /\ ncols F = m + h /\
    let path i t := el F i (t - (n - m)) in
    (forall i t, 0 <= i < g -> n - m <= t < n -> path i t = el dat i t) /\
    (forall i t, 0 <= i < g -> n <= t < n + h ->
       delta d D s (path i) t =
       varma_equation g k (v_arlags z) (v_malags z) (el coef i) (fun b => delta d D s (path b)) (exo_at exof isnew n) (error_at resid m n) t).
Proof.
  intros V E HM W G1 SE WE EZ m g n T k h T1 LW LY LX EO Wr NRr NCr Wc NRc NCc HH H0 AT MT QT HE LS LW2.
  destruct (sizes_ok obs eqs exo0 p d q P D Q s work0 V E) as (df & EQ & EL & ES & EV & ED). destruct (c39_max_partial obs eqs exo0 p d q P D Q s work0 V E) as (z1 & EZ1 & HX & _). rewrite EZ in EZ1. injection EZ1 as <-. destruct (HX HM) as (A1 & A2 & _). clear HX.
  destruct (c76_arrays_partial obs eqs exo0 p d q P D Q s work0 dat exo sampleEnd work sy sx V E HM W G1 SE WE) as (z1 & EZ1 & H76). rewrite EZ in EZ1. injection EZ1 as <-.
  destruct H76 as (y1 & X1 & EO1 & Ny & Cy & _ & _ & Vy & _); [unfold T, n, m in *; lia|auto| | |]; try (replace (ncols dat - (v_armax z + (d + seasons s * D)) - sampleEnd) with T by (unfold T, n, m; lia); auto).
  rewrite EO in EO1. injection EO1 as <- <-. fold m in Cy, Vy. replace (ncols dat - m - sampleEnd) with T in Cy, Vy by (unfold T, n; lia).
  rewrite EZ in EQ. injection EQ as ->. set (z := VSizes _ _ _ _ _ _) in *. set (zz := ols_sizes z dat exo).
  assert (V' := V). destruct V' as (Hp & Hd & Hq & HP & HD & HQ & HS & HZ). assert (S0 : 0 <= seasons s * D) by (unfold seasons; destruct (Z.ltb_spec s 2); nia).
  assert (AL : v_arlen zz = p + P) by (apply lags_length; auto). assert (LM : v_malen zz = q + Q) by (apply lags_length; auto).
  assert (DG : v_diffdeg zz = d + seasons s * D). { unfold v_diffdeg, zz, z. cbn [ols_sizes v_diff]. destruct (Nat.eqb_spec (length df) 0); lia. }
  assert (AD : v_armaxd zz = m) by (unfold v_armaxd; rewrite DG; reflexivity).
  assert (ET : v_T zz - sampleEnd = T) by (unfold v_T; rewrite AD; unfold T, n; cbn [zz ols_sizes v_obs]; lia).
  assert (PQ : v_paramseq zz = (p + P) * g + k + (q + Q) * g) by (unfold v_paramseq, v_mastart; rewrite AL, LM; reflexivity).
  assert (K0 : 0 <= k) by (unfold k, nrows; destruct exo; lia).
  assert (PP : 1 <= v_paramseq zz). { rewrite PQ. assert (1 <= p + P + q + Q) by lia. nia. }
  assert (LG : forall a b l, 0 <= a -> 0 <= b -> In l (lags_of a b (seasons s)) -> (s < 2 -> b = 0) -> 1 <= l /\ is_lag a b s l).
  { intros a b l Ha Hb Hl Hsb. apply lags_in in Hl. unfold seasons, is_lag in *. destruct (Z.ltb_spec s 2) as [H2|H2]; destruct Hl as [Y|(k' & Y & EY)]; [split; [lia|left; auto]|specialize (Hsb H2); lia|split; [lia|left; auto]|split; [nia|right; eauto]]. }
  assert (Wy : mat_ok y). { apply (ols_y_ok _ _ _ _ _ _ _ _ _ EO). fold zz. rewrite ET. unfold mat_ok. cbn [rows cols data]. unfold g, nrows in LY. nia. }
  set (e := VEst zz sampleEnd y resid (Some coef)).
  destruct (forecast_ok mh e exof dat storage work2 horizon isnew coef) as (F & EF & NF & CF & HA & HB); cbn [e e_sizes e_end e_y e_resid e_coef]; fold zz; change (v_eqs zz) with g; rewrite ?ET, ?AD, ?PQ; fold h; auto; try lia.
  - destruct ED as [-> |ED]; [left; reflexivity|right]. unfold v_hasdiff. cbn [zz z ols_sizes v_diff]. apply Nat.ltb_lt. auto.
  - rewrite <- eval_zero. change (v_diff zz) with df. rewrite EV. assert (EX : qpow (1 - qpow 0 (Z.to_nat (seasons s))) (Z.to_nat D) = 1%Qc).
    { unfold seasons. destruct (Z.ltb_spec s 2) as [H2|H2]; [replace D with 0 by (destruct (HS H2) as (_ & -> & _); auto); reflexivity|]. replace (Z.to_nat s) with (S (Z.to_nat (s - 1))) by lia. cbn [qpow]. replace (1 - 0 * qpow 0 (Z.to_nat (s - 1)))%Qc with 1%Qc by ring. clear. induction (Z.to_nat D) as [|N IH]; auto. cbn [qpow]. rewrite IH. ring. }
    rewrite EX. replace (1 - 0)%Qc with 1%Qc by ring. clear. induction (Z.to_nat d) as [|N IH]; auto. cbn [qpow]. rewrite Qcmult_1_r in *. rewrite IH. ring.
  - intros i t Hi Ht. rewrite Vy by auto. symmetry. apply ES.
  - change (v_armax zz) with (v_armax z). destruct A2 as [A2|(_ & _ & ->)]; [|lia]. destruct A2 as [Y|(k' & Y & EY)]; [lia|]. destruct (Z_lt_dec s 2) as [H2|H2]; [destruct (HS H2); lia|nia].
  - intros NK. change (v_exo zz) with k in NK. destruct (HE NK) as (x & -> & Wx & Nx & Lx). exists x. repeat (split; auto). unfold T in *. destruct isnew; lia.
  - apply Forall_forall. intros l Hl. cbn [zz z ols_sizes v_arlags] in Hl. destruct (LG p P l Hp HP Hl ltac:(tauto)). split; auto; apply A1; auto.
  - apply Forall_forall. intros l Hl. cbn [zz z ols_sizes v_malags] in Hl. destruct (LG q Q l Hq HQ Hl ltac:(tauto)). split; auto.
  - exists F. split; [exact EF|]. change (e_sizes e) with zz in *. change (e_end e) with sampleEnd in *. change (e_resid e) with resid in *. rewrite ET, AD in *. change (v_eqs zz) with g in *. fold h in CF, HB. split; [exact NF|]. split; [rewrite CF; lia|]. pose (path := fun i t : Z => el F i (t - (n - m))). cbv zeta. change (fun t : Z => el F ?b (t - (n - m))) with (path b). split.
    + intros i t Hi Ht. rewrite HA by (auto; lia). f_equal. unfold T. lia.
    + intros i t Hi Ht. change (fun t : Z => el F i (t - (n - m))) with (path i). assert (DP : forall b u, delta d D s (path b) u = lag_sum df (el F b) (u - T)).
      { intros b u. unfold delta. rewrite <- ES. exact (lag_sum_shift df (el F b) u (- T)). }
      rewrite DP. change (v_diff zz) with df in HB. rewrite HB by (unfold T; lia). unfold varma_equation. change (v_arlags zz) with (v_arlags z). change (v_malags zz) with (v_malags z). change (v_exo zz) with k. f_equal; [f_equal|].
      * apply lag_terms_ext. intros b l _ _. rewrite DP. f_equal. lia.
      * f_equal. apply map_ext_in. intros c _. f_equal. unfold xel, exo_at. destruct exof; auto. f_equal. destruct isnew; unfold T; lia.
      * apply lag_terms_ext. intros b l Hb Hl. unfold past, error_at. rewrite NCr. replace (T <=? T - m + (t - T - l)) with (n <=? t - l) by (unfold T; lia). destruct (Z.ltb_spec (t - l) n), (Z.leb_spec n (t - l)); try lia; auto. f_equal. lia.
Qed.
Print Assumptions c77_path_partial.
(** Errors: a horizon above the one of the constructor, a model without coefficients and, if the exogenous data is
    the data of the estimation, a short sample or exogenous data that ends before the last forecast. *)
Theorem c77_errors (mh : Z) (e : vest) (exo U : option (mat Qc)) (storage work : list Qc) (horizon : Z) (isnew : bool) :
  let z := e_sizes e in let h := if horizon =? -1 then mh else horizon in let m := v_armax z + v_diffdeg z in let n := v_obs z - e_end e in
  (horizon <> -1 /\ mh < horizon) \/
  (e_coef e = None /\ (v_exo z = 0 \/ exo <> None)) \/
  (isnew = false /\ n - m < m) \/
  (isnew = false /\ v_exo z <> 0 /\ exists x, exo = Some x /\ ncols x < n + h) ->
  forecast mh e exo U storage work horizon isnew = Throw.
Proof.
  intros z h m n H. unfold forecast. fold z. destruct (Z.eqb_spec horizon (-1)) as [EH|NH]; cbn [negb andb]; [|destruct (Z.ltb_spec mh horizon); auto].
  all: destruct H as [H|[(HC & HX)|[(-> & HT)|(-> & HX & x & -> & HL)]]]; try (lia || (exfalso; lia)).
  all: try (replace (negb false && (v_T z - e_end e - v_armaxd z <? 0)) with true by (unfold v_T, v_armaxd, n, m in *; cbn [negb andb]; lia); auto; fail).
  all: try (destruct (negb false && (v_T z - e_end e - v_armaxd z <? 0)); auto; replace (negb (v_exo z =? 0)) with true by lia; cbn [negb andb];
            replace (ncols x <? _) with true by (unfold h, v_T, v_armaxd, n, m in *; destruct (Z.eqb_spec horizon (-1)); lia); auto; fail).
  all: destruct (negb isnew && _); auto; rewrite HC; destruct exo as [x|]; [destruct (negb isnew && _ && _); auto|destruct HX as [HX|HX]; [rewrite HX; cbn; rewrite Bool.andb_false_r; auto|congruence]].
Qed.
Print Assumptions c77_errors.
(** A sample shorter than the largest MA lag is accepted, although residuals before the first one are read. *)
Theorem c77_short_sample_refuted : exists z y X, make_sizes 3 1 0 1 0 3 0 0 0 0 [] = Ok z /\
  ols_arrays z (Mat 1 3 (map qz [5; 6; 8])) None 0 [] (map qz [0; 0]) (map qz [0; 0]) = Ok (y, X) /\ ncols y = 2 /\ is_lag 3 0 0 3 /\
  forecast 1 (VEst (ols_sizes z (Mat 1 3 (map qz [5; 6; 8])) None) 0 y (Mat 1 2 (map qz [1; 1])) (Some (Mat 1 4 (map qz [1; 1; 1; 1])))) None
    (Some (Mat 1 3 (map qz [5; 6; 8]))) (map qz [0; 0]) (map qz [0; 0; 0; 0; 0]) (-1) false = UB.
Proof. do 3 eexists. split; [vm_compute; reflexivity|]. split; [vm_compute; reflexivity|]. split; [reflexivity|]. split; [left; lia|]. vm_compute. reflexivity. Qed.
Print Assumptions c77_short_sample_refuted.
(** New exogenous data shorter than the horizon is not rejected: elements behind it are read. *)
Theorem c77_new_exogenous_refuted : exists z y X, make_sizes 4 1 1 1 0 0 0 0 0 0 [] = Ok z /\
  ols_arrays z (Mat 1 4 (map qz [5; 6; 8; 9])) (Some (Mat 1 4 (map qz [1; 2; 3; 4]))) 0 [] (map qz [0; 0; 0]) (map qz [0; 0; 0; 0; 0; 0]) = Ok (y, X) /\
  forecast 2 (VEst (ols_sizes z (Mat 1 4 (map qz [5; 6; 8; 9])) (Some (Mat 1 4 (map qz [1; 2; 3; 4])))) 0 y (Mat 1 3 (map qz [1; 1; 1])) (Some (Mat 1 2 (map qz [1; 1]))))
    (Some (Mat 1 1 [qz 7])) (Some (Mat 1 4 (map qz [5; 6; 8; 9]))) (map qz [0; 0; 0]) (map qz [0; 0; 0]) 2 true = UB.
Proof. do 3 eexists. split; [vm_compute; reflexivity|]. split; [vm_compute; reflexivity|]. vm_compute. reflexivity. Qed.
Print Assumptions c77_new_exogenous_refuted.
(** Without the undifferenced data, differences are taken for levels: the path does not start with the data. *)
Theorem c77_no_levels_refuted : exists z y X F, make_sizes 5 1 0 1 1 0 0 0 0 0 (repeat (qz 0) 10) = Ok z /\
  ols_arrays z (Mat 1 5 (map qz [5; 6; 8; 9; 13])) None 0 (repeat (qz 0) 4) (map qz [0; 0; 0]) (map qz [0; 0; 0]) = Ok (y, X) /\
  forecast 1 (VEst (ols_sizes z (Mat 1 5 (map qz [5; 6; 8; 9; 13])) None) 0 y (Mat 1 3 (map qz [1; 1; 1])) (Some (Mat 1 1 (map qz [1])))) None None (map qz [0; 0; 0]) (map qz [0; 0]) 1 false = Ok F /\
  ncols F = 3 /\ el F 0 1 = qz 5 /\ el (Mat 1 5 (map qz [5; 6; 8; 9; 13])) 0 4 = qz 13.
Proof. do 4 eexists. split; [vm_compute; reflexivity|]. split; [vm_compute; reflexivity|]. split; [vm_compute; reflexivity|]. split; [reflexivity|]. split; qeq. Qed.
Print Assumptions c77_no_levels_refuted.
(** ARIMA(1,1,1) with a variable: differences 2, 4, 1, 1; residuals 1, -1, 2 of times 2 to 4;
    dy(t) = 2 dy(t-1) + 3 x(t) + 5 e(t-1), so dy(5) = 2*1 + 3*60 + 5*2 = 192 and dy(6) = 2*192 + 3*70 = 594. *)
Example c77_case : exists z y X F, valid_spec 1 1 1 0 0 0 0 /\ enough 1 0 0 (repeat (qz 7) 10) /\ make_sizes 5 1 1 1 1 1 0 0 0 0 (repeat (qz 7) 10) = Ok z /\
  ols_arrays z (Mat 1 5 (map qz [1; 3; 7; 8; 9])) (Some (Mat 1 7 (map qz [10; 20; 30; 40; 50; 60; 70]))) 0 (repeat (qz 0) 5) (repeat (qz 0) 3) (repeat (qz 0) 6) = Ok (y, X) /\
  forecast 2 (VEst (ols_sizes z (Mat 1 5 (map qz [1; 3; 7; 8; 9])) (Some (Mat 1 7 (map qz [10; 20; 30; 40; 50; 60; 70])))) 0 y (Mat 1 3 (map qz [1; -1; 2])) (Some (Mat 1 3 (map qz [2; 3; 5]))))
    (Some (Mat 1 7 (map qz [10; 20; 30; 40; 50; 60; 70]))) (Some (Mat 1 5 (map qz [1; 3; 7; 8; 9]))) (repeat (qz 0) 4) (repeat (qz 0) 4) (-1) false = Ok F /\
  data F = map qz [8; 9; 201; 795].
Proof. do 4 eexists. split; [unfold valid_spec; lia|]. split; [vm_compute; split; discriminate|]. split; [vm_compute; reflexivity|]. split; [vm_compute; reflexivity|]. split; [vm_compute; reflexivity|]. qeq. Qed.
