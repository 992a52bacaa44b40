(** C39, C40, C41, C75, C76: VARMA orders, differences, data of the regression, restrictions. *)
From Verif Require Import VarmaModel VarmaSpec PolyProofs MatProofs MatProofs2 MatDotProofs VarmaProofs VarmaProofs2 VarmaProofs3 VarmaProofs4 VarmaProofs5.
From Coq Require Import Lia ZifyBool.
Local Open Scope Z_scope.
Ltac qeq := vm_compute; repeat first [apply Qc_is_canon; reflexivity | f_equal].

(** The work array has the declared size and the numbers are in the range of int. *)
Definition enough (d D s : Z) (work : list Qc) : Prop :=
  expand_diff_ws d D (seasons s) <= Z.of_nat (length work) /\ 2 * d + seasons s * D + seasons s + 2 <= 2147483647.
Lemma sizes_ok obs eqs exo p d q P D Q s work : valid_spec p d q P D Q s -> enough d D s work ->
  exists df, make_sizes obs eqs exo p d q P D Q s work = Ok (VSizes obs eqs exo (lags_of p P (seasons s)) (lags_of q Q (seasons s)) df) /\
    length df = Z.to_nat (d + seasons s * D + 1) /\ (forall f t, lag_sum df f t = diff_times (Z.to_nat d) 1 (diff_times (Z.to_nat D) (seasons s) f) t) /\
    (forall x, eval df x = (qpow (1 - x) (Z.to_nat d) * qpow (1 - qpow x (Z.to_nat (seasons s))) (Z.to_nat D))%Qc) /\ (df = [1%Qc] \/ (1 < length df)%nat).
Proof.
  intros (Hp & Hd & Hq & HP & HD & HQ & HS & HZ) (HW & HM). unfold make_sizes. change (if s <? 2 then 0 else s) with (seasons s). set (s' := seasons s) in *.
  assert (SS : s' = 0 /\ P = 0 /\ D = 0 /\ Q = 0 \/ 2 <= s'). { unfold s', seasons. destruct (Z.ltb_spec s 2); [left; split; auto|right; auto]. }
  assert (S0 : 0 <= s') by lia.
  replace ((p <? 0) || (d <? 0) || (D <? 0) || (P <? 0) || (q <? 0) || (Q <? 0) || (s' <? 0)) with false by lia.
  replace ((s' =? 0) && (negb (P =? 0) || negb (Q =? 0) || negb (D =? 0))) with false by lia.
  replace ((p =? 0) && (q =? 0) && (P =? 0) && (Q =? 0)) with false by lia.
  rewrite !expand_poly_ok by lia. cbn [bind].
  destruct (Z.eqb_spec d 0) as [Ed|Nd]; destruct (Z.eqb_spec D 0) as [ED|ND]; cbn [andb].
  - subst d D. cbn [bind]. eexists. split; [reflexivity|]. split; [replace (0 + s' * 0 + 1) with 1 by ring; reflexivity|]. split; [intros; cbn; ring|]. split; [intros; cbn; ring|]. left. auto.
  - destruct (expand_diff_ok d D s' work) as (df & E & EL & ES & EV); auto; try lia. rewrite E. cbn [bind]. exists df. repeat (split; auto). right. rewrite EL. nia.
  - destruct (expand_diff_ok d D s' work) as (df & E & EL & ES & EV); auto; try lia. rewrite E. cbn [bind]. exists df. repeat (split; auto). right. rewrite EL. nia.
  - destruct (expand_diff_ok d D s' work) as (df & E & EL & ES & EV); auto; try lia. rewrite E. cbn [bind]. exists df. repeat (split; auto). right. rewrite EL. nia.
Qed.

(** ** C39 *)
(** Which specifications are errors. *)
Theorem c39_invalid (obs eqs exo p d q P D Q s : Z) (work : list Qc) :
  ~ valid_spec p d q P D Q s -> make_sizes obs eqs exo p d q P D Q s work = Throw.
Proof.
  intros H. unfold make_sizes. change (if s <? 2 then 0 else s) with (seasons s).
  destruct ((p <? 0) || (d <? 0) || (D <? 0) || (P <? 0) || (q <? 0) || (Q <? 0) || (seasons s <? 0)) eqn:E1; auto.
  destruct ((seasons s =? 0) && (negb (P =? 0) || negb (Q =? 0) || negb (D =? 0))) eqn:E2; auto.
  destruct ((p =? 0) && (q =? 0) && (P =? 0) && (Q =? 0)) eqn:E3; auto. exfalso. apply H. unfold valid_spec. unfold seasons in *. destruct (Z.ltb_spec s 2); lia.
Qed.
Print Assumptions c39_invalid.
(** Lags and numbers of parameters of a valid specification. *)
Theorem c39_sizes (obs eqs exo p d q P D Q s : Z) (work : list Qc) :
  valid_spec p d q P D Q s -> enough d D s work ->
  exists z, make_sizes obs eqs exo p d q P D Q s work = Ok z /\ v_obs z = obs /\ v_eqs z = eqs /\ v_exo z = exo /\
    (forall l, In l (v_arlags z) <-> is_lag p P s l) /\ (forall l, In l (v_malags z) <-> is_lag q Q s l) /\
    v_arlen z = p + P /\ v_malen z = q + Q /\ v_mastart z = (p + P) * eqs + exo /\
    v_paramseq z = (p + P) * eqs + exo + (q + Q) * eqs /\ v_params z = eqs * ((p + P) * eqs + exo + (q + Q) * eqs) /\
    v_diffdeg z = d + seasons s * D.
Proof.
  intros V E. destruct (sizes_ok obs eqs exo p d q P D Q s work V E) as (df & EQ & EL & _). eexists. split; [exact EQ|]. destruct V as (Hp & Hd & Hq & HP & HD & HQ & HS & HZ).
  assert (IL : forall a b l, (s < 2 -> b = 0) -> (is_lag a b (seasons s) l <-> is_lag a b s l)).
  { intros a b l Hb. unfold seasons, is_lag. destruct (Z.ltb_spec s 2) as [H|H]; [|reflexivity]. rewrite (Hb H). split; (intros [X|(k & X & _)]; [left; auto|lia]). }
  assert (LA : v_arlen (VSizes obs eqs exo (lags_of p P (seasons s)) (lags_of q Q (seasons s)) df) = p + P) by (apply lags_length; auto).
  assert (LM : v_malen (VSizes obs eqs exo (lags_of p P (seasons s)) (lags_of q Q (seasons s)) df) = q + Q) by (apply lags_length; auto).
  repeat (split; [reflexivity|]). cbn [v_arlags v_malags].
  split; [intros l; rewrite lags_in; apply IL; tauto|]. split; [intros l; rewrite lags_in; apply IL; tauto|]. split; auto. split; auto. unfold v_params, v_paramseq, v_mastart. rewrite LA, LM. cbn [v_eqs v_exo].
  split; [ring|]. split; [ring|]. split; [ring|]. unfold v_diffdeg. cbn [v_diff]. assert (0 <= seasons s) by (unfold seasons; destruct (Z.ltb_spec s 2); lia). assert (0 <= seasons s * D) by nia. destruct (Nat.eqb_spec (length df) 0); lia.
Qed.
Print Assumptions c39_sizes.
(** If the seasonal lags are behind the other ones, the lags are in increasing order and different. *)
Theorem c39_distinct_partial (obs eqs exo p d q P D Q s : Z) (work : list Qc) :
  valid_spec p d q P D Q s -> enough d D s work ->
  exists z, make_sizes obs eqs exo p d q P D Q s work = Ok z /\
    (p < s \/ P = 0 -> StronglySorted Z.lt (v_arlags z)) /\ (q < s \/ Q = 0 -> StronglySorted Z.lt (v_malags z)).
Proof.
  intros V E. destruct (sizes_ok obs eqs exo p d q P D Q s work V E) as (df & EQ & _). eexists. split; [exact EQ|]. cbn [v_arlags v_malags]. destruct V as (Hp & Hd & Hq & HP & HD & HQ & HS & HZ).
  assert (X : forall a b, (s < 2 -> b = 0) -> (a < s \/ b = 0) -> 0 <= a -> StronglySorted Z.lt (lags_of a b (seasons s))).
  { intros a b Hb H Ha. unfold seasons. destruct (Z.ltb_spec s 2) as [Hs|Hs].
    - rewrite (Hb Hs). replace (lags_of a 0 0) with (lags_of a 0 1) by reflexivity. apply lags_sorted; lia.
    - apply lags_sorted; lia. }
  split; intros H; apply X; auto; tauto.
Qed.
Print Assumptions c39_distinct_partial.
(** Otherwise a lag is in the list more than once (and its parameters are counted twice). *)
Theorem c39_duplicates_refuted (obs eqs exo p d q P D Q s : Z) (work : list Qc) :
  valid_spec p d q P D Q s -> enough d D s work -> 2 <= s <= p -> 1 <= P ->
  exists z, make_sizes obs eqs exo p d q P D Q s work = Ok z /\ ~ NoDup (v_arlags z).
Proof.
  intros V E H1 H2. destruct (sizes_ok obs eqs exo p d q P D Q s work V E) as (df & EQ & _). eexists. split; [exact EQ|]. cbn [v_arlags]. unfold seasons. destruct (Z.ltb_spec s 2); [lia|]. apply lags_dup; auto.
Qed.
Print Assumptions c39_duplicates_refuted.
(** The largest lag and the usable observations, if the non-seasonal lags do not exceed the seasonal ones. *)
Theorem c39_max_partial (obs eqs exo p d q P D Q s : Z) (work : list Qc) :
  valid_spec p d q P D Q s -> enough d D s work ->
  exists z, make_sizes obs eqs exo p d q P D Q s work = Ok z /\
    (p <= s * P \/ P = 0 ->
      (forall l, is_lag p P s l -> l <= v_armax z) /\ (is_lag p P s (v_armax z) \/ p = 0 /\ P = 0 /\ v_armax z = 0) /\
      forall t, 0 <= t -> (obs - v_T z <= t <-> forall l, l = 0 \/ is_lag p P s l -> 0 <= t - l - (d + seasons s * D))) /\
    (q <= s * Q \/ Q = 0 -> (forall l, is_lag q Q s l -> l <= v_mamax z) /\ (is_lag q Q s (v_mamax z) \/ q = 0 /\ Q = 0 /\ v_mamax z = 0)).
Proof.
  intros V E. destruct (sizes_ok obs eqs exo p d q P D Q s work V E) as (df & EQ & EL & _). eexists. split; [exact EQ|]. destruct V as (Hp & Hd & Hq & HP & HD & HQ & HS & HZ).
  set (z := VSizes _ _ _ _ _ _).
  assert (X : forall a b, 0 <= a -> 0 <= b -> (s < 2 -> b = 0) -> (a <= s * b \/ b = 0) -> let m := last_lag (lags_of a b (seasons s)) in (forall l, is_lag a b s l -> l <= m) /\ (is_lag a b s m \/ a = 0 /\ b = 0 /\ m = 0) /\ 0 <= m).
  { intros a b Ha Hb Hs H m. unfold m. rewrite last_lags by auto. unfold seasons, is_lag. destruct (Z.eqb_spec b 0) as [-> |NB].
    - split; [intros l [X|(k & X & _)]; lia|]. split; [|lia]. destruct (Z.eq_dec a 0); [right; auto|left; left; lia].
    - destruct (Z.ltb_spec s 2) as [H2|H2]; [specialize (Hs H2); lia|]. split; [intros l [X|(k & X & ->)]; nia|]. split; [|nia]. left. right. exists b. lia. }
  assert (S0 : 0 <= seasons s * D) by (unfold seasons; destruct (Z.ltb_spec s 2); nia).
  split.
  - intros H. destruct (X p P Hp HP ltac:(tauto) H) as (A1 & A2 & A3). change (last_lag (lags_of p P (seasons s))) with (v_armax z) in *. split; auto. split; auto.
    assert (ET : obs - v_T z = v_armax z + (d + seasons s * D)). { unfold v_T, v_armaxd, v_diffdeg, z. cbn [v_obs v_diff]. destruct (Nat.eqb_spec (length df) 0); lia. }
    intros t Ht. rewrite ET. split.
    + intros HT l [-> |HL]; [lia|]. specialize (A1 l HL). lia.
    + intros HL. destruct A2 as [A2|(_ & _ & A2)]; [specialize (HL _ (or_intror A2)); lia|]. specialize (HL 0 (or_introl eq_refl)). lia.
  - intros H. destruct (X q Q Hq HQ ltac:(tauto) H) as (A1 & A2 & _). split; auto.
Qed.
Print Assumptions c39_max_partial.
(** Otherwise the last lag of the list is taken for the largest one, although lag p is larger. *)
Theorem c39_max_refuted (obs eqs exo p d q P D Q s : Z) (work : list Qc) :
  valid_spec p d q P D Q s -> enough d D s work -> 2 <= s -> 1 <= P -> s * P < p ->
  exists z, make_sizes obs eqs exo p d q P D Q s work = Ok z /\ v_armax z = s * P /\ In p (v_arlags z) /\ v_armax z < p /\ v_T z = obs - s * P - (d + s * D).
Proof.
  intros V E H1 H2 H3. destruct (sizes_ok obs eqs exo p d q P D Q s work V E) as (df & EQ & EL & _). eexists. split; [exact EQ|]. destruct V as (Hp & Hd & Hq & HP & HD & HQ & HS & HZ).
  assert (ES : seasons s = s) by (unfold seasons; destruct (Z.ltb_spec s 2); lia). rewrite ES in *.
  assert (EM : v_armax (VSizes obs eqs exo (lags_of p P s) (lags_of q Q s) df) = s * P). { unfold v_armax. cbn [v_arlags]. rewrite last_lags by auto. destruct (Z.eqb_spec P 0); lia. }
  split; auto. split; [apply lags_in; left; lia|]. split; [lia|]. unfold v_T, v_armaxd. rewrite EM. unfold v_diffdeg. cbn [v_obs v_diff]. assert (0 <= s * D) by nia. destruct (Nat.eqb_spec (length df) 0); lia.
Qed.
Print Assumptions c39_max_refuted.
Example c39_case : valid_spec 2 1 1 1 1 1 4 /\ enough 1 1 4 (repeat (qz 7) 100) /\
  (do z <- make_sizes 50 2 1 2 1 1 1 1 1 4 (repeat (qz 7) 100); Ok (v_arlags z, v_malags z, v_armax z, v_mamax z)) = Ok ([1; 2; 4], [1; 4], 4, 4) /\
  (do z <- make_sizes 50 2 1 2 1 1 1 1 1 4 (repeat (qz 7) 100); Ok (v_T z, v_mastart z, v_paramseq z, v_params z)) = Ok (41, 7, 11, 22).
Proof. split; [unfold valid_spec; lia|]. split; [vm_compute; split; discriminate|]. split; reflexivity. Qed.
Example c39_refuted_case : valid_spec 3 0 0 1 0 0 2 /\ enough 0 0 2 [] /\
  (do z <- make_sizes 50 1 0 3 0 0 1 0 0 2 []; Ok (v_arlags z, v_armax z, v_T z)) = Ok ([1; 2; 3; 2], 2, 48).
Proof. split; [unfold valid_spec; lia|]. split; [vm_compute; split; discriminate|]. reflexivity. Qed.

(** ** C40: the differencing polynomial of a valid specification, whatever is in the work array: it has degree
    d + s D, its value at x is (1-x)^d (1-x^s)^D and applied to a series it takes d differences and D seasonal ones. *)
Theorem c40_polynomial (obs eqs exo p d q P D Q s : Z) (work : list Qc) :
  valid_spec p d q P D Q s -> enough d D s work ->
  exists z, make_sizes obs eqs exo p d q P D Q s work = Ok z /\ Z.of_nat (length (v_diff z)) = d + seasons s * D + 1 /\
    (forall x, eval (v_diff z) x = (qpow (1 - x) (Z.to_nat d) * qpow (1 - qpow x (Z.to_nat (seasons s))) (Z.to_nat D))%Qc) /\
    (forall (f : series) t, lag_sum (v_diff z) f t = diff_times (Z.to_nat d) 1 (diff_times (Z.to_nat D) (seasons s) f) t).
Proof.
  intros V E. destruct (sizes_ok obs eqs exo p d q P D Q s work V E) as (df & EQ & EL & ES & EV & _). eexists. split; [exact EQ|]. cbn [v_diff]. destruct V as (Hp & Hd & Hq & HP & HD & _).
  assert (0 <= seasons s) by (unfold seasons; destruct (Z.ltb_spec s 2); lia). split; [nia|]. auto.
Qed.
Print Assumptions c40_polynomial.
Example c40_case : valid_spec 1 2 0 0 1 0 3 /\ enough 2 1 3 (repeat (qz 7) 30) /\
  (do z <- make_sizes 50 1 0 1 2 0 0 1 0 3 (repeat (qz 7) 30); Ok (v_diff z)) = Ok (map qz [1; -2; 1; -1; 2; -1]).
Proof. split; [unfold valid_spec; lia|]. split; [vm_compute; split; discriminate|]. qeq. Qed.

(** ** C75: differences and their inverse *)
Theorem c75_difference (c : list Qc) (y S : mat Qc) :
  mat_ok y -> mat_ok S -> (1 <= length c)%nat -> nrows S = nrows y -> ncols S = ncols y - (Z.of_nat (length c) - 1) ->
  exists S', difference c y S = Ok S' /\ nrows S' = nrows y /\ ncols S' = ncols y - (Z.of_nat (length c) - 1) /\
    forall i t, 0 <= i < nrows y -> 0 <= t < ncols S' -> el S' i t = lag_sum c (el y i) (t + (Z.of_nat (length c) - 1)).
Proof.
  intros Wy W L NR NC. destruct (difference_ok c y S Wy W L NR NC) as (S' & E & B). exists S'. split; auto. split; [rewrite (turns_nrows _ _ _ B); auto|]. split; [rewrite (turns_ncols _ _ _ B); auto|].
  intros i t Hi Ht. rewrite (turns_ncols _ _ _ B) in Ht. apply (turns_el _ _ _ _ _ B). split; lia.
Qed.
Print Assumptions c75_difference.
(** UnDiferences: the first columns are kept, then the result has the given differences. *)
Theorem c75_undifference (c : list Qc) (S : mat Qc) :
  mat_ok S ->
  exists S', undifference (1%Qc :: c) S = Ok S' /\ nrows S' = nrows S /\ ncols S' = ncols S /\
    (forall i j, 0 <= i < nrows S -> 0 <= j < ncols S -> j < Z.of_nat (length c) -> el S' i j = el S i j) /\
    (forall i j, 0 <= i < nrows S -> 0 <= j < ncols S -> Z.of_nat (length c) <= j -> lag_sum (1%Qc :: c) (el S' i) j = el S i j).
Proof.
  intros W. destruct (undifference_ok (1%Qc :: c) S W ltac:(cbn; lia)) as (S' & E & B & K & R). cbn [length tl] in K, R. exists S'. split; auto. split; [apply (turns_nrows _ _ _ B)|]. split; [apply (turns_ncols _ _ _ B)|]. split.
  - intros i j Hi Hj H. apply K; [split; auto|lia].
  - intros i j Hi Hj H. cbn [lag_sum]. rewrite R by (try split; auto; lia). ring.
Qed.
Print Assumptions c75_undifference.
(** Undoing Difference, from the first observations and the differences. *)
Theorem c75_round_trip (c : list Qc) (y S U : mat Qc) :
  mat_ok y -> mat_ok S -> mat_ok U -> nrows S = nrows y -> ncols S = ncols y - Z.of_nat (length c) -> nrows U = nrows y -> ncols U = ncols y ->
  exists S', difference (1%Qc :: c) y S = Ok S' /\
    ((forall i j, 0 <= i < nrows y -> 0 <= j < ncols y -> el U i j = if j <? Z.of_nat (length c) then el y i j else el S' i (j - Z.of_nat (length c))) ->
     exists U', undifference (1%Qc :: c) U = Ok U' /\ forall i j, 0 <= i < nrows y -> 0 <= j < ncols y -> el U' i j = el y i j).
Proof.
  intros Wy W WU NR NC NRU NCU. destruct (c75_difference (1%Qc :: c) y S Wy W) as (S' & E & NR' & NC' & D); auto; [cbn [length]; lia|cbn [length]; lia|]. cbn [length] in *. exists S'. split; auto. intros HU.
  destruct (undifference_ok (1%Qc :: c) U WU ltac:(cbn; lia)) as (U' & EU & B & K & R). cbn [length tl] in K, R. exists U'. split; auto.
  intros i j Hi Hj. assert (G : forall n, forall j, j = Z.of_nat n -> j < ncols y -> el U' i j = el y i j).
  { induction n as [n IH] using lt_wf_ind. intros j' -> Hn. set (j' := Z.of_nat n) in *. destruct (Z.ltb_spec j' (Z.of_nat (length c))) as [HL|HL].
    - rewrite K by (try split; lia). rewrite HU by lia. destruct (Z.ltb_spec j' (Z.of_nat (length c))); [auto|lia].
    - rewrite R by (try split; lia). rewrite HU by lia. destruct (Z.ltb_spec j' (Z.of_nat (length c))); [lia|]. rewrite D by lia. replace (j' - Z.of_nat (length c) + (Z.of_nat (Datatypes.S (length c)) - 1)) with j' by lia. cbn [lag_sum].
      rewrite (lag_sum_ext_below c (el U' i) (el y i)); [ring|]. intros u Hu. apply (IH (Z.to_nat u)); lia. }
  apply (G (Z.to_nat j)); lia.
Qed.
Print Assumptions c75_round_trip.
(** The differences of a valid specification are d differences and D seasonal differences. *)
Theorem c75_seasonal (obs eqs exo p d q P D Q s : Z) (work : list Qc) (y S : mat Qc) :
  valid_spec p d q P D Q s -> enough d D s work -> mat_ok y -> mat_ok S -> nrows S = nrows y -> ncols S = ncols y - (d + seasons s * D) ->
  exists z S', make_sizes obs eqs exo p d q P D Q s work = Ok z /\ difference (v_diff z) y S = Ok S' /\
    forall i t, 0 <= i < nrows y -> 0 <= t < ncols S -> el S' i t = diff_times (Z.to_nat d) 1 (diff_times (Z.to_nat D) (seasons s) (el y i)) (t + (d + seasons s * D)).
Proof.
  intros V E Wy W NR NC. destruct (c40_polynomial obs eqs exo p d q P D Q s work V E) as (z & EZ & EL & _ & ES). destruct V as (Hp & Hd & Hq & HP & HD & _).
  assert (0 <= seasons s * D) by (unfold seasons; destruct (Z.ltb_spec s 2); nia).
  destruct (c75_difference (v_diff z) y S Wy W) as (S' & E' & NR' & NC' & DD); auto; try lia. exists z, S'. split; auto. split; auto. intros i t Hi Ht. rewrite DD by lia. rewrite ES. f_equal. lia.
Qed.
Print Assumptions c75_seasonal.
Example c75_case : exists S' U', difference (map qz [1; -2; 1]) (Mat 1 5 (map qz [1; 4; 9; 16; 25])) (Mat 1 3 (map qz [7; 7; 7])) = Ok S' /\ data S' = map qz [2; 2; 2] /\
  undifference (map qz [1; -2; 1]) (Mat 1 5 (map qz [1; 4; 2; 2; 2])) = Ok U' /\ data U' = map qz [1; 4; 9; 16; 25].
Proof. do 2 eexists. split; [vm_compute; reflexivity|]. split; [qeq|]. split; [vm_compute; reflexivity|]. qeq. Qed.

(** ** C76: the arrays of the regression, for the sizes of a valid specification without lags behind the last one *)
(** The (differenced) series of row i of the data. *)
Definition differenced (d D s : Z) (dat : mat Qc) (i : Z) : series := diff_times (Z.to_nat d) 1 (diff_times (Z.to_nat D) (seasons s) (el dat i)).
Theorem c76_arrays_partial (obs eqs exo0 p d q P D Q s : Z) (work0 : list Qc) (dat : mat Qc) (exo : option (mat Qc)) (sampleEnd : Z) (work sy sx : list Qc) :
  valid_spec p d q P D Q s -> enough d D s work0 -> p <= s * P \/ P = 0 ->
  mat_ok dat -> 1 <= nrows dat -> 0 <= sampleEnd -> (match exo with Some e => mat_ok e /\ ncols dat - sampleEnd <= ncols e | None => True end) ->
  exists z, make_sizes obs eqs exo0 p d q P D Q s work0 = Ok z /\
    let m := v_armax z + (d + seasons s * D) in let g := nrows dat in let T := ncols dat - m - sampleEnd in
    let k := (match exo with Some e => nrows e | None => 0 end) in
    1 <= T -> g * (ncols dat - (d + seasons s * D)) <= Z.of_nat (length work) -> g * T <= Z.of_nat (length sy) -> T * ((p + P) * g + k) <= Z.of_nat (length sx) ->
    exists y X, ols_arrays z dat exo sampleEnd work sy sx = Ok (y, X) /\ nrows y = g /\ ncols y = T /\ nrows X = T /\ ncols X = (p + P) * g + k /\
      (forall i t, 0 <= i < g -> 0 <= t < T -> el y i t = differenced d D s dat i (m + t)) /\
      (forall c l i t, nth_error (v_arlags z) c = Some l -> 0 <= i < g -> 0 <= t < T -> el X t (Z.of_nat c * g + i) = differenced d D s dat i (m + t - l)) /\
      (forall e x t, exo = Some e -> 0 <= x < k -> 0 <= t < T -> el X t ((p + P) * g + x) = el e x (m + t)).
Proof.
  intros V E HM W G1 SE WE. destruct (sizes_ok obs eqs exo0 p d q P D Q s work0 V E) as (df & EQ & EL & ES & _ & ED). destruct (c39_max_partial obs eqs exo0 p d q P D Q s work0 V E) as (z & EZ & HX & _). destruct (HX HM) as (A1 & _ & _). clear HX.
  exists z. split; auto. rewrite EZ in EQ. injection EQ as ->. set (z := VSizes _ _ _ _ _ _) in *. intros m g T k T1 LW LY LX.
  destruct V as (Hp & Hd & Hq & HP & HD & HQ & HS & HZ). assert (S0 : 0 <= seasons s * D) by (unfold seasons; destruct (Z.ltb_spec s 2); nia).
  assert (AL : v_arlen (ols_sizes z dat exo) = p + P) by (apply lags_length; auto).
  assert (DG : v_diffdeg (ols_sizes z dat exo) = d + seasons s * D). { unfold v_diffdeg, z. cbn [ols_sizes v_diff]. destruct (Nat.eqb_spec (length df) 0); lia. }
  assert (AD : v_armaxd (ols_sizes z dat exo) = m) by (unfold v_armaxd; rewrite DG; reflexivity).
  assert (ET : v_T (ols_sizes z dat exo) - sampleEnd = T) by (unfold v_T; rewrite AD; unfold T; cbn [ols_sizes v_obs]; lia).
  assert (MS : v_mastart (ols_sizes z dat exo) = (p + P) * g + k) by (unfold v_mastart; rewrite AL; reflexivity).
  assert (K0 : 0 <= k) by (unfold k, nrows; destruct exo; lia).
  assert (PP : 1 <= v_params (ols_sizes z dat exo)). { unfold v_params, v_paramseq. rewrite MS. assert (LM : v_malen (ols_sizes z dat exo) = q + Q) by (apply lags_length; auto). rewrite LM. change (v_eqs (ols_sizes z dat exo)) with g. assert (1 <= p + P + q + Q) by lia. assert (1 <= (p + P) * g + k + (q + Q) * g) by nia. nia. }
  destruct (ols_ok z dat exo sampleEnd work sy sx) as (y & X & EO & N1 & N2 & N3 & N4 & V1 & V2 & V3); rewrite ?ET, ?AD, ?MS, ?DG; auto.
  - destruct exo as [e|]; auto. destruct WE. split; auto. unfold T. lia.
  - destruct ED as [-> |ED]; [left; reflexivity|right]. unfold v_hasdiff. cbn [v_diff z]. apply Nat.ltb_lt. auto.
  - apply Forall_forall. intros l Hl. cbn [v_arlags z] in Hl. apply lags_in in Hl.
    assert (IL : is_lag p P s l) by (unfold seasons, is_lag in *; destruct (Z.ltb_spec s 2) as [H2|H2]; auto; destruct Hl as [Y|(k' & Y & _)]; [left; auto|lia]).
    split; [|apply A1; auto]. destruct IL as [Y|(k' & Y & ->)]; [lia|]. unfold seasons in *. destruct (Z.ltb_spec s 2); [lia|nia].
  - rewrite ET in N2. exists y, X. split; auto. split; auto. split; auto. rewrite ET in N3. split; auto. rewrite MS in N4. split; auto. rewrite ET, AD in *.
    split; [intros i t Hi Ht; rewrite V1 by auto; unfold diff_of; cbn [ols_sizes v_diff z]; apply ES|]. split.
    + intros c l i t Hc Hi Ht. rewrite (V2 c l) by auto. unfold diff_of. cbn [ols_sizes v_diff z]. apply ES.
    + intros e x t He Hx Ht. rewrite AL in V3. apply V3; auto. unfold k in Hx. rewrite He in Hx. auto.
Qed.
Print Assumptions c76_arrays_partial.
(** If p > s P >= s, the lag p is read from before the first observation. *)
Theorem c76_lags_refuted (obs eqs exo0 p d q P D Q s : Z) (work0 : list Qc) (dat : mat Qc) (sampleEnd : Z) (work sy sx : list Qc) :
  valid_spec p d q P D Q s -> enough d D s work0 -> 2 <= s -> 1 <= P -> s * P < p -> mat_ok dat -> 1 <= nrows dat -> 0 <= sampleEnd ->
  let T := ncols dat - s * P - (d + s * D) - sampleEnd in
  1 <= T -> nrows dat * (ncols dat - (d + s * D)) <= Z.of_nat (length work) -> nrows dat * T <= Z.of_nat (length sy) -> T * ((p + P) * nrows dat) <= Z.of_nat (length sx) ->
  exists z, make_sizes obs eqs exo0 p d q P D Q s work0 = Ok z /\ ols_arrays z dat None sampleEnd work sy sx = UB.
Proof.
  intros V E H1 H2 H3 W G1 SE T T1 LW LY LX. destruct (sizes_ok obs eqs exo0 p d q P D Q s work0 V E) as (df & EQ & EL & ES & _ & ED). eexists. split; [exact EQ|]. assert (SS : seasons s = s) by (unfold seasons; destruct (Z.ltb_spec s 2); lia). rewrite SS in *.
  destruct V as (Hp & Hd & Hq & HP & HD & HQ & HS & HZ). assert (S0 : 0 <= s * D) by nia. set (z := VSizes _ _ _ _ _ _). set (z' := ols_sizes z dat None).
  assert (AL : v_arlen z' = p + P) by (apply lags_length; auto).
  assert (DG : v_diffdeg z' = d + s * D). { unfold v_diffdeg, z', z. cbn [ols_sizes v_diff]. destruct (Nat.eqb_spec (length df) 0); lia. }
  assert (AM : v_armax z' = s * P). { unfold v_armax. cbn [z' z ols_sizes v_arlags]. rewrite last_lags by auto. destruct (Z.eqb_spec P 0); lia. }
  assert (ET : v_T z' - sampleEnd = T) by (unfold v_T, v_armaxd; rewrite AM, DG; unfold T; cbn [z' ols_sizes v_obs]; lia).
  assert (MS : v_mastart z' = (p + P) * nrows dat) by (unfold v_mastart; rewrite AL; cbn [z' ols_sizes v_eqs v_exo]; lia).
  assert (PP : 1 <= v_params z'). { unfold v_params, v_paramseq. rewrite MS. assert (LM : v_malen z' = q + Q) by (apply lags_length; auto). rewrite LM. change (v_eqs z') with (nrows dat). assert (1 <= p + P + q + Q) by lia. assert (1 <= (p + P) * nrows dat + (q + Q) * nrows dat) by nia. nia. }
  unfold ols_arrays. fold z'. rewrite ET. change (v_eqs z') with (nrows dat). replace ((T <? 1) || (nrows dat <? 1) || (v_params z' <? 1)) with false by lia.
  assert (DL : (1 <= length (v_diff z'))%nat) by (cbn [z' z ols_sizes v_diff]; lia).
  destruct (ols_data_ok z' dat work W DL) as (dd & EDD & WD & NRD & NCD & VD).
  { destruct ED as [-> |ED]; [left; reflexivity|right]. unfold v_hasdiff. cbn [z' z ols_sizes v_diff]. apply Nat.ltb_lt. auto. }
  { cbn [z' z ols_sizes v_diff]. unfold T in *. nia. }
  { intros _. rewrite DG. auto. }
  rewrite EDD. cbn [bind].
  assert (HSP : 2 <= s * P) by nia.
  destruct (block_ok_n (Mat (rows dat) (Z.to_nat T) sy) dd 0 0 0 (v_armax z') (nrows dat) T) as (y & EY & BY); auto; try lia; try (unfold mat_ok, nrows, ncols in *; cbn [rows cols data]; nia).
  rewrite EY. cbn [bind]. replace (v_hasarexo z') with true by (unfold v_hasarexo; rewrite AL; lia).
  assert (0 <= (p + P) * nrows dat) by nia.
  rewrite set_lags_ub; auto; try lia.
  - unfold mat_ok. cbn [rows cols data]. rewrite MS. nia.
  - unfold nrows. cbn [rows]. lia.
  - unfold ncols. cbn [cols]. rewrite MS. unfold v_arlen in AL. lia.
  - cbn [z' z ols_sizes v_arlags]. apply Forall_forall. intros l Hl. apply lags_in in Hl. destruct Hl as [Y|(k' & Y & ->)]; nia.
  - rewrite AM. apply Exists_exists. exists p. split; [cbn [z' z ols_sizes v_arlags]; apply lags_in; left; lia|auto].
Qed.
Print Assumptions c76_lags_refuted.
Example c76_case : exists z y X, make_sizes 6 1 1 2 1 0 0 0 0 0 (repeat (qz 7) 10) = Ok z /\
  ols_arrays z (Mat 1 6 (map qz [1; 3; 7; 8; 9; 4])) (Some (Mat 1 6 (map qz [10; 20; 30; 40; 50; 60]))) 0 (repeat (qz 0) 5) (repeat (qz 0) 3) (repeat (qz 0) 9) = Ok (y, X) /\
  data y = map qz [1; 1; -5] /\ data X = map qz [4; 1; 1; 2; 4; 1; 40; 50; 60].
Proof. do 3 eexists. split; [vm_compute; reflexivity|]. split; [vm_compute; reflexivity|]. split; qeq. Qed.
Example c76_refuted_case : exists z, make_sizes 9 1 0 3 0 0 1 0 0 2 [] = Ok z /\ v_arlags z = [1; 2; 3; 2] /\ v_T z = 7 /\
  ols_arrays z (Mat 1 9 (map qz [1; 2; 3; 4; 5; 6; 7; 8; 9])) None 0 (repeat (qz 0) 9) (repeat (qz 0) 7) (repeat (qz 0) 28) = UB.
Proof. eexists. split; [vm_compute; reflexivity|]. repeat split; reflexivity. Qed.

(** ** C41: restrictions *)
(** General restrictions: the restricted parameters are 0, the free ones are the elements of gamma in their order. *)
Theorem c41_general_partial (z : vsizes) (count : Z) (idx : list Z) (storage : list Qc) :
  0 <= v_params z -> 1 <= count <= Z.of_nat (length idx) -> NoDup idx -> Forall (fun i => 0 <= i < v_params z) idx ->
  v_params z * (v_params z - count) <= Z.of_nat (length storage) ->
  restriction_cols z (RGeneral count) = Ok (Some (v_params z - count)) /\
  exists R, restriction_matrix z (RGeneral count) storage (Some idx) = Ok (Some R) /\
    nrows R = v_params z /\ ncols R = v_params z - Z.of_nat (length idx) /\ length (free_params (v_params z) idx) = Z.to_nat (ncols R) /\
    forall gamma i, 0 <= i < v_params z ->
      (In i idx -> restricted_value R gamma i = 0%Qc) /\
      (forall k, nth_error (free_params (v_params z) idx) k = Some i -> restricted_value R gamma i = gamma (Z.of_nat k)).
Proof.
  intros P0 HC ND F LS. split; [unfold restriction_cols; destruct (Z.leb_spec count 0); [lia|auto]|].
  unfold restriction_matrix, restriction_cols. destruct (Z.leb_spec count 0); [lia|]. cbn [bind]. set (n := v_params z) in *. set (q := n - Z.of_nat (length idx)).
  assert (FL := frees_length n idx P0 ND F). rewrite zeros_fill by (fold q in FL; nia). cbn [bind]. destruct (Z.ltb_spec (Z.of_nat (length idx)) count); [lia|].
  destruct (general_ok n idx storage P0 ND F) as (R & E & NR & NC & WR & V). fold q in E, NC, V. change (Mat (Z.to_nat n) (Z.to_nat q) (data (zeros n q storage))) with (zeros n q storage). rewrite E. cbn [bind].
  exists R. split; auto. split; auto. split; auto. rewrite frees_params in *. fold q in FL. split; [lia|].
  intros gamma i Hi. split.
  - intros HI. apply restricted_none. intros j Hj. rewrite V by lia. destruct (nth_error (free_params n idx) (Z.to_nat j)) as [x|] eqn:EX; auto. cbn [eqo]. destruct (Z.eqb_spec x i) as [-> |]; auto.
    apply nth_error_In in EX. unfold free_params in EX. apply filter_In in EX as (_ & EX). destruct (in_dec Z.eq_dec i idx); [discriminate|tauto].
  - intros k Hk. assert (k < length (free_params n idx))%nat by (apply nth_error_Some; congruence). apply restricted_single; [lia|]. intros j Hj. rewrite V by lia. destruct (Z.eqb_spec j (Z.of_nat k)) as [-> |NJ].
    + rewrite Nat2Z.id, Hk. cbn [eqo]. rewrite Z.eqb_refl. auto.
    + destruct (nth_error (free_params n idx) (Z.to_nat j)) as [x|] eqn:EX; auto. cbn [eqo]. destruct (Z.eqb_spec x i) as [-> |]; auto. exfalso. apply NJ.
      assert (Z.to_nat j = k); [|lia]. rewrite <- frees_params in *. eapply (proj1 (NoDup_nth_error _) (frees_NoDup idx n)); [lia|congruence].
Qed.
Print Assumptions c41_general_partial.
(** Indexes that are repeated or are not numbers of parameters: a write outside of an array of the declared size. *)
Theorem c41_general_refuted (z : vsizes) (idx : list Z) (storage : list Qc) :
  1 <= Z.of_nat (length idx) <= v_params z -> length storage = Z.to_nat (v_params z * (v_params z - Z.of_nat (length idx))) ->
  ~ (NoDup idx /\ Forall (fun i => 0 <= i < v_params z) idx) ->
  restriction_matrix z (RGeneral (Z.of_nat (length idx))) storage (Some idx) = UB.
Proof.
  intros HC LS H. unfold restriction_matrix, restriction_cols. destruct (Z.leb_spec (Z.of_nat (length idx)) 0); [lia|]. cbn [bind]. set (n := v_params z) in *. set (q := n - Z.of_nat (length idx)) in *.
  rewrite zeros_fill by lia. cbn [bind]. rewrite Z.ltb_irrefl. change (Mat (Z.to_nat n) (Z.to_nat q) (data (zeros n q storage))) with (zeros n q storage). rewrite general_ub; auto; lia.
Qed.
Print Assumptions c41_general_refuted.
(** Fewer indexes than declared: the error comes after the zeros were written behind the array. *)
Theorem c41_fewer_refuted (z : vsizes) (count : Z) (idx : list Z) (storage : list Qc) :
  Z.of_nat (length idx) < count <= v_params z -> length storage = Z.to_nat (v_params z * (v_params z - count)) ->
  restriction_matrix z (RGeneral count) storage (Some idx) = UB.
Proof.
  intros HC LS. unfold restriction_matrix, restriction_cols. destruct (Z.leb_spec count 0); [lia|]. cbn [bind].
  assert (FU : forall n (d : list Qc), (length d < n)%nat -> fill 0%Qc n d = UB). { induction n as [|n IH]; intros d H2; [lia|]. destruct d as [|x d]; auto. cbn [fill]. rewrite IH; auto. cbn in H2. lia. }
  rewrite FU; auto. rewrite LS. apply Z2Nat.inj_lt; nia.
Qed.
Print Assumptions c41_fewer_refuted.
Definition vz : vsizes := VSizes 50 1 1 [1; 2] [1] [1%Qc].
Example c41_general_case : v_params vz = 4 /\ (exists R, restriction_matrix vz (RGeneral 1) (repeat (qz 9) 12) (Some [1]) = Ok (Some R) /\ data R = map qz [1; 0; 0; 0; 0; 0; 1; 0; 0; 0; 0; 1]) /\
  restriction_matrix vz (RGeneral 2) (repeat (qz 9) 8) (Some [1; 1]) = UB /\ restriction_matrix vz (RGeneral 2) (repeat (qz 9) 8) (Some [1; 4]) = UB /\ restriction_matrix vz (RGeneral 2) (repeat (qz 9) 8) (Some [1]) = UB.
Proof. split; [reflexivity|]. split; [eexists; split; [vm_compute; reflexivity|qeq]|]. repeat split; reflexivity. Qed.
(** Final form: the parameters of lags and exogenous variables are free; the coefficient matrix of a moving average lag
    c (element of equation a and variable b) is a multiple of the identity matrix. *)
Theorem c41_final (z : vsizes) (storage : list Qc) (idx : option (list Z)) :
  let g := v_eqs z in let n := v_mastart z * g in let K := v_malen z in
  2 <= g -> 1 <= K -> 0 <= v_exo z -> v_params z * (n + K) <= Z.of_nat (length storage) ->
  v_params z = n + K * (g * g) /\ restriction_cols z RMaFinal = Ok (Some (n + K)) /\
  exists R, restriction_matrix z RMaFinal storage idx = Ok (Some R) /\ nrows R = v_params z /\ ncols R = n + K /\
    forall gamma, (forall i, 0 <= i < n -> restricted_value R gamma i = gamma i) /\
      (forall c a b, 0 <= c < K -> 0 <= a < g -> 0 <= b < g ->
        restricted_value R gamma (n + c * (g * g) + b * g + a) = if a =? b then gamma (n + c) else 0%Qc).
Proof.
  intros g n K G1 K1 EX LS. assert (EP : v_params z = n + K * (g * g)) by (unfold v_params, v_paramseq, n, K, g; ring). assert (N0 : 0 <= n) by (unfold n, v_mastart, v_arlen, g; nia).
  assert (EC : restriction_cols z RMaFinal = Ok (Some (n + K))). { unfold restriction_cols. fold g. replace ((g =? 1) || negb (v_hasma z)) with false by (unfold v_hasma; fold K; lia). do 2 f_equal. unfold v_paramseq, n, K, g. ring. }
  split; auto. split; auto. unfold restriction_matrix. rewrite EC. cbn [bind]. rewrite zeros_fill by (rewrite EP in *; nia). cbn [bind].
  change (Mat (Z.to_nat (v_params z)) (Z.to_nat (n + K)) (data (zeros (v_params z) (n + K) storage))) with (zeros (v_params z) (n + K) storage). fold g. fold n.
  destruct (final_ok n g K storage (v_params z) (n + K) N0 ltac:(lia) K1 EP eq_refl) as (R1 & R & E1 & E2 & NR & NC & WR & V1 & V2). rewrite E1. cbn [bind]. rewrite !Z.max_r by lia. rewrite E2. cbn [bind]. exists R. split; auto. split; auto. split; auto. intros gamma. split.
  - intros i Hi. apply restricted_single; [lia|]. intros j Hj. rewrite V1 by lia. destruct (Z.eqb_spec i j), (Z.eqb_spec j i); auto; lia.
  - intros c a b Hc Ha Hb. destruct (Z.eqb_spec a b) as [-> |N].
    + apply restricted_single; [lia|]. intros j Hj. rewrite V2 by lia. rewrite Z.eqb_refl, andb_true_r. auto.
    + apply restricted_none. intros j Hj. rewrite V2 by lia. destruct (Z.eqb_spec a b); [lia|]. rewrite andb_false_r. auto.
Qed.
Print Assumptions c41_final.
(** Not restricted: no restrictions, one equation or no moving average lags. *)
Theorem c41_unrestricted (z : vsizes) (storage : list Qc) (idx : option (list Z)) :
  restriction_matrix z RNone storage idx = Ok None /\ (v_eqs z = 1 \/ v_malags z = [] -> restriction_matrix z RMaFinal storage idx = Ok None) /\
  (forall count, restriction_matrix z (RGeneral count) storage None = Throw) /\ (forall count, count <= 0 -> restriction_matrix z (RGeneral count) storage idx = Throw).
Proof.
  split; [reflexivity|]. split; [|split].
  - intros H. unfold restriction_matrix, restriction_cols. replace ((v_eqs z =? 1) || negb (v_hasma z)) with true; auto. unfold v_hasma, v_malen. destruct H as [-> | ->]; cbn; auto. rewrite orb_true_r. auto.
  - intros count. unfold restriction_matrix, restriction_cols. destruct (Z.leb_spec count 0); reflexivity.
  - intros count H. unfold restriction_matrix, restriction_cols. destruct (Z.leb_spec count 0); [reflexivity|lia].
Qed.
Print Assumptions c41_unrestricted.
Definition vz2 : vsizes := VSizes 50 2 0 [] [1; 2] [1%Qc].
Example c41_final_case : v_params vz2 = 8 /\ exists R, restriction_matrix vz2 RMaFinal (repeat (qz 9) 16) None = Ok (Some R) /\ ncols R = 2 /\ data R = map qz [1; 0; 0; 1; 0; 0; 0; 0; 0; 0; 0; 0; 1; 0; 0; 1].
Proof. split; [reflexivity|]. eexists. split; [vm_compute; reflexivity|]. split; [reflexivity|qeq]. Qed.
