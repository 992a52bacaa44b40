(** Proofs: the arrays of the regression. *)
From Verif Require Import VarmaModel VarmaSpec PolyProofs MatProofs MatProofs2 MatDotProofs MatProofs6 VarmaProofs VarmaProofs3 SplitProofs4.
From Coq Require Import Lia.
Local Open Scope Z_scope.

Lemma block_ok_t (M S : mat Qc) r c sr sc nr nc : mat_ok M -> mat_ok S -> 0 <= r -> 0 <= c -> 0 <= sr -> 0 <= sc -> r + nr <= nrows M -> c + nc <= ncols M -> sc + nr <= ncols S -> sr + nc <= nrows S ->
  exists M', set_sub_t0 M r c S sr sc nr nc = Ok M' /\ turns M (fun i j => if in_block r c nr nc i j then el S (sr + (j - c)) (sc + (i - r)) else el M i j) M'.
Proof.
  intros W WS R C SR SC H1 H2 H3 H4. destruct (grid_ok M r c nr nc (fun t u => get0 S (sr + u) (sc + t)) (fun i j => Some (el S (sr + (j - c)) (sc + (i - r)))) W R C H1 H2) as (M' & E & B).
  - intros i j Hi Hj. eexists. split; [|reflexivity]. apply el_get0; auto. split; lia.
  - exists M'. split; auto. eapply becomes_ext; [exact B|]. cbn. intros i j H. destruct (in_block r c nr nc i j); auto. apply entry_el; auto.
Qed.
Lemma block_ok_n (M S : mat Qc) r c sr sc nr nc : mat_ok M -> mat_ok S -> 0 <= r -> 0 <= c -> 0 <= sr -> 0 <= sc -> r + nr <= nrows M -> c + nc <= ncols M -> sr + nr <= nrows S -> sc + nc <= ncols S ->
  exists M', set_sub0 M r c S sr sc nr nc = Ok M' /\ turns M (fun i j => if in_block r c nr nc i j then el S (sr + (i - r)) (sc + (j - c)) else el M i j) M'.
Proof.
  intros W WS R C SR SC H1 H2 H3 H4. destruct (grid_ok M r c nr nc (fun t u => get0 S (sr + t) (sc + u)) (fun i j => Some (el S (sr + (i - r)) (sc + (j - c)))) W R C H1 H2) as (M' & E & B).
  - intros i j Hi Hj. eexists. split; [|reflexivity]. apply el_get0; auto. split; lia.
  - exists M'. split; auto. eapply becomes_ext; [exact B|]. cbn. intros i j H. destruct (in_block r c nr nc i j); auto. apply entry_el; auto.
Qed.
Lemma set_lags_ok armax T g dd : mat_ok dd -> 0 <= T -> 1 <= g -> nrows dd = g -> armax + T <= ncols dd ->
  forall lags row X, mat_ok X -> nrows X = T -> 0 <= row -> row + Z.of_nat (length lags) * g <= ncols X -> Forall (fun l => 0 <= l <= armax) lags ->
  exists X', set_lags lags armax T g row dd X = Ok (X', row + Z.of_nat (length lags) * g) /\ turns X (el X') X' /\
    (forall t b, inside X t b -> b < row \/ row + Z.of_nat (length lags) * g <= b -> el X' t b = el X t b) /\
    (forall t c i l, 0 <= t < T -> nth_error lags c = Some l -> 0 <= i < g -> el X' t (row + Z.of_nat c * g + i) = el dd i (armax - l + t)).
Proof.
  intros Wd HT G1 NR HC. induction lags as [|l lags IH]; intros row X W NX R0 HR F.
  - exists X. cbn [set_lags length]. split; [f_equal; f_equal; lia|]. split; [apply turns_id; auto|]. split; auto. intros t c i l _ H. destruct c; discriminate.
  - inversion F as [|? ? Fl F']; subst. cbn [length] in HR. cbn [set_lags]. set (g := nrows dd) in *.
    destruct (block_ok_t X dd 0 row 0 (armax - l) (nrows X) g) as (X1 & E1 & B1); auto; try lia. rewrite E1. cbn [bind].
    assert (W1 := turns_ok _ _ _ W B1). assert (NR1 := turns_nrows _ _ _ B1). assert (NC1 := turns_ncols _ _ _ B1).
    destruct (IH (row + g) X1) as (X2 & E2 & B2 & K & R); auto; try lia. exists X2. rewrite E2. split; [f_equal; f_equal; cbn [length]; lia|]. split; [eapply turns_trans; eauto|].
    split.
    + intros t b H1 H2. cbn [length] in H2. rewrite K by (try (eapply turns_inside; eauto); lia). rewrite (turns_el _ _ _ _ _ B1 H1). replace (in_block 0 row (nrows X) g t b) with false; auto. unfold in_block. lia.
    + intros t c i l' Ht Hc Hi. destruct c as [|c].
      * injection Hc as <-. replace (row + Z.of_nat 0 * g + i) with (row + i) by lia. assert (IN : inside X t (row + i)) by (split; lia).
        rewrite K by (try (eapply turns_inside; eauto); lia). rewrite (turns_el _ _ _ _ _ B1 IN). replace (in_block 0 row (nrows X) g t (row + i)) with true by (unfold in_block; lia). f_equal; lia.
      * replace (row + Z.of_nat (S c) * g + i) with (row + g + Z.of_nat c * g + i) by lia. apply R; auto.
Qed.

Definition diff_of (z : vsizes) (dat : mat Qc) (i t : Z) : Qc := lag_sum (v_diff z) (el dat i) t.
Lemma ols_data_ok z dat work : mat_ok dat -> (1 <= length (v_diff z))%nat -> v_diff z = [1%Qc] \/ v_hasdiff z = true -> Z.of_nat (length (v_diff z)) - 1 <= ncols dat ->
  (v_hasdiff z = true -> nrows dat * (ncols dat - v_diffdeg z) <= Z.of_nat (length work)) ->
  exists dd, ols_data z dat work = Ok dd /\ mat_ok dd /\ nrows dd = nrows dat /\ ncols dd = ncols dat - v_diffdeg z /\
    forall i t, inside dd i t -> el dd i t = diff_of z dat i (t + v_diffdeg z).
Proof.
  intros W L1 HD HC LW. unfold ols_data, v_diffdeg, diff_of in *. destruct (Nat.eqb_spec (length (v_diff z)) 0); [lia|]. destruct (v_hasdiff z) eqn:EH.
  - specialize (LW eq_refl). destruct (difference_ok (v_diff z) dat (Mat (rows dat) (Z.to_nat (ncols dat - Z.of_nat (length (v_diff z)) + 1)) work)) as (S' & E & B); auto.
    + unfold mat_ok. cbn [rows cols data]. unfold nrows in LW. nia.
    + unfold ncols at 1. cbn [cols]. lia.
    + exists S'. split; auto. split; [eapply turns_ok; [|exact B]; unfold mat_ok; cbn [rows cols data]; unfold nrows in LW; nia|]. split; [apply (turns_nrows _ _ _ B)|]. split; [rewrite (turns_ncols _ _ _ B); unfold ncols at 1; cbn [cols]; lia|].
      intros i t H. rewrite (turns_el _ _ _ _ _ B) by (exact (proj1 (turns_inside _ _ _ _ _ B) H)). auto.
  - exists dat. destruct HD as [HD|HD]; [|discriminate]. rewrite HD. cbn [length]. split; auto. split; auto. split; auto. split; [lia|]. intros i t _. cbn [lag_sum]. replace (t + (Z.of_nat 1 - 1)) with t by lia. ring.
Qed.
Lemma ols_ok z0 dat exo se work sy sx :
  let z := ols_sizes z0 dat exo in let g := nrows dat in let T := v_T z - se in
  mat_ok dat -> (match exo with Some e => mat_ok e /\ v_armaxd z + T <= ncols e | None => True end) -> v_diff z0 = [1%Qc] \/ v_hasdiff z0 = true -> 0 <= se -> 1 <= T -> 1 <= g -> 1 <= v_params z ->
  Forall (fun l => 1 <= l <= v_armax z0) (v_arlags z0) ->
  (v_hasdiff z = true -> g * (ncols dat - v_diffdeg z) <= Z.of_nat (length work)) -> g * T <= Z.of_nat (length sy) -> T * v_mastart z <= Z.of_nat (length sx) ->
  exists y X, ols_arrays z0 dat exo se work sy sx = Ok (y, X) /\ nrows y = g /\ ncols y = T /\ nrows X = T /\ ncols X = v_mastart z /\
    (forall i t, 0 <= i < g -> 0 <= t < T -> el y i t = diff_of z dat i (v_armaxd z + t)) /\
    (forall c l i t, nth_error (v_arlags z0) c = Some l -> 0 <= i < g -> 0 <= t < T -> el X t (Z.of_nat c * g + i) = diff_of z dat i (v_armaxd z + t - l)) /\
    (forall e x t, exo = Some e -> 0 <= x < nrows e -> 0 <= t < T -> el X t (v_arlen z * g + x) = el e x (v_armaxd z + t)).
Proof.
  intros z g T W WE HD SE T1 G1 P1 FL LW LY LX. assert (L1 : (1 <= length (v_diff z))%nat). { destruct HD as [H|H]; [unfold z; cbn [ols_sizes v_diff]; rewrite H; cbn; lia|]. unfold v_hasdiff in H. unfold z. cbn [ols_sizes v_diff]. apply Nat.ltb_lt in H. lia. }
  assert (AM0 : 0 <= v_armax z).
  { unfold v_armax, last_lag, z. cbn [ols_sizes v_arlags]. destruct (Nat.eqb_spec (length (v_arlags z0)) 0) as [|NE]; [lia|].
    rewrite Forall_forall in FL. specialize (FL (nth (length (v_arlags z0) - 1) (v_arlags z0) 0)). assert (NI : (length (v_arlags z0) - 1 < length (v_arlags z0))%nat) by lia. specialize (FL (nth_In _ 0 NI)). lia. }
  assert (DD : v_diffdeg z = Z.of_nat (length (v_diff z)) - 1) by (unfold v_diffdeg; destruct (Nat.eqb_spec (length (v_diff z)) 0); lia).
  assert (TE : T = ncols dat - v_armax z - v_diffdeg z - se) by (unfold T, v_T, v_armaxd; cbn; lia).
  assert (ADE : v_armaxd z = v_armax z + v_diffdeg z) by reflexivity.
  assert (MS : v_mastart z = v_arlen z * g + v_exo z) by reflexivity.
  assert (EX0 : 0 <= v_exo z) by (unfold z; cbn [ols_sizes v_exo]; destruct exo; unfold nrows; lia).
  assert (AL0 : 0 <= v_arlen z) by (unfold v_arlen; lia).
  assert (AL : v_arlen z = Z.of_nat (length (v_arlags z0))) by reflexivity.
  destruct (ols_data_ok z dat work W L1 HD ltac:(lia) LW) as (dd & ED & WD & NRD & NCD & VD).
  unfold ols_arrays. fold z. change (v_eqs z) with g. fold T. destruct (Z.ltb_spec T 1); [lia|]. destruct (Z.ltb_spec g 1); [lia|]. destruct (Z.ltb_spec (v_params z) 1); [lia|]. cbn [orb]. rewrite ED. cbn [bind].
  assert (RD : Z.of_nat (rows dat) = g) by reflexivity.
  destruct (block_ok_n (Mat (rows dat) (Z.to_nat T) sy) dd 0 0 0 (v_armax z) g T) as (y & EY & BY); auto; try (unfold mat_ok, nrows, ncols in *; cbn [rows cols data]; nia).
  rewrite EY. cbn [bind].
  assert (NY : nrows y = g) by (rewrite (turns_nrows _ _ _ BY); reflexivity). assert (CY : ncols y = T) by (rewrite (turns_ncols _ _ _ BY); unfold ncols; cbn [cols]; lia).
  assert (VY : forall i t, 0 <= i < g -> 0 <= t < T -> el y i t = diff_of z dat i (v_armaxd z + t)).
  { intros i t Hi Ht. rewrite (turns_el _ _ _ _ _ BY) by (split; [unfold nrows; cbn [rows]; lia|unfold ncols; cbn [cols]; lia]). replace (in_block 0 0 g T i t) with true by (unfold in_block; lia). rewrite VD by (split; lia). f_equal; lia. }
  destruct (v_hasarexo z) eqn:HAE.
  - set (X0 := Mat (Z.to_nat T) (Z.to_nat (v_mastart z)) sx). assert (MS0 : 0 <= v_mastart z) by nia.
    assert (WX : mat_ok X0) by (unfold mat_ok, X0; cbn [rows cols data]; nia). assert (NX0 : nrows X0 = T) by (unfold X0, nrows; cbn [rows]; lia). assert (CX0 : ncols X0 = v_mastart z) by (unfold X0, ncols; cbn [cols]; lia).
    destruct (set_lags_ok (v_armax z) T g dd WD ltac:(lia) G1 ltac:(lia) ltac:(lia) (v_arlags z) 0 X0) as (X1 & E1 & B1 & K1 & R1); auto; try lia.
    { rewrite CX0. cbn [ols_sizes v_arlags z]. lia. }
    { unfold z. cbn [ols_sizes v_arlags]. eapply Forall_impl; [|exact FL]. cbn. intros a Ha. change (v_armax (ols_sizes z0 dat exo)) with (v_armax z0). lia. }
    rewrite E1. cbn [bind]. rewrite Z.add_0_l. change (Z.of_nat (length (v_arlags z))) with (v_arlen z) in *.
    assert (NX1 : nrows X1 = T) by (rewrite (turns_nrows _ _ _ B1); auto). assert (CX1 : ncols X1 = v_mastart z) by (rewrite (turns_ncols _ _ _ B1); auto). assert (W1 := turns_ok _ _ _ WX B1).
    assert (VL : forall c l i t, nth_error (v_arlags z0) c = Some l -> 0 <= i < g -> 0 <= t < T -> el X1 t (Z.of_nat c * g + i) = diff_of z dat i (v_armaxd z + t - l)).
    { intros c l i t Hc Hi Ht. rewrite <- (Z.add_0_l (Z.of_nat c * g)). rewrite (R1 t c i l) by auto.
      rewrite Forall_forall in FL. specialize (FL l (nth_error_In _ _ Hc)). change (v_armax z0) with (v_armax z) in FL. rewrite VD by (split; lia). f_equal; lia. }
    assert (CL : forall c l i, nth_error (v_arlags z0) c = Some l -> 0 <= i < g -> Z.of_nat c * g + i < v_arlen z * g) by (intros c l i Hc Hi; assert (c < length (v_arlags z0))%nat by (apply nth_error_Some; congruence); rewrite AL; nia).
    destruct exo as [e|].
    + destruct WE as (WE & HE). assert (EE : v_exo z = nrows e) by reflexivity. destruct (Z.eqb_spec (v_exo z) 0) as [E0|NE0].
      * cbn [bind]. exists y, X1. split; auto. repeat (split; auto). intros e' x t [= <-] Hx. lia.
      * destruct (block_ok_t X1 e 0 (v_arlen z * g) 0 (v_armaxd z) T (v_exo z)) as (X2 & E2 & B2); auto; try nia. rewrite E2. cbn [bind]. exists y, X2. split; auto. split; auto. split; auto. split; [rewrite (turns_nrows _ _ _ B2); auto|]. split; [rewrite (turns_ncols _ _ _ B2); auto|]. split; auto. split.
        -- intros c l i t Hc Hi Ht. assert (CC := CL c l i Hc Hi). rewrite (turns_el _ _ _ _ _ B2) by (split; nia). replace (in_block 0 (v_arlen z * g) T (v_exo z) t (Z.of_nat c * g + i)) with false by (unfold in_block; lia). apply VL; auto.
        -- intros e' x t [= <-] Hx Ht. rewrite (turns_el _ _ _ _ _ B2) by (split; lia). replace (in_block 0 (v_arlen z * g) T (v_exo z) t (v_arlen z * g + x)) with true by (unfold in_block; lia). f_equal; lia.
    + cbn [bind]. exists y, X1. split; auto. repeat (split; auto). intros e' x t [=].
  - assert (v_arlen z = 0 /\ v_exo z = 0) as (A0 & X0) by (unfold v_hasarexo in HAE; lia). eexists y, _. split; [reflexivity|]. split; auto. split; auto. split; [unfold nrows; cbn [rows]; lia|]. split; [unfold ncols; cbn [cols]; lia|]. split; auto. split.
    + intros c l i t Hc. exfalso. assert (c < length (v_arlags z0))%nat by (apply nth_error_Some; congruence). lia.
    + intros e x t -> Hx. exfalso. change (v_exo z) with (nrows e) in X0. lia.
Qed.

(** A lag larger than the last one: the read begins before the data. *)
Lemma set_sub_t0_ub (M S : mat Qc) r c sc nr nc : 1 <= nr -> 1 <= nc <= nrows S -> sc < 0 -> set_sub_t0 M r c S 0 sc nr nc = UB.
Proof.
  intros H1 H2 H3. unfold set_sub_t0, mwrites, grid. rewrite (zrange_cons 0 nr) by lia. cbn [flat_map]. rewrite (zrange_cons 0 nc) by lia. cbn [map app].
  cbn [writes]. unfold get0. rewrite rd_out; [reflexivity|]. unfold pos. nia.
Qed.
Lemma set_lags_ub armax T g dd : 1 <= T -> 1 <= g -> nrows dd = g -> mat_ok dd -> armax + T <= ncols dd -> forall lags row X, mat_ok X -> nrows X = T -> 0 <= row -> row + Z.of_nat (length lags) * g <= ncols X ->
  Forall (fun l => 0 <= l) lags -> Exists (fun l => armax < l) lags -> set_lags lags armax T g row dd X = UB.
Proof.
  intros HT HG NR WD HC. induction lags as [|l lags IH]; intros row X W NX R0 HR F HE; [inversion HE|]. cbn [set_lags length] in *. inversion F; subst.
  destruct (Z.ltb_spec armax l).
  - rewrite set_sub_t0_ub by lia. auto.
  - destruct (block_ok_t X dd 0 row 0 (armax - l) (nrows X) (nrows dd)) as (X1 & E1 & B1); auto; try lia. rewrite E1. cbn [bind]. apply IH; auto; try lia.
    + eapply turns_ok; eauto.
    + apply (turns_nrows _ _ _ B1).
    + rewrite (turns_ncols _ _ _ B1). lia.
    + inversion HE; subst; auto. lia.
Qed.
