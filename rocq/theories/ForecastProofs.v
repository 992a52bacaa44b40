(** Proofs: forecasts of VARMA. *)
From Verif Require Import ForecastModel ForecastSpec PolyProofs MatProofs MatProofs2 MatDotProofs MatProofs6 MPolyProofs VarmaProofs VarmaProofs3 VarmaProofs4.
From Coq Require Import Lia ZifyBool.
Local Open Scope Z_scope.

(** Sum over the rows s, s+1, ..., s+n-1. *)
Definition part (a f : Z -> Qc) (s n : Z) : Qc := qsum (map (fun b => a (s + b)%Z * f (s + b)%Z)%Qc (upto n)).
Lemma part_ext a f f' s n : (forall r, s <= r < s + n -> f r = f' r) -> part a f s n = part a f' s n.
Proof. intros H. unfold part. f_equal. apply map_ext_in. intros b Hb. unfold upto in Hb. apply in_map_iff in Hb. destruct Hb as (k & <- & Hk). apply in_seq in Hk. rewrite H by lia. auto. Qed.
Lemma part_app a f s n m : 0 <= n -> 0 <= m -> part a f s (n + m) = (part a f s n + part a f (s + n) m)%Qc.
Proof.
  intros Hn Hm. unfold part, upto. rewrite Z2Nat.inj_add by auto. rewrite seq_app, !map_app, qsum_app. f_equal. rewrite Nat.add_0_l.
  replace (Z.to_nat n) with (Z.to_nat n + 0)%nat at 1 by lia. rewrite !map_map. f_equal.
  assert (G : forall k, map (fun x => (a (s + Z.of_nat x)%Z * f (s + Z.of_nat x)%Z)%Qc) (seq (Z.to_nat n + k) (Z.to_nat m)) = map (fun x => (a (s + n + Z.of_nat x)%Z * f (s + n + Z.of_nat x)%Z)%Qc) (seq k (Z.to_nat m))).
  { induction (Z.to_nat m) as [|m' IH]; intros k; auto. cbn [seq map]. f_equal; [|replace (Datatypes.S (Z.to_nat n + k)) with (Z.to_nat n + Datatypes.S k)%nat by lia; apply IH]. replace (s + Z.of_nat (Z.to_nat n + k)) with (s + n + Z.of_nat k) by lia. auto. }
  apply G.
Qed.
Lemma part_0 a f s : part a f s 0 = 0%Qc. Proof. reflexivity. Qed.

(** [X'] is the vector [X] with new values in the rows s, ..., s+n-1. *)
Definition rows_set (X X' : mat Qc) (s n : Z) : Prop := turns X (el X') X' /\ forall r, 0 <= r < nrows X -> r < s \/ s + n <= r -> el X' r 0 = el X r 0.

Lemma x_lags_ok lim src base g : mat_ok src -> 1 <= g -> nrows src = g -> forall lags s X, mat_ok X -> ncols X = 1 -> 0 <= s -> s + Z.of_nat (length lags) * g <= nrows X ->
  Forall (fun l => 0 <= base - l /\ (lim = false -> base - l < ncols src)) lags -> (lim = true -> forall r, s <= r < s + Z.of_nat (length lags) * g -> el X r 0 = 0%Qc) ->
  exists X', x_lags lim lags src base g s X = Ok (X', s + Z.of_nat (length lags) * g) /\ rows_set X X' s (Z.of_nat (length lags) * g) /\
    forall a, part a (fun r => el X' r 0) s (Z.of_nat (length lags) * g) = lag_terms g a s lags (fun b l => if lim && (ncols src <=? base - l) then 0%Qc else el src b (base - l)).
Proof.
  intros WS G NR. induction lags as [|l lags IH]; intros s X W NC S0 HS F Z0.
  - exists X. cbn [x_lags length]. split; [f_equal; f_equal; lia|]. split; [split; auto; apply turns_id; auto|]. intros a. reflexivity.
  - apply Forall_cons_iff in F; destruct F as ((F1 & F2) & F'). cbn [length] in HS, Z0. cbn [x_lags].
    assert (LL : 0 <= Z.of_nat (length lags) * g) by nia. replace (Z.of_nat (Datatypes.S (length lags)) * g) with (g + Z.of_nat (length lags) * g) in HS, Z0 by lia.
    assert (X1S : exists X1, (if lim && (ncols src <=? base - l) then Ok X else set_sub0 X s 0 src 0 (base - l) g 1) = Ok X1 /\ turns X (fun r j => if (s <=? r) && (r <? s + g) then (if lim && (ncols src <=? base - l) then 0%Qc else el src (r - s) (base - l)) else el X r j) X1).
    { destruct (lim && (ncols src <=? base - l)) eqn:EL.
      - exists X. split; auto. eapply turns_ext; [apply turns_id; auto|]. intros i j (Hi & Hj). destruct ((s <=? i) && (i <? s + g)) eqn:E; auto. replace j with 0 by lia. apply Z0; [destruct lim; auto|lia].
      - destruct (block_ok_n X src s 0 0 (base - l) g 1) as (X1 & E1 & B1); auto; try lia.
        exists X1. split; auto. eapply turns_ext; [exact B1|]. intros i j (Hi & Hj). cbn beta. unfold in_block. replace ((s <=? i) && (i <? s + g) && (0 <=? j) && (j <? 0 + 1)) with ((s <=? i) && (i <? s + g)) by lia. destruct ((s <=? i) && (i <? s + g)); auto. f_equal; lia. }
    destruct X1S as (X1 & E1 & B1). rewrite E1. cbn [bind]. assert (W1 := turns_ok _ _ _ W B1). assert (NR1 := turns_nrows _ _ _ B1). assert (NC1 := turns_ncols _ _ _ B1).
    assert (V1 : forall r, 0 <= r < nrows X -> el X1 r 0 = if (s <=? r) && (r <? s + g) then (if lim && (ncols src <=? base - l) then 0%Qc else el src (r - s) (base - l)) else el X r 0).
    { intros r Hr. rewrite (turns_el _ _ _ _ _ B1) by (split; lia). auto. }
    destruct (IH (s + g) X1) as (X2 & E2 & (B2 & K2) & P2); auto; try lia.
    { intros EL r Hr. rewrite V1 by lia. replace ((s <=? r) && (r <? s + g)) with false by lia. apply Z0; auto; lia. }
    exists X2. rewrite E2. split; [f_equal; f_equal; cbn [length]; lia|]. split.
    + split; [eapply turns_trans; eauto|]. intros r Hr Hs. cbn [length] in Hs. rewrite K2 by lia. rewrite V1 by lia. replace ((s <=? r) && (r <? s + g)) with false by lia. auto.
    + intros a. cbn [length lag_terms]. replace (Z.of_nat (Datatypes.S (length lags)) * g) with (g + Z.of_nat (length lags) * g) by lia. rewrite part_app by lia. rewrite P2. f_equal.
      unfold part. f_equal. apply map_ext_in. intros b Hb. unfold upto in Hb. apply in_map_iff in Hb. destruct Hb as (k & <- & Hk). apply in_seq in Hk.
      rewrite K2 by lia. rewrite V1 by lia. replace ((s <=? s + Z.of_nat k) && (s + Z.of_nat k <? s + g)) with true by lia. replace (s + Z.of_nat k - s) with (Z.of_nat k) by lia. auto.
Qed.

Lemma dot0_vec (M B S : mat Qc) : mat_ok M -> mat_ok B -> mat_ok S -> ncols M = nrows B -> nrows S = nrows M -> ncols S = 1 -> ncols B = 1 -> 0 < nrows M -> 0 < ncols M ->
  exists S', dot0 M B S 1 0 = Ok S' /\ turns S (fun i j => part (el M i) (fun r => el B r 0) 0 (ncols M)) S'.
Proof.
  intros WM WB WS H1 H2 H3 H4 H5 H6. destruct (dot_ok M B S 1 0) as (S' & E & BC); auto; try lia. exists S'. split.
  - rewrite <- E. unfold dot0, dot. replace (ncols M =? nrows B) with true by lia. replace (nrows M =? nrows S) with true by lia. replace (ncols B =? ncols S) with true by lia. reflexivity.
  - eapply becomes_ext; [exact BC|]. intros i j (Hi & Hj). unfold scaled. f_equal. unfold part, product. replace j with 0 by lia. cbn [Z.add]. ring.
Qed.

Lemma hasar_false z : v_hasar z = false -> v_arlags z = [].
Proof. unfold v_hasar, v_arlen. destruct (v_arlags z); auto. cbn. discriminate. Qed.
Lemma hasma_false z : v_hasma z = false -> v_malags z = [].
Proof. unfold v_hasma, v_malen. destruct (v_malags z); auto. cbn. discriminate. Qed.
(** Value of the exogenous variables. *)
Definition xel (exo : option (mat Qc)) (c t : Z) : Qc := match exo with Some e => el e c t | None => 0%Qc end.
Definition past (resid : mat Qc) (b t : Z) : Qc := if ncols resid <=? t then 0%Qc else el resid b t.

Lemma xtprime_ok (X F resid : mat Qc) fRow xi ri exo z : let g := v_eqs z in
  mat_ok X -> mat_ok F -> mat_ok resid -> ncols X = 1 -> nrows X = v_paramseq z -> 1 <= g -> nrows F = g -> nrows resid = g -> 0 <= v_exo z ->
  (0 < v_exo z -> exists e, exo = Some e /\ mat_ok e /\ nrows e = v_exo z /\ 0 <= xi + fRow < ncols e) ->
  Forall (fun l => 0 <= fRow - l < ncols F) (v_arlags z) -> Forall (fun l => 0 <= ri + fRow - l) (v_malags z) ->
  exists X', xtprime X F resid fRow xi ri exo z = Ok X' /\ turns X (el X') X' /\
    forall a, part a (fun r => el X' r 0) 0 (v_paramseq z) =
      (lag_terms g a 0 (v_arlags z) (fun b l => el F b (fRow - l)) + qsum (map (fun c => a (v_arlen z * g + c)%Z * xel exo c (xi + fRow))%Qc (upto (v_exo z))) +
       lag_terms g a (v_arlen z * g + v_exo z) (v_malags z) (fun b l => past resid b (ri + fRow - l)))%Qc.
Proof.
  intros g W WF WR NC NR G NF NRs E0 HE FA FM. unfold xtprime.
  destruct (set_value_ok X 0 W) as (X0 & -> & B0). cbn [bind]. change (turns X (fun _ _ => 0%Qc) X0) in B0.
  assert (W0 := turns_ok _ _ _ W B0). assert (NR0 := turns_nrows _ _ _ B0). assert (NC0 := turns_ncols _ _ _ B0).
  assert (V0 : forall r, 0 <= r < nrows X -> el X0 r 0 = 0%Qc) by (intros r Hr; rewrite (turns_el _ _ _ _ _ B0); auto; split; lia).
  assert (LA : 0 <= v_arlen z * g) by (unfold v_arlen; nia). assert (LM : 0 <= v_malen z * g) by (unfold v_malen; nia).
  assert (EK : v_paramseq z = v_arlen z * g + (v_exo z + v_malen z * g)) by (unfold v_paramseq, v_mastart; fold g; ring).
  assert (S1 : exists X1, (if v_hasar z then x_lags false (v_arlags z) F fRow (nrows F) 0 X0 else Ok (X0, 0)) = Ok (X1, v_arlen z * g) /\ rows_set X0 X1 0 (v_arlen z * g) /\
     forall a, part a (fun r => el X1 r 0) 0 (v_arlen z * g) = lag_terms g a 0 (v_arlags z) (fun b l => el F b (fRow - l))).
  { destruct (v_hasar z) eqn:EA.
    - rewrite NF. destruct (x_lags_ok false F fRow g WF G NF (v_arlags z) 0 X0) as (X1 & E1 & R1 & P1); auto; try lia.
      + change (Z.of_nat (length (v_arlags z))) with (v_arlen z). lia.
      + eapply Forall_impl; [|exact FA]. cbn. intros l Hl. lia.
      + exists X1. split; [exact E1|]. split; auto.
    - apply hasar_false in EA. exists X0. unfold v_arlen in *. rewrite EA. cbn. split; auto. split; [split; auto; apply turns_id; auto|]. auto. }
  destruct S1 as (X1 & E1 & (B1 & K1) & P1). rewrite E1. cbn [bind].
  assert (W1 := turns_ok _ _ _ W0 B1). assert (NR1 := turns_nrows _ _ _ B1). assert (NC1 := turns_ncols _ _ _ B1).
  set (n := v_arlen z * g) in *.
  assert (S2 : exists X2, (if 0 <? v_exo z then match exo with Some e => do X <- set_sub0 X1 n 0 e 0 (xi + fRow) (nrows e) 1; Ok (X, n + nrows e) | None => UB end else Ok (X1, n)) = Ok (X2, n + v_exo z) /\
     rows_set X1 X2 n (v_exo z) /\ forall r, 0 <= r < v_exo z -> el X2 (n + r) 0 = xel exo r (xi + fRow)).
  { destruct (Z.ltb_spec 0 (v_exo z)) as [L|L].
    - destruct (HE L) as (e & -> & We & Ne & Ce). destruct (block_ok_n X1 e n 0 0 (xi + fRow) (nrows e) 1) as (X2 & E2 & B2); auto; try lia. rewrite E2. cbn [bind]. exists X2. split; [rewrite Ne; auto|].
      assert (V2 : forall r, 0 <= r < nrows X1 -> el X2 r 0 = if (n <=? r) && (r <? n + nrows e) then el e (r - n) (xi + fRow) else el X1 r 0).
      { intros r Hr. rewrite (turns_el _ _ _ _ _ B2) by (split; lia). unfold in_block. replace ((n <=? r) && (r <? n + nrows e) && (0 <=? 0) && (0 <? 0 + 1)) with ((n <=? r) && (r <? n + nrows e)) by lia. destruct ((n <=? r) && (r <? n + nrows e)); auto. f_equal; lia. }
      split.
      + split; [eapply turns_ext; [exact B2|]; intros i j H; symmetry; apply (turns_el _ _ _ _ _ B2 H)|]. intros r Hr Hs. rewrite V2 by lia. replace ((n <=? r) && (r <? n + nrows e)) with false by lia. auto.
      + intros r Hr. rewrite V2 by lia. replace ((n <=? n + r) && (n + r <? n + nrows e)) with true by lia. cbn [xel]. f_equal; lia.
    - exists X1. split; [f_equal; f_equal; lia|]. split; [split; auto; apply turns_id; auto|]. intros r Hr. lia. }
  destruct S2 as (X2 & E2 & (B2 & K2) & P2). rewrite E2. cbn [bind].
  assert (W2 := turns_ok _ _ _ W1 B2). assert (NR2 := turns_nrows _ _ _ B2). assert (NC2 := turns_ncols _ _ _ B2).
  assert (V2 : forall r, n + v_exo z <= r < nrows X -> el X2 r 0 = 0%Qc) by (intros r Hr; rewrite K2 by lia; rewrite K1 by lia; apply V0; lia).
  assert (S3 : exists X3 q, (if v_hasma z then x_lags true (v_malags z) resid (ri + fRow) (nrows F) (n + v_exo z) X2 else Ok (X2, n + v_exo z)) = Ok (X3, q) /\ rows_set X2 X3 (n + v_exo z) (v_malen z * g) /\
     forall a, part a (fun r => el X3 r 0) (n + v_exo z) (v_malen z * g) = lag_terms g a (n + v_exo z) (v_malags z) (fun b l => past resid b (ri + fRow - l))).
  { destruct (v_hasma z) eqn:EA.
    - rewrite NF. destruct (x_lags_ok true resid (ri + fRow) g WR G NRs (v_malags z) (n + v_exo z) X2) as (X3 & E3 & R3 & P3); auto; try lia.
      + change (Z.of_nat (length (v_malags z))) with (v_malen z). lia.
      + eapply Forall_impl; [|exact FM]. cbn. intros l Hl. split; [lia|discriminate].
      + intros _ r Hr. apply V2. change (Z.of_nat (length (v_malags z))) with (v_malen z) in Hr. lia.
      + exists X3. eexists. split; [exact E3|]. split; [exact R3|]. intros a. exact (P3 a).
    - apply hasma_false in EA. exists X2. eexists. split; [reflexivity|]. unfold v_malen in *. rewrite EA. cbn. split; [split; auto; apply turns_id; auto|]. auto. }
  destruct S3 as (X3 & q & E3 & (B3 & K3) & P3). rewrite E3. cbn [bind fst]. exists X3. split; auto. split; [eapply turns_trans; [exact B0|]; eapply turns_trans; [exact B1|]; eapply turns_trans; eauto|].
  intros a. rewrite EK, part_app by lia. rewrite part_app by lia. cbn [Z.add]. rewrite P3. replace (0 + n) with n by lia.
  rewrite (part_ext a (fun r => el X3 r 0) (fun r => el X1 r 0) 0 n), P1 by (intros r Hr; rewrite K3 by lia; apply K2; lia).
  assert (EX : part a (fun r => el X3 r 0) n (v_exo z) = qsum (map (fun c => (a (n + c)%Z * xel exo c (xi + fRow))%Qc) (upto (v_exo z)))).
  { unfold part. f_equal. apply map_ext_in. intros c Hc. unfold upto in Hc. apply in_map_iff in Hc. destruct Hc as (k & <- & Hk). apply in_seq in Hk. rewrite K3 by lia. rewrite P2 by lia. auto. }
  rewrite EX. ring.
Qed.

Lemma lag_terms_ext g a lags v v' : forall s, (forall b l, 0 <= b < g -> In l lags -> v b l = v' b l) -> lag_terms g a s lags v = lag_terms g a s lags v'.
Proof.
  induction lags as [|l lags IH]; intros s H; auto. cbn [lag_terms]. rewrite (IH (s + g)) by (intros; apply H; auto; right; auto). f_equal. f_equal. apply map_ext_in. intros b Hb.
  unfold upto in Hb. apply in_map_iff in Hb. destruct Hb as (k & <- & Hk). apply in_seq in Hk. rewrite H; auto; [lia|left; auto].
Qed.
Lemma start_cols_ok g diffl su sy U y : mat_ok U -> mat_ok y -> nrows U = g -> nrows y = g -> forall n a F, mat_ok F -> nrows F = g -> 0 <= a -> a + Z.of_nat n <= ncols F ->
  (forall j, a <= j < a + Z.of_nat n -> if j <? diffl then 0 <= su + j < ncols U else 0 <= sy + j < ncols y) ->
  exists F', start_cols (zrange a (Z.of_nat n)) g diffl su sy U y F = Ok F' /\
    turns F (fun i j => if (a <=? j) && (j <? a + Z.of_nat n) then (if j <? diffl then el U i (su + j) else el y i (sy + j)) else el F i j) F'.
Proof.
  intros WU Wy NU Ny. induction n as [|n IH]; intros a F W NF A0 AN H.
  - exists F. change (zrange a (Z.of_nat 0)) with (@nil Z). split; auto. eapply turns_ext; [apply turns_id; auto|]. intros i j _. replace ((a <=? j) && (j <? a + Z.of_nat 0)) with false by lia. auto.
  - replace (zrange a (Z.of_nat (Datatypes.S n))) with (a :: zrange (a + 1) (Z.of_nat n)) by (symmetry; rewrite zrange_cons by lia; f_equal; f_equal; lia). cbn [start_cols].
    assert (S1 : exists F1, (if a <? diffl then set_sub0 F 0 a U 0 (su + a) g 1 else set_sub0 F 0 a y 0 (sy + a) g 1) = Ok F1 /\ turns F (fun i j => if j =? a then (if a <? diffl then el U i (su + a) else el y i (sy + a)) else el F i j) F1).
    { specialize (H a ltac:(lia)). destruct (a <? diffl).
      - destruct (block_ok_n F U 0 a 0 (su + a) g 1) as (F1 & E1 & B1); auto; try lia. exists F1. split; auto. eapply turns_ext; [exact B1|]. intros i j (Hi & Hj). cbn beta. unfold in_block. replace ((0 <=? i) && (i <? 0 + g) && (a <=? j) && (j <? a + 1)) with (j =? a) by lia. destruct (Z.eqb_spec j a); auto. f_equal; lia.
      - destruct (block_ok_n F y 0 a 0 (sy + a) g 1) as (F1 & E1 & B1); auto; try lia. exists F1. split; auto. eapply turns_ext; [exact B1|]. intros i j (Hi & Hj). cbn beta. unfold in_block. replace ((0 <=? i) && (i <? 0 + g) && (a <=? j) && (j <? a + 1)) with (j =? a) by lia. destruct (Z.eqb_spec j a); auto. f_equal; lia. }
    destruct S1 as (F1 & E1 & B1). rewrite E1. cbn [bind]. assert (NF1 := turns_nrows _ _ _ B1). assert (NC1 := turns_ncols _ _ _ B1).
    destruct (IH (a + 1) F1) as (F' & E & B); try lia; [eapply turns_ok; eauto|intros j Hj; apply H; lia|]. exists F'. split; auto. eapply turns_ext; [eapply turns_trans; eauto|]. intros i j HI. cbn beta.
    rewrite (turns_el _ _ _ _ _ B1 HI). destruct (Z.eqb_spec j a) as [-> |NE].
    + replace ((a + 1 <=? a) && (a <? a + 1 + Z.of_nat n)) with false by lia. replace ((a <=? a) && (a <? a + Z.of_nat (Datatypes.S n))) with true by lia. auto.
    + replace ((a + 1 <=? j) && (j <? a + 1 + Z.of_nat n)) with ((a <=? j) && (j <? a + Z.of_nat (Datatypes.S n))) by lia. auto.
Qed.
Lemma set_col_ok (F v : mat Qc) i : mat_ok F -> mat_ok v -> nrows v = nrows F -> ncols v = 1 -> 0 <= i < ncols F ->
  exists F', set_column F i v = Ok F' /\ turns F (fun r j => if j =? i then el v r 0 else el F r j) F'.
Proof.
  intros W Wv NV NC Hi. unfold set_column. replace (bad (ncols F) i) with false by (unfold bad; lia).
  destruct (line_ok F (nrows F) (fun r => r) (fun _ => i) (fun r => rd (data v) r) (fun _ j => j =? i) (fun r j => Some (el v r 0))) as (F' & E & B); auto.
  - intros t Ht. split; [split; lia|]. split; [lia|]. exists (el v t 0). split; auto. replace t with (pos v t 0) at 1 by (unfold pos; lia). apply el_get0; auto. split; lia.
  - intros r j HI HJ. exists r. destruct HI. lia.
  - exists F'. split; [exact E|]. eapply becomes_ext; [exact B|]. cbn beta. intros r j HI. destruct (j =? i); auto. apply entry_el; auto.
Qed.
Lemma next_cols_ok coef resid xi ri exo z : let g := v_eqs z in mat_ok coef -> mat_ok resid -> nrows coef = g -> ncols coef = v_paramseq z -> 1 <= v_paramseq z -> 1 <= g -> nrows resid = g -> 0 <= v_exo z ->
  forall n a X yh F, mat_ok X -> ncols X = 1 -> nrows X = v_paramseq z -> mat_ok yh -> nrows yh = g -> ncols yh = 1 -> mat_ok F -> nrows F = g -> 0 <= a -> a + Z.of_nat n <= ncols F ->
  (0 < v_exo z -> exists e, exo = Some e /\ mat_ok e /\ nrows e = v_exo z /\ 0 <= xi + a /\ xi + a + Z.of_nat n <= ncols e) ->
  Forall (fun l => 1 <= l <= a) (v_arlags z) -> Forall (fun l => 0 <= ri + a - l) (v_malags z) ->
  exists F', next_cols (zrange a (Z.of_nat n)) coef resid xi ri exo z X yh F = Ok F' /\ turns F (el F') F' /\
    (forall i j, inside F i j -> j < a \/ a + Z.of_nat n <= j -> el F' i j = el F i j) /\
    (forall i j, 0 <= i < g -> a <= j < a + Z.of_nat n -> el F' i j =
      (lag_terms g (el coef i) 0 (v_arlags z) (fun b l => el F' b (j - l)) + qsum (map (fun c => el coef i (v_arlen z * g + c)%Z * xel exo c (xi + j))%Qc (upto (v_exo z))) +
       lag_terms g (el coef i) (v_arlen z * g + v_exo z) (v_malags z) (fun b l => past resid b (ri + j - l)))%Qc).
Proof.
  intros g Wc WR NRc NCc K1 G NRr E0. induction n as [|n IH]; intros a X yh F WX CX RX Wy Ry Cy WF RF A0 AN HE FA FM.
  - exists F. change (zrange a (Z.of_nat 0)) with (@nil Z). split; auto. split; [apply turns_id; auto|]. split; auto. intros; lia.
  - replace (zrange a (Z.of_nat (Datatypes.S n))) with (a :: zrange (a + 1) (Z.of_nat n)) by (symmetry; rewrite zrange_cons by lia; f_equal; f_equal; lia). cbn [next_cols].
    destruct (xtprime_ok X F resid a xi ri exo z) as (X1 & EX & BX & PX); auto.
    { intros L. destruct (HE L) as (e & H1 & H2 & H3 & H4 & H5). exists e. repeat (split; auto). lia. }
    { eapply Forall_impl; [|exact FA]. cbn. lia. }
    rewrite EX. cbn [bind]. assert (WX1 := turns_ok _ _ _ WX BX). assert (NX1 := turns_nrows _ _ _ BX). assert (CX1 := turns_ncols _ _ _ BX).
    destruct (dot0_vec coef X1 yh) as (yh1 & EY & BY); auto; try lia. rewrite EY. cbn [bind]. assert (WY1 := turns_ok _ _ _ Wy BY). assert (NY1 := turns_nrows _ _ _ BY). assert (CY1 := turns_ncols _ _ _ BY).
    destruct (set_col_ok F yh1 a) as (F1 & EF & BF); auto; try lia. rewrite EF. cbn [bind]. assert (WF1 := turns_ok _ _ _ WF BF). assert (NF1 := turns_nrows _ _ _ BF). assert (CF1 := turns_ncols _ _ _ BF).
    destruct (IH (a + 1) X1 yh1 F1) as (F' & E & B & KK & R); auto; try lia.
    { intros L. destruct (HE L) as (e & H1 & H2 & H3 & H4 & H5). exists e. repeat (split; auto); lia. }
    { eapply Forall_impl; [|exact FA]. cbn. lia. }
    { eapply Forall_impl; [|exact FM]. cbn. lia. }
    exists F'. split; auto. split; [eapply turns_trans; eauto|].
    assert (KF : forall i j, inside F i j -> j < a + 1 -> el F' i j = if j =? a then el yh1 i 0 else el F i j).
    { intros i j HI HJ. rewrite KK; [|eapply turns_inside; eauto|lia]. apply (turns_el _ _ _ _ _ BF HI). }
    split.
    + intros i j HI HJ. rewrite KK; [|eapply turns_inside; eauto|lia]. rewrite (turns_el _ _ _ _ _ BF HI). destruct (Z.eqb_spec j a); [lia|auto].
    + intros i j Hi Hj. destruct (Z.eq_dec j a) as [-> |NE]; [|apply R; lia].
      rewrite KF by (try split; lia). rewrite Z.eqb_refl. rewrite (turns_el _ _ _ _ _ BY) by (split; lia). cbn beta. rewrite NCc, PX. fold g.
      rewrite (lag_terms_ext g (el coef i) (v_arlags z) (fun b l => el F b (a - l)) (fun b l => el F' b (a - l))); auto.
      intros b l Hb Hl. rewrite Forall_forall in FA. specialize (FA l Hl). rewrite KF by (try split; lia). destruct (Z.eqb_spec (a - l) a); [lia|auto].
Qed.

(** Undifferencing the differences of a series gives the series back. *)
Lemma undo_differences (c : list Qc) (S S' : mat Qc) (w : series) i m : (1 <= length c)%nat -> hd 0%Qc c = 1%Qc -> m <= ncols S -> 0 <= i < nrows S ->
  let h := Z.of_nat (length c) - 1 in
  (forall j, inside S i j -> j < h -> el S' i j = el S i j) -> (forall j, inside S i j -> h <= j -> el S' i j = (el S i j - lag_sum (tl c) (el S' i) (j - 1))%Qc) ->
  (forall j, 0 <= j < m -> el S i j = if j <? h then w j else lag_sum c w j) -> forall j, 0 <= j < m -> el S' i j = w j.
Proof.
  intros LC H1 HM Hi h K R HV. assert (G : forall n j, Z.of_nat n = j + 1 -> 0 <= j < m -> forall u, 0 <= u <= j -> el S' i u = w u).
  { induction n as [|n IH]; intros j En Hj u Hu; [lia|]. destruct (Z.eq_dec u j) as [-> |NE]; [|apply (IH (j - 1)); lia].
    assert (IN : inside S i j) by (split; lia). specialize (HV j Hj). destruct (Z.ltb_spec j h) as [L|L]; [rewrite K; auto|]. rewrite R by auto. rewrite HV. destruct c as [|x c]; [cbn in LC; lia|]. cbn [hd] in H1. subst x. cbn [tl lag_sum].
    rewrite (lag_sum_ext_below c (el S' i) w); [ring|]. intros v Hv. unfold h in L. cbn [length] in L. apply (IH (j - 1)); lia. }
  intros j Hj. apply (G (Z.to_nat (j + 1)) j); lia.
Qed.
Lemma lag_sum_shift c f t k : lag_sum c (fun u => f (u + k)%Z) t = lag_sum c f (t + k).
Proof. revert t. induction c as [|x c IH]; intros t; auto. cbn [lag_sum]. rewrite IH. replace (t - 1 + k) with (t + k - 1) by lia. auto. Qed.

Lemma piece_mat (w : list Qc) p n : 0 <= p -> 0 <= n -> p + n <= Z.of_nat (length w) -> mat_ok (Mat (Z.to_nat n) 1 (piece w p n)).
Proof. intros H1 H2 H3. unfold mat_ok, piece. cbn [rows cols data]. rewrite firstn_length, skipn_length. lia. Qed.

(** The forecasts when the series [dat] was differenced to y. [xi] is the exogenous column at column 0 of the result. *)
Lemma forecast_ok mh e exo dat storage work horizon (isnew : bool) coef :
  let z := e_sizes e in let g := v_eqs z in let h := if horizon =? -1 then mh else horizon in let T := v_T z - e_end e in let m := v_armaxd z in
  let ri := T - m in let xi := if isnew then - m else T in
  e_coef e = Some coef -> mat_ok coef -> nrows coef = g -> ncols coef = v_paramseq z -> 1 <= v_paramseq z -> 1 <= g -> 0 <= v_exo z -> 0 <= e_end e ->
  mat_ok dat -> nrows dat = g -> ncols dat = v_obs z -> v_diff z = [1%Qc] \/ v_hasdiff z = true -> hd 0%Qc (v_diff z) = 1%Qc ->
  mat_ok (e_y e) -> nrows (e_y e) = g -> ncols (e_y e) = T -> (forall i t, 0 <= i < g -> 0 <= t < T -> el (e_y e) i t = lag_sum (v_diff z) (el dat i) (m + t)) ->
  mat_ok (e_resid e) -> nrows (e_resid e) = g ->
  horizon = -1 \/ horizon <= mh -> 0 <= h -> 1 <= T -> v_armax z <= T -> (isnew = false -> m <= T) -> 0 <= v_armax z ->
  (v_exo z <> 0 -> exists x, exo = Some x /\ mat_ok x /\ nrows x = v_exo z /\ xi + h + m <= ncols x) ->
  Forall (fun l => 1 <= l <= v_armax z) (v_arlags z) -> Forall (fun l => 1 <= l <= T) (v_malags z) ->
  g * (h + m) <= Z.of_nat (length storage) -> v_paramseq z + g <= Z.of_nat (length work) ->
  exists F, forecast mh e exo (Some dat) storage work horizon isnew = Ok F /\ nrows F = g /\ ncols F = h + m /\
    (forall i j, 0 <= i < g -> 0 <= j < m -> el F i j = el dat i (T + j)) /\
    (forall i j, 0 <= i < g -> m <= j < h + m -> lag_sum (v_diff z) (el F i) j =
      varma_equation g (v_exo z) (v_arlags z) (v_malags z) (el coef i) (fun b t => lag_sum (v_diff z) (el F b) t) (fun c t => xel exo c (xi + t)%Z) (fun b t => past (e_resid e) b (ri + t)%Z) j).
Proof.
  intros z g h T m ri xi EC Wc NRc NCc K1 G E0 SE0 Wd NRd NCd HD H1 Wy NRy NCy VY Wr NRr HH H0 T1 AT MT A0 HE FA FM LS LW. unfold forecast. fold z.
  replace (negb (horizon =? -1) && (mh <? horizon)) with false by lia. fold h g T m ri xi.
  replace (negb isnew && (ri <? 0)) with false by (destruct isnew; auto; specialize (MT eq_refl); unfold ri; lia).
  assert (C2 : negb isnew && negb (v_exo z =? 0) && match exo with Some x => ncols x <? xi + (h + m) | None => true end = false).
  { destruct isnew; auto. destruct (Z.eqb_spec (v_exo z) 0) as [|N]; auto. destruct (HE N) as (x & -> & _ & _ & L). cbn [negb andb]. lia. }
  rewrite C2. rewrite EC.
  assert (DD : 0 <= v_diffdeg z) by (unfold v_diffdeg; destruct (Nat.eqb_spec (length (v_diff z)) 0); lia). assert (EM : m = v_armax z + v_diffdeg z) by reflexivity. assert (M0 : 0 <= m) by lia.
  assert (ET : T + m + e_end e = v_obs z) by (unfold T, v_T, m; lia).
  set (F0 := Mat (Z.to_nat g) (Z.to_nat (h + m)) storage). assert (WF0 : mat_ok F0) by (unfold mat_ok, F0; cbn [rows cols data]; nia). assert (NF0 : nrows F0 = g) by (unfold nrows, F0; cbn [rows]; lia). assert (CF0 : ncols F0 = h + m) by (unfold ncols, F0; cbn [cols]; lia).
  replace (zrange 0 m) with (zrange 0 (Z.of_nat (Z.to_nat m))) by (f_equal; lia).
  destruct (start_cols_ok g (v_diffdeg z) (ncols dat - e_end e - m) ri dat (e_y e) Wd Wy NRd NRy (Z.to_nat m) 0 F0 WF0 NF0) as (F1 & E1 & B1); try lia.
  { intros j Hj. destruct (Z.ltb_spec j (v_diffdeg z)); unfold ri; lia. }
  rewrite E1. cbn [bind]. assert (WF1 := turns_ok _ _ _ WF0 B1). assert (NF1 := turns_nrows _ _ _ B1). assert (CF1 := turns_ncols _ _ _ B1).
  replace (zrange m (ncols F1 - m)) with (zrange m (Z.of_nat (Z.to_nat h))) by (f_equal; lia).
  set (X0 := Mat (Z.to_nat (v_paramseq z)) 1 (piece work 0 (v_paramseq z))). set (Y0 := Mat (Z.to_nat g) 1 (piece work (v_paramseq z) g)).
  assert (WX : mat_ok X0) by (apply piece_mat; lia). assert (WY : mat_ok Y0) by (apply piece_mat; lia).
  destruct (next_cols_ok coef (e_resid e) xi ri exo z Wc Wr NRc NCc K1 G NRr E0 (Z.to_nat h) m X0 Y0 F1) as (F2 & E2 & B2 & KK & R); auto; try lia.
  { unfold nrows, X0. cbn [rows]. lia. } 
  { intros L. destruct (HE ltac:(lia)) as (x & -> & Wx & Nx & Lx). exists x. repeat (split; auto); unfold xi in *; destruct isnew; lia. }
  { eapply Forall_impl; [|exact FA]. cbn. lia. } { eapply Forall_impl; [|exact FM]. cbn. unfold ri. lia. }
  fold g in R. rewrite E2. cbn [bind]. assert (WF2 := turns_ok _ _ _ WF1 B2). assert (NF2 := turns_nrows _ _ _ B2). assert (CF2 := turns_ncols _ _ _ B2).
  assert (V2 : forall i j, 0 <= i < g -> 0 <= j < m -> el F2 i j = if j <? v_diffdeg z then el dat i (T + j) else lag_sum (v_diff z) (el dat i) (T + j)).
  { intros i j Hi Hj. rewrite KK by (try split; lia). rewrite (turns_el _ _ _ _ _ B1) by (split; lia). cbn beta. replace ((0 <=? j) && (j <? 0 + Z.of_nat (Z.to_nat m))) with true by lia.
    destruct (Z.ltb_spec j (v_diffdeg z)); [f_equal; lia|]. unfold ri. rewrite VY by lia. f_equal; lia. }
  assert (SUM : forall F, (forall i j, 0 <= i < g -> v_diffdeg z <= j < h + m -> lag_sum (v_diff z) (el F i) j = el F2 i j) ->
     forall i j, 0 <= i < g -> m <= j < h + m -> lag_sum (v_diff z) (el F i) j =
      varma_equation g (v_exo z) (v_arlags z) (v_malags z) (el coef i) (fun b t => lag_sum (v_diff z) (el F b) t) (fun c t => xel exo c (xi + t)%Z) (fun b t => past (e_resid e) b (ri + t)%Z) j).
  { intros F HF i j Hi Hj. rewrite HF by lia. rewrite R by lia. unfold varma_equation. fold (v_arlen z). f_equal; [f_equal|].
    - apply lag_terms_ext. intros b l Hb Hl. rewrite Forall_forall in FA. specialize (FA l Hl). rewrite HF by lia. auto.
    - apply lag_terms_ext. intros b l Hb Hl. f_equal; lia. }
  destruct (v_hasdiff z) eqn:EH.
  - assert (LC : (1 <= length (v_diff z))%nat) by (unfold v_hasdiff in EH; destruct (v_diff z); [discriminate|cbn; lia]).
    assert (EDg : Z.of_nat (length (v_diff z)) - 1 = v_diffdeg z) by (unfold v_diffdeg; destruct (Nat.eqb_spec (length (v_diff z)) 0); lia).
    destruct (undifference_ok (v_diff z) F2 WF2 LC) as (F & E & B & K & RU). rewrite EDg in K, RU. exists F. split; [exact E|]. rewrite (turns_nrows _ _ _ B), (turns_ncols _ _ _ B). split; [lia|]. split; [lia|]. split.
    + intros i j Hi Hj. apply (undo_differences (v_diff z) F2 F (fun u => el dat i (T + u)) i m); auto; try lia; rewrite ?EDg.
      * intros u HU HL. apply K; auto.
      * intros u HU HL. apply RU; auto.
      * intros u HU. rewrite V2 by auto. destruct (u <? v_diffdeg z); auto. rewrite Z.add_comm, <- (lag_sum_shift (v_diff z) (el dat i) u T).
        clear. revert u. induction (v_diff z) as [|x c IH]; intros u; auto. cbn [lag_sum]. rewrite IH. f_equal. f_equal. f_equal. lia.
    + apply SUM. intros i j Hi Hj. assert (IN : inside F2 i j) by (split; lia). destruct (v_diff z) as [|x c]; [cbn in LC; lia|]. cbn [hd] in H1. subst x. cbn [lag_sum tl] in *. rewrite (RU i j IN) by lia. ring.
  - destruct HD as [HD|HD]; [|congruence]. assert (ED : v_diffdeg z = 0) by (unfold v_diffdeg; rewrite HD; auto). exists F2. split; auto. split; [lia|]. split; [lia|]. split.
    + intros i j Hi Hj. rewrite V2 by auto. rewrite ED, HD. destruct (Z.ltb_spec j 0); auto. cbn [lag_sum]. ring.
    + apply SUM. intros i j Hi Hj. rewrite HD. cbn [lag_sum]. ring.
Qed.
