(** Variances of forecasts: proofs. *)
From Verif Require Import ArmaModel ArmaSpec MPolySpec MatProofs MatProofs2 MatDotProofs SplitProofs SplitProofs4 MatProofs4 MatProofs6 PolyProofs PolyProofs2 MPolyProofs MPolyProofs2 VarmaProofs3 VarmaProofs4 ForecastProofs ArmaProofs ArmaProofs2 ArmaProofs3.
From Coq Require Import Lia ZifyBool.
Local Open Scope Z_scope.

Lemma dot0_ok (M B S : mat Qc) : mat_ok M -> mat_ok B -> mat_ok S -> ncols M = nrows B -> nrows S = nrows M -> ncols S = ncols B -> 0 < nrows M -> 0 < ncols M ->
  exists S', dot0 M B S 1 0 = Ok S' /\ turns S (product (ncols M) (el M) (el B)) S'.
Proof.
  intros WM WB WS H1 H2 H3 H4 H5. destruct (dot_ok M B S 1 0 WM WB WS H1 H2 H3 H4 H5) as (S' & E & T). exists S'. split.
  - rewrite <- E. unfold dot0, dot. replace (ncols M =? nrows B) with true by lia. replace (nrows M =? nrows S) with true by lia. replace (ncols B =? ncols S) with true by lia. reflexivity.
  - eapply becomes_ext; [exact T|]. cbn. intros i j _. unfold scaled. f_equal. ring.
Qed.
Lemma dot_tr0_ok (M B S : mat Qc) : mat_ok M -> mat_ok B -> mat_ok S -> ncols M = ncols B -> nrows S = nrows M -> ncols S = nrows B -> 0 < nrows M -> 0 < nrows B ->
  exists S', dot_tr0 M B S 1 0 = Ok S' /\ turns S (product (ncols M) (el M) (fun l j => el B j l)) S'.
Proof.
  intros WM WB WS H1 H2 H3 H4 H5. destruct (dot_tr_ok M B S 1 0 WM WB WS H1 H2 H3 H4 H5) as (S' & E & T). exists S'. split.
  - rewrite <- E. unfold dot_tr0, dot_tr. replace (ncols M =? ncols B) with true by lia. replace (nrows M =? nrows S) with true by lia. replace (nrows B =? ncols S) with true by lia. reflexivity.
  - eapply becomes_ext; [exact T|]. cbn. intros i j _. unfold scaled, el_t. f_equal. ring.
Qed.
Lemma set_column_value0_ok (V : mat Qc) j v : mat_ok V -> 0 <= j < ncols V -> exists V', set_column_value0 V j v = Ok V' /\ turns V (fun r c => if c =? j then v else el V r c) V'.
Proof.
  intros W H. destruct (line_ok V (nrows V) (fun t => t) (fun _ => j) (fun _ => Ok v) (fun _ c => c =? j) (fun _ _ => Some v) W) as (V' & E & B).
  - intros t Ht. split; [split; lia|]. split; [lia|eauto].
  - intros r c [Hr Hc] Hh. exists r. lia.
  - exists V'. split; [exact E|]. eapply becomes_ext; [exact B|]. cbn. intros r c Hrc. destruct (c =? j); [reflexivity|]. apply entry_el; auto.
Qed.
Lemma set_column_from_diag0_ok (V : mat Qc) j m st k : mat_ok V -> 0 <= j < ncols V -> nrows V = Z.of_nat m -> (S k * (m * m) <= length st)%nat ->
  exists V', set_column_from_diag0 V j (block m st k) = Ok V' /\ turns V (fun r c => if c =? j then bel m st k r r else el V r c) V'.
Proof.
  intros W H R L. pose proof (block_ok m st k L) as WB.
  destruct (line_ok V (nrows V) (fun t => t) (fun _ => j) (fun i => rd (data (block m st k)) (i * (nrows (block m st k) + 1))) (fun _ c => c =? j) (fun r _ => Some (bel m st k r r)) W) as (V' & E & B).
  - intros t Ht. split; [split; lia|]. split; [lia|]. eexists. split; [|reflexivity]. replace (t * (nrows (block m st k) + 1)) with (t + nrows (block m st k) * t) by lia. apply rd_el; [exact WB|]. split; unfold nrows, ncols, block; cbn [rows cols]; lia.
  - intros r c [Hr Hc] Hh. exists r. lia.
  - exists V'. split; [exact E|]. eapply becomes_ext; [exact B|]. cbn. intros r c Hrc. destruct (c =? j); [reflexivity|]. apply entry_el; auto.
Qed.
Lemma zero_columns_ok : forall n (s : nat) (V : mat Qc), mat_ok V -> Z.of_nat s + Z.of_nat n <= ncols V ->
  exists V', zero_columns (map Z.of_nat (seq s n)) V = Ok V' /\ turns V (fun r c => if (Z.of_nat s <=? c) && (c <? Z.of_nat s + Z.of_nat n) then 0%Qc else el V r c) V'.
Proof.
  induction n as [|n IH]; intros s V W H; cbn [seq map zero_columns].
  - exists V. split; [reflexivity|]. eapply turns_ext; [apply turns_id; exact W|]. cbn. intros i j _. replace ((Z.of_nat s <=? j) && (j <? Z.of_nat s + 0)) with false by lia. reflexivity.
  - destruct (set_column_value0_ok V (Z.of_nat s) 0 W ltac:(lia)) as (V1 & -> & T1). cbn [bind]. destruct (IH (S s) V1) as (V2 & -> & T2); [apply (turns_ok _ _ _ W T1)|rewrite (turns_ncols _ _ _ T1); lia|].
    exists V2. split; [reflexivity|]. eapply turns_ext; [apply (turns_trans _ _ _ _ _ T1 T2)|]. cbn beta. intros i j Hij. rewrite (turns_el _ _ _ _ _ T1 Hij).
    destruct (Z.eqb_spec j (Z.of_nat s)) as [->|Ne].
    + replace ((Z.of_nat s <=? Z.of_nat s) && (Z.of_nat s <? Z.of_nat s + Z.of_nat (S n))) with true by lia. destruct (_ && _); reflexivity.
    + replace ((Z.of_nat s <=? j) && (j <? Z.of_nat s + Z.of_nat (S n))) with ((Z.of_nat (S s) <=? j) && (j <? Z.of_nat (S s) + Z.of_nat n)) by lia. reflexivity.
Qed.

(** The covariances of the sum of the first s terms. *)
Definition var_sum (m : nat) (sg : fn) (psi : nat -> fn) (s : nat) (i j : Z) : Qc :=
  sumn (fun t => product (Z.of_nat m) (product (Z.of_nat m) (psi t) sg) (fun l c => psi t c l) i j) s.
Lemma var_sum_quadratic m sg (psi : nat -> fn) s a : var_sum m sg psi s a a = sumn (fun t => quadratic (Z.of_nat m) sg (psi t a)) s.
Proof.
  unfold var_sum. apply sumn_ext. intros t _. unfold quadratic. rewrite !upto_sumn by lia. rewrite !Nat2Z.id. rewrite product_sumn.
  transitivity (sumn (fun l => sumn (fun b => psi t a (Z.of_nat b) * sg (Z.of_nat b) (Z.of_nat l) * psi t a (Z.of_nat l))%Qc m) m).
  - apply sumn_ext. intros l _. rewrite product_sumn, Qcmult_comm, <- sumn_mul. apply sumn_ext. intros. ring.
  - rewrite sumn_swap. apply sumn_ext. intros b _. rewrite upto_sumn by lia. rewrite Nat2Z.id. reflexivity.
Qed.
Lemma variance_loop_ok m (sigma : mat Qc) p b start (psi : nat -> fn) : (1 <= m)%nat -> mat_ok sigma -> rows sigma = m -> cols sigma = m -> 0 <= start ->
  forall len s st V, (p + s + len <= b)%nat -> ((b + 3) * (m * m) <= length st)%nat -> mat_ok V -> nrows V = Z.of_nat m -> start + Z.of_nat (s + len) <= ncols V ->
  (forall k, (k < s + len)%nat -> same m (bel m st (p + k)) (psi k)) -> same m (bel m st b) (var_sum m (el sigma) psi s) ->
  exists V', variance_loop m sigma p b start (seq s len) st V = Ok V' /\
    turns V (fun i j => if (start + Z.of_nat s <=? j) && (j <? start + Z.of_nat (s + len)) then var_sum m (el sigma) psi (Z.to_nat (j - start + 1)) i i else el V i j) V'.
Proof.
  intros M1 WS RS CS S0. induction len as [|len IH]; intros s st V HB L W RV CV HP HV; cbn [seq variance_loop].
  - exists V. split; [reflexivity|]. eapply turns_ext; [apply turns_id; exact W|]. cbn. intros i j _. replace ((start + Z.of_nat s <=? j) && (j <? start + Z.of_nat (s + 0))) with false by lia. reflexivity.
  - assert (Fit : forall (st : list Qc) k, ((b + 3) * (m * m) <= length st)%nat -> (k < b + 3)%nat -> (S k * (m * m) <= length st)%nat) by (intros st' k H1 H2; apply (block_fit m st' k (b + 3)); auto).
    assert (BO : forall (st : list Qc) k, ((b + 3) * (m * m) <= length st)%nat -> (k < b + 3)%nat -> mat_ok (block m st k)) by (intros st' k H1 H2; apply block_ok; apply Fit; auto).
    assert (RSz : nrows sigma = Z.of_nat m /\ ncols sigma = Z.of_nat m) by (unfold nrows, ncols; lia). destruct RSz as [RSz CSz].
    destruct (dot0_ok (block m st (p + s)) sigma (block m st (b + 2))) as (T2 & -> & B2); try (apply BO; [exact L|lia]); auto; try (unfold nrows, ncols, block in *; cbn [rows cols] in *; lia). cbn [bind].
    pose proof (put_length _ _ _ _ _ (Fit st (b + 2)%nat L ltac:(lia)) B2) as L2. pose proof (put_bel _ _ _ _ _ (Fit st (b + 2)%nat L ltac:(lia)) B2) as P2. set (st2 := put m st (b + 2) T2) in *. clearbody st2.
    assert (L2' : ((b + 3) * (m * m) <= length st2)%nat) by lia.
    destruct (dot_tr0_ok (block m st2 (b + 2)) (block m st2 (p + s)) (block m st2 (b + 1))) as (T1 & -> & B1); try (apply BO; [exact L2'|lia]); auto; try (unfold nrows, ncols, block in *; cbn [rows cols] in *; lia). cbn [bind].
    pose proof (put_length _ _ _ _ _ (Fit st2 (b + 1)%nat L2' ltac:(lia)) B1) as L1. pose proof (put_bel _ _ _ _ _ (Fit st2 (b + 1)%nat L2' ltac:(lia)) B1) as P1. set (st1 := put m st2 (b + 1) T1) in *. clearbody st1.
    assert (L1' : ((b + 3) * (m * m) <= length st1)%nat) by lia.
    destruct (add_in_ok (block m st1 b) (block m st1 (b + 1))) as (P & -> & BP); try (apply BO; [exact L1'|lia]); auto. cbn [bind].
    pose proof (put_length _ _ _ _ _ (Fit st1 b L1' ltac:(lia)) BP) as L3. pose proof (put_bel _ _ _ (fun i j => (el (block m st1 b) i j + el (block m st1 (b + 1)) i j)%Qc) _ (Fit st1 b L1' ltac:(lia)) BP) as P3. set (st3 := put m st1 b P) in *. clearbody st3.
    assert (L3' : ((b + 3) * (m * m) <= length st3)%nat) by lia.
    destruct (set_column_from_diag0_ok V (Z.of_nat s + start) m st3 b W ltac:(lia) RV (Fit st3 b L3' ltac:(lia))) as (V1 & -> & TV). cbn [bind].
    assert (HP3 : forall k, (k < S s + len)%nat -> same m (bel m st3 (p + k)) (psi k)).
    { intros k Hk i j Wi. rewrite P3 by exact Wi. replace (p + k =? b)%nat with false by lia. rewrite P1 by exact Wi. replace (p + k =? b + 1)%nat with false by lia. rewrite P2 by exact Wi. replace (p + k =? b + 2)%nat with false by lia. apply HP; [lia|exact Wi]. }
    assert (HV3 : same m (bel m st3 b) (var_sum m (el sigma) psi (S s))).
    { intros i j Wi. rewrite P3 by exact Wi. rewrite Nat.eqb_refl. fold (bel m st1 b i j). fold (bel m st1 (b + 1) i j). rewrite !P1 by exact Wi. replace (b =? b + 1)%nat with false by lia. rewrite Nat.eqb_refl. rewrite P2 by exact Wi. replace (b =? b + 2)%nat with false by lia.
      rewrite (HV i j Wi). unfold var_sum. rewrite sumn_S. f_equal. change (ncols (block m st2 (b + 2))) with (Z.of_nat m). apply product_ext; [| |exact Wi].
      - intros i0 j0 W0. fold (bel m st2 (b + 2) i0 j0). rewrite P2 by exact W0. rewrite Nat.eqb_refl. change (ncols (block m st (p + s))) with (Z.of_nat m). apply product_ext; [|unfold same; auto|exact W0]. intros i1 j1 W1. apply (HP s ltac:(lia) i1 j1 W1).
      - intros i0 j0 W0. fold (bel m st2 (p + s) j0 i0). assert (W0' : within m j0 i0) by (destruct W0; split; auto). rewrite P2 by exact W0'. replace (p + s =? b + 2)%nat with false by lia. apply HP; [lia|exact W0']. }
    destruct (IH (S s) st3 V1) as (V2 & E2 & T2'); auto; try lia.
    { apply (turns_ok _ _ _ W TV). } { rewrite (turns_nrows _ _ _ TV). exact RV. } { rewrite (turns_ncols _ _ _ TV). lia. }
    rewrite E2. exists V2. split; [reflexivity|]. eapply turns_ext; [apply (turns_trans _ _ _ _ _ TV T2')|]. cbn beta. intros i j Hij. rewrite (turns_el _ _ _ _ _ TV Hij).
    destruct (Z.eqb_spec j (Z.of_nat s + start)) as [->|Ne].
    + replace (start + Z.of_nat (S s) <=? Z.of_nat s + start) with false by lia. cbn [andb]. replace ((start + Z.of_nat s <=? Z.of_nat s + start) && (Z.of_nat s + start <? start + Z.of_nat (s + S len))) with true by lia.
      replace (Z.to_nat (Z.of_nat s + start - start + 1)) with (S s) by lia. apply HV3. destruct Hij. split; lia.
    + replace ((start + Z.of_nat s <=? j) && (j <? start + Z.of_nat (s + S len))) with ((start + Z.of_nat (S s) <=? j) && (j <? start + Z.of_nat (S s + len))) by lia. reflexivity.
Qed.
