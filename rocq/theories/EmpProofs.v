(** Lemmas for distributions given by 103 quantiles. *)
From Verif Require Import HistProofs2.
From Verif Require Import EmpModel EmpSpec.
From Coq Require Import Lia ZifyBool.
Local Open Scope Qc_scope.

Lemma prob_eq i : (i < 103)%nat -> probability_no i = prob_of (Z.of_nat i).
Proof. intros H. do 103 (destruct i as [|i]; [vm_compute; apply Qc_is_canon; reflexivity|]). lia. Qed.
Lemma prob_inc i : (i < 102)%nat -> probability_no i < probability_no (S i).
Proof. intros H. do 102 (destruct i as [|i]; [vm_compute; reflexivity|]). lia. Qed.
Lemma prob_step i : (i < 102)%nat -> step_prob (Z.of_nat (S i)) = (probability_no (S i) - probability_no i, probability_no (S i)).
Proof. intros H. do 102 (destruct i as [|i]; [vm_compute; f_equal; apply Qc_is_canon; reflexivity|]). lia. Qed.
Lemma prob_lt i j : (i < j < 103)%nat -> probability_no i < probability_no j.
Proof.
  intros [L H]. induction j as [|j IH]; [lia|]. destruct (Nat.eq_dec i j) as [->|N]; [apply prob_inc; lia|]. eapply Qclt_trans; [apply IH; lia|apply prob_inc; lia].
Qed.
Lemma table_prob : table probabilities.
Proof. split; [reflexivity|exact prob_lt]. Qed.
Lemma table_le t i j : table t -> (i <= j < 103)%nat -> quantile_no t i <= quantile_no t j.
Proof. intros [_ T] H. destruct (Nat.eq_dec i j) as [->|N]; [apply Qcle_refl|]. apply Qclt_le_weak, T. lia. Qed.
Lemma prob_le i j : (i <= j < 103)%nat -> probability_no i <= probability_no j.
Proof. exact (table_le probabilities i j table_prob). Qed.
(** A position for every number between the ends *)
Lemma locate t x n : quantile_no t 0 <= x -> x <= quantile_no t n -> (0 < n)%nat -> exists i, (i < n)%nat /\ quantile_no t i <= x /\ x <= quantile_no t (S i).
Proof.
  intros A. induction n as [|n IH]; [lia|]. intros B _. destruct (Qclt_le_dec x (quantile_no t n)) as [L|L].
  - destruct n as [|n]; [exfalso; qlra|]. destruct (IH (Qclt_le_weak _ _ L) ltac:(lia)) as (i & H & C). exists i. split; [lia|exact C].
  - exists n. auto.
Qed.
Lemma rd_no t i : table t -> (i < 103)%nat -> rd t (Z.of_nat i) = Ok (quantile_no t i).
Proof.
  intros [L _] H. unfold rd. replace (Z.of_nat i <? 0)%Z with false by lia. rewrite Nat2Z.id. rewrite (nth_error_nth' t 0) by lia. reflexivity.
Qed.
Lemma rdz t z i : table t -> z = Z.of_nat i -> (i < 103)%nat -> rd t z = Ok (quantile_no t i).
Proof. intros T -> H. apply rd_no; auto. Qed.
Lemma div_ok a b : b <> 0 -> div a b = Some (a / b).
Proof. intros H. unfold div. destruct (qeqb_spec b 0); [contradiction|reflexivity]. Qed.
Lemma line_left x0 y0 x1 y1 : x0 < x1 -> line x0 y0 x1 y1 x0 = y0.
Proof. intros H. unfold line. field. intros K. qlra. Qed.
Lemma line_right x0 y0 x1 y1 : x0 < x1 -> line x0 y0 x1 y1 x1 = y1.
Proof. intros H. unfold line. field. intros K. qlra. Qed.
Lemma line_back x0 y0 x1 y1 x : x0 < x1 -> y0 < y1 -> line y0 x0 y1 x1 (line x0 y0 x1 y1 x) = x.
Proof. intros H K. unfold line. field. split; intros E; qlra. Qed.
Lemma line_mono x0 y0 x1 y1 x y : x0 < x1 -> y0 < y1 -> x <= y -> line x0 y0 x1 y1 x <= line x0 y0 x1 y1 y.
Proof.
  intros H K L. assert (P : 0 < (y1 - y0) / (x1 - x0)).
  { assert (J : 0 < / (x1 - x0)) by (apply Qc_inv_pos; qlra). assert (K' : 0 < y1 - y0) by qlra. pose proof (Qcmult_lt_compat_r 0 (y1 - y0) (/ (x1 - x0)) J K') as G. rewrite Qcmult_0_l in G. exact G. }
  assert (E : forall z, line x0 y0 x1 y1 z = y0 + (z - x0) * ((y1 - y0) / (x1 - x0))) by (intros z; unfold line; field; intros Q; qlra). rewrite !E.
  assert (G : (x - x0) * ((y1 - y0) / (x1 - x0)) <= (y - x0) * ((y1 - y0) / (x1 - x0))) by (apply Qcmult_le_compat_r; [qlra|apply Qclt_le_weak; exact P]). apply Qcplus_le_compat; [apply Qcle_refl|exact G].
Qed.
(** The scan ends at the first element that is not less than x *)
Lemma scan_ok t x fuel k d : table t -> (1 <= k)%nat -> (k + fuel = 103)%nat -> quantile_no t (k - 1) < x -> x <= quantile_no t 102 ->
  exists i, (k <= i < 103)%nat /\ scan t x fuel (Z.of_nat k) d = Ok (Z.of_nat i, quantile_no t i) /\ quantile_no t (i - 1) < x /\ x <= quantile_no t i.
Proof.
  intros T. revert k d. induction fuel as [|n IH]; intros k d Hk E A B.
  - exfalso. replace (k - 1)%nat with 102%nat in A by lia. qlra.
  - cbn [scan]. rewrite rd_no by (auto; lia). cbn [bind]. destruct (qleb_spec x (quantile_no t k)) as [L|L].
    + exists k. split; [lia|]. auto.
    + replace (Z.of_nat k + 1)%Z with (Z.of_nat (S k)) by lia. assert (L' : quantile_no t k < x) by qlra. destruct (IH (S k) (quantile_no t k)) as (i & H & C); auto; try lia; [cbn; rewrite Nat.sub_0_r; exact L'|]. exists i. split; [lia|exact C].
Qed.

(** Between the quantiles the distribution function is linear *)
Lemma cdf_segment t x i : table t -> (i < 102)%nat -> quantile_no t i <= x -> x <= quantile_no t (S i) ->
  cdf_num t x = Ok (Some (line (quantile_no t i) (probability_no i) (quantile_no t (S i)) (probability_no (S i)) x)).
Proof.
  intros T Hi A B. pose proof (proj2 T) as Inc. assert (L0 : quantile_no t 0 < quantile_no t 1) by (apply Inc; lia). assert (L1 : quantile_no t 101 < quantile_no t 102) by (apply Inc; lia). assert (Li : quantile_no t i < quantile_no t (S i)) by (apply Inc; lia).
  unfold cdf_num. rewrite (rdz t 0 0 T) by (reflexivity || lia). cbn [bind]. destruct (qleb_spec x (quantile_no t 0)) as [C|C].
  - assert (x = quantile_no t 0). { apply Qcle_antisym; auto. eapply Qcle_trans; [apply (table_le t 0 i T); lia|exact A]. } subst x.
    assert (i = 0)%nat. { destruct i; [reflexivity|]. exfalso. assert (quantile_no t 0 < quantile_no t (S i)) by (apply Inc; lia). qlra. } subst i.
    rewrite (rdz t 1 1 T) by (reflexivity || lia). cbn [bind]. rewrite div_ok by (intros K; qlra). rewrite line_left by exact L0. do 2 f_equal. change (probability_no 0) with p4. field. intros K; qlra.
  - rewrite (rdz t 102 102 T) by (reflexivity || lia). cbn [bind]. destruct (qleb_spec (quantile_no t 102) x) as [D|D].
    + assert (x = quantile_no t 102). { apply Qcle_antisym; auto. eapply Qcle_trans; [exact B|apply (table_le t (S i) 102 T); lia]. } subst x.
      assert (i = 101)%nat. { destruct (Nat.eq_dec i 101) as [E|E]; [exact E|]. exfalso. assert (quantile_no t (S i) < quantile_no t 102) by (apply Inc; lia). qlra. } subst i.
      rewrite (rdz t 101 101 T) by (reflexivity || lia). cbn [bind]. rewrite div_ok by (intros K; qlra). rewrite line_right by exact L1. do 2 f_equal. change (probability_no 102) with u4. field. intros K; qlra.
    + assert (C' : quantile_no t (1 - 1) < x) by (change (1 - 1)%nat with 0%nat; qlra). assert (D' : x <= quantile_no t 102) by qlra.
      destruct (scan_ok t x 102 1 0 T ltac:(lia) ltac:(lia) C' D') as (k & Hk & E & F & G). change (Z.of_nat 1) with 1%Z in E. rewrite E. cbn [bind].
      destruct k as [|k]; [lia|]. rewrite prob_step by lia. rewrite (rd_no t (S k) T) by lia. replace (Z.of_nat (S k) - 1)%Z with (Z.of_nat k) by lia. rewrite (rd_no t k T) by lia. cbn [bind].
      cbn [Nat.sub] in F. rewrite Nat.sub_0_r in F. assert (Lk : quantile_no t k < quantile_no t (S k)) by (apply Inc; lia). rewrite div_ok by (intros K; qlra). do 2 f_equal.
      assert (K : k = i \/ (i = S k /\ x = quantile_no t i)).
      { destruct (lt_eq_lt_dec k i) as [[U|U]|U]; auto.
        - right. assert (V : quantile_no t (S k) <= quantile_no t i) by (apply table_le; auto; lia). assert (x = quantile_no t i) by (apply Qcle_antisym; auto; eapply Qcle_trans; eauto).
          split; auto. destruct (Nat.eq_dec i (S k)) as [W|W]; auto. exfalso. assert (quantile_no t (S k) < quantile_no t i) by (apply Inc; lia). qlra.
        - exfalso. assert (V : quantile_no t (S i) <= quantile_no t k) by (apply table_le; auto; lia). qlra. }
      destruct K as [-> |[-> ->]].
      * unfold line. field. intros K; qlra.
      * rewrite line_left by exact Li. field. intros K; qlra.
Qed.
(** The search of the quantile *)
Lemma floor_between (q : Qc) z : qz z <= q -> q < qz (z + 1) -> Qfloor (this q) = z.
Proof.
  intros A B. unfold Qcle, Qclt, qz in *. cbn [this Q2Qc] in *. rewrite Qred_correct in A, B. pose proof (Qfloor_resp_le _ _ A) as E. rewrite Qfloor_Z in E.
  pose proof (Qlt_le_trans _ _ _ (Qle_lt_trans _ _ _ (Qfloor_le (this q)) B) (Qle_refl _)) as F. rewrite <- Zlt_Qlt in F. lia.
Qed.
Lemma cent z : this (qz z / qz 100) == inject_Z z / 100.
Proof. unfold Qcdiv. rewrite this_mul. unfold qz. cbn [this Qcinv Q2Qc]. rewrite !Qred_correct. reflexivity. Qed.
Lemma prob_mid i : (2 <= i <= 100)%nat -> probability_no i = qz (Z.of_nat i - 1) / qz 100.
Proof. intros H. rewrite prob_eq by lia. unfold prob_of. replace (Z.of_nat i =? 0)%Z with false by lia. replace (Z.of_nat i =? 1)%Z with false by lia. replace (Z.of_nat i =? 101)%Z with false by lia. replace (Z.of_nat i =? 102)%Z with false by lia. reflexivity. Qed.
Lemma quantile_segment t p i : table t -> (i < 102)%nat -> probability_no i <= p -> p <= probability_no (S i) ->
  quantile_approx t p = Ok (Fin (line (probability_no i) (quantile_no t i) (probability_no (S i)) (quantile_no t (S i)) p)).
Proof.
  intros T Hi A B.
  assert (P0 : p4 <= p). { eapply Qcle_trans; [|exact A]. apply (prob_le 0 i). lia. }
  assert (P1 : p <= u4). { eapply Qcle_trans; [exact B|]. apply (prob_le (S i) 102). lia. }
  assert (E0 : 0 < p4) by reflexivity. assert (E1 : u4 < 1) by reflexivity. assert (E2 : p4 < p3) by reflexivity. assert (E3 : p3 < p2) by reflexivity. assert (E4 : p2 < u2) by reflexivity. assert (E5 : u2 < u3) by reflexivity. assert (E6 : u3 < u4) by reflexivity.
  assert (R : forall k, (k < 102)%nat -> forall z, z = Z.of_nat k -> rd t z = Ok (quantile_no t k) /\ rd t (z + 1)%Z = Ok (quantile_no t (S k))).
  { intros k Hk z ->. split; [apply rd_no; auto; lia|]. replace (Z.of_nat k + 1)%Z with (Z.of_nat (S k)) by lia. apply rd_no; auto; lia. }
  (* the position that is found: the segment, or the next one at its start *)
  assert (X : forall k d h, (k < 102)%nat -> d = probability_no k -> h = probability_no (S k) - probability_no k -> (k = i \/ (k = S i /\ p = d)) ->
     quantile_no t k + (p - d) * (quantile_no t (S k) - quantile_no t k) / h = line (probability_no i) (quantile_no t i) (probability_no (S i)) (quantile_no t (S i)) p).
  { intros k d h Hk -> -> [-> |[-> ->]].
    - unfold line. field. pose proof (prob_inc i Hi) as L. intros K; qlra.
    - rewrite line_right by (apply prob_inc; exact Hi). field. pose proof (prob_inc (S i) Hk) as L. intros K; qlra. }
  assert (Y : forall k, (k < 102)%nat -> probability_no k <= p -> (p < probability_no (S k)) \/ k = 101%nat -> k = i \/ (k = S i /\ p = probability_no k)).
  { intros k Hk C D. destruct (lt_eq_lt_dec k i) as [[U|U]|U]; auto.
    - exfalso. destruct D as [D|D]; [|lia]. pose proof (prob_le (S k) i ltac:(lia)) as V. qlra.
    - right. pose proof (prob_le (S i) k ltac:(lia)) as V. assert (W : p = probability_no k) by (apply Qcle_antisym; [exact (Qcle_trans _ _ _ B V)|exact C]). split; auto.
      destruct (Nat.eq_dec k (S i)) as [Z|Z]; auto. exfalso. assert (probability_no (S i) < probability_no k) by (apply prob_lt; lia). qlra. }
  unfold quantile_approx. destruct (qleb_spec p 0) as [N|_]; [exfalso; qlra|]. destruct (qleb_spec 1 p) as [N|_]; [exfalso; qlra|].
  destruct (qleb_spec p p4) as [C|C].
  { destruct (R 0%nat ltac:(lia) 0%Z eq_refl) as [-> R1]. change (0 + 1)%Z with 1%Z in R1. rewrite R1. cbn [bind]. do 2 f_equal. apply (X 0%nat); [lia|reflexivity|reflexivity|]. apply Y; [lia| |left; apply Qcle_lt_trans with p4; auto]. exact P0. }
  destruct (qleb_spec u4 p) as [D|D].
  { assert (p = u4) by (apply Qcle_antisym; auto). subst p. destruct (R 101%nat ltac:(lia) 101%Z eq_refl) as [-> R1]. change (101 + 1)%Z with 102%Z in R1. rewrite R1. cbn [bind]. do 2 f_equal.
    assert (i = 101)%nat. { destruct (Nat.eq_dec i 101) as [E|E]; auto. exfalso. assert (V : probability_no (S i) < probability_no 102) by (apply prob_lt; lia). change (probability_no 102) with u4 in V. qlra. } subst i.
    change (probability_no (S 101)) with u4. rewrite line_right by reflexivity. replace (u4 - u4) with 0 by ring. unfold Qcdiv. rewrite !Qcmult_0_l. change 102%nat with (S 101). ring. }
  destruct (qltb_spec p p3) as [F|F].
  { destruct (R 0%nat ltac:(lia) 0%Z eq_refl) as [R0 R1]. rewrite R1, R0. cbn [bind]. do 2 f_equal. apply (X 0%nat); [lia|reflexivity|reflexivity|]. apply Y; [lia|exact P0|left; exact F]. }
  destruct (qltb_spec u3 p) as [G|G].
  { destruct (R 101%nat ltac:(lia) 101%Z eq_refl) as [R0 R1]. rewrite R1, R0. cbn [bind]. do 2 f_equal. apply (X 101%nat); [lia|reflexivity|reflexivity|]. apply Y; [lia| |right; reflexivity]. change (probability_no 101) with u3. apply Qclt_le_weak. exact G. }
  destruct (qltb_spec p p2) as [H|H].
  { destruct (R 1%nat ltac:(lia) 1%Z eq_refl) as [R0 R1]. rewrite R1, R0. cbn [bind]. do 2 f_equal. apply (X 1%nat); [lia|reflexivity|reflexivity|]. apply Y; [lia| |left; exact H]. change (probability_no 1) with p3. qlra. }
  destruct (qltb_spec u2 p) as [J|J].
  { destruct (R 100%nat ltac:(lia) 100%Z eq_refl) as [R0 R1]. rewrite R1, R0. cbn [bind]. do 2 f_equal. 
    assert (V : u2 <= p) by (apply Qclt_le_weak; exact J). assert (W : p <= u3) by qlra. destruct (Qclt_le_dec p u3) as [L|L].
    - apply (X 100%nat); [lia|reflexivity|reflexivity|apply Y; [lia|exact V|left; exact L]].
    - assert (p = u3) by (apply Qcle_antisym; auto). subst p. destruct (Y 101%nat ltac:(lia) (Qcle_refl _) (or_intror eq_refl)) as [K|[K K']].
      + subst i. change (probability_no 101) with u3. rewrite line_left by exact E6. unfold Qcdiv. rewrite Qcmult_comm. change 101%nat with (S 100). assert (N : u3 - u2 <> 0) by (intros N; vm_compute in N; discriminate N). field. exact N.
      + injection K as <-. apply (X 100%nat); [lia|reflexivity|reflexivity|left; reflexivity]. }
  set (k := Qfloor (this (p * qz 100))). assert (K : (1 <= k <= 99)%Z).
  { unfold k. assert (Q1 : (1 <= this (p * qz 100))%Q /\ (this (p * qz 100) <= 99)%Q). { rewrite this_mul. unfold qz. cbn [this Q2Qc]. rewrite Qred_correct. assert (p2 <= p) by qlra. assert (p <= u2) by qlra. unfold Qcle in *. change (this p2) with (1 # 100)%Q in *. change (this u2) with (99 # 100)%Q in *. change (inject_Z 100) with 100%Q. lra. }
    destruct Q1 as [Q1 Q2]. pose proof (Qfloor_resp_le _ _ Q1) as U1. pose proof (Qfloor_resp_le _ _ Q2) as U2. change (Qfloor 1) with 1%Z in U1. change (Qfloor 99) with 99%Z in U2. lia. }
  assert (Kp : qz k / qz 100 <= p /\ p < qz (k + 1) / qz 100).
  { unfold Qcle, Qclt. rewrite !cent. pose proof (Qfloor_le (this (p * qz 100))) as U. pose proof (Qlt_floor (this (p * qz 100))) as V. fold k in U, V. rewrite this_mul in U, V. change (this (qz 100)) with 100%Q in U, V. set (a := inject_Z k) in *. set (b := inject_Z (k + 1)) in *. unfold Qdiv. change (/ 100)%Q with (1 # 100)%Q. lra. }
  set (m := Z.to_nat (k + 1)). assert (Hm : (2 <= m <= 100)%nat) by lia. destruct (R m ltac:(lia) (k + 1)%Z ltac:(lia)) as [R0 R1]. rewrite R1, R0. cbn [bind]. do 2 f_equal.
  assert (Em : probability_no m = qz k / qz 100) by (rewrite prob_mid by lia; do 2 f_equal; lia).
  destruct (Nat.eq_dec m 100) as [M|M].
  - assert (k = 99)%Z by lia. assert (Pu : p = u2). { destruct Kp as [Kp _]. rewrite H0 in Kp. change (qz 99 / qz 100) with (qz 99 / qz 100) in Kp. assert (U : u2 <= p) by (eapply Qcle_trans; [|exact Kp]; vm_compute; discriminate). apply Qcle_antisym; [qlra|exact U]. }
    assert (Z : i = 100%nat \/ i = 99%nat).
    { destruct (Y 100%nat ltac:(lia)) as [Z|[Z _]]; [rewrite Pu; apply Qcle_refl|left; rewrite Pu; exact E5|auto|right; lia]. }
    rewrite M, H0. rewrite Pu. replace (qz 99 / qz 100) with u2 by (apply Qc_is_canon; reflexivity). replace (u2 - u2) with 0 by ring. unfold Qcdiv at 1. rewrite !Qcmult_0_l, Qcplus_0_r.
    destruct Z as [-> | ->].
    + change u2 with (probability_no 100). rewrite line_left by (apply prob_lt; lia). reflexivity.
    + change u2 with (probability_no 100). rewrite line_right by (apply prob_lt; lia). reflexivity.
  - assert (Es : probability_no (S m) = qz (k + 1) / qz 100) by (rewrite prob_mid by lia; do 2 f_equal; lia). apply X; [lia|symmetry; exact Em| |].
    + rewrite Em, Es. replace (qz (k + 1)) with (qz k + 1) by (unfold qz; apply Qc_is_canon; rewrite this_add; cbn [this Q2Qc]; rewrite !Qred_correct; rewrite inject_Z_plus; reflexivity). unfold p2. replace (Q2Qc (1 # 100)) with (1 / qz 100) by (apply Qc_is_canon; reflexivity). field. intros Z; vm_compute in Z; discriminate Z.
    + rewrite <- Em. apply Y; [lia|rewrite Em; apply Kp|left; rewrite Es; apply Kp].
Qed.
