(** C123: distributions given by 103 quantiles. *)
From Verif Require Import HistProofs2 OptSpec OptProofs5 Prop_Opt EmpModel EmpSpec EmpProofs.
From Coq Require Import Lia ZifyBool.
Local Open Scope Qc_scope.

(** The distribution function and the quantile function are linear between the quantiles; both have the given values there. *)
Theorem c123_linear t i : table t -> (i < 102)%nat ->
  (forall x, quantile_no t i <= x -> x <= quantile_no t (S i) -> cdf_approx t (Fin x) = Ok (Some (line (quantile_no t i) (probability_no i) (quantile_no t (S i)) (probability_no (S i)) x))) /\
  (forall p, probability_no i <= p -> p <= probability_no (S i) -> quantile_approx t p = Ok (Fin (line (probability_no i) (quantile_no t i) (probability_no (S i)) (quantile_no t (S i)) p))).
Proof. intros T H. split; [intros x; apply cdf_segment; auto|intros p; apply quantile_segment; auto]. Qed.
Print Assumptions c123_linear.
Theorem c123_at_quantiles t i : table t -> (i < 103)%nat -> cdf_approx t (Fin (quantile_no t i)) = Ok (Some (probability_no i)) /\ quantile_approx t (probability_no i) = Ok (Fin (quantile_no t i)).
Proof.
  intros T H. pose proof (proj2 T) as Inc. destruct (Nat.eq_dec i 102) as [->|N].
  - assert (L : quantile_no t 101 < quantile_no t 102) by (apply Inc; lia). destruct (c123_linear t 101 T ltac:(lia)) as [A B]. rewrite A by (apply Qcle_refl || (apply Qclt_le_weak; exact L)). rewrite B by (apply Qcle_refl || (apply prob_le; lia)).
    rewrite !line_right; [auto|apply prob_lt; lia|exact L].
  - assert (L : quantile_no t i < quantile_no t (S i)) by (apply Inc; lia). destruct (c123_linear t i T ltac:(lia)) as [A B]. rewrite A by (apply Qcle_refl || (apply Qclt_le_weak; exact L)). rewrite B by (apply Qcle_refl || (apply prob_le; lia)).
    rewrite !line_left; [auto|apply prob_lt; lia|exact L].
Qed.
Print Assumptions c123_at_quantiles.
Lemma between_line x0 y0 x1 y1 x : x0 < x1 -> y0 < y1 -> x0 <= x -> x <= x1 -> y0 <= line x0 y0 x1 y1 x /\ line x0 y0 x1 y1 x <= y1.
Proof.
  intros H K A B. split; [rewrite <- (line_left x0 y0 x1 y1 H) at 1|rewrite <- (line_right x0 y0 x1 y1 H) at 2]; apply line_mono; auto.
Qed.
(** The two functions are inverse to each other between the first and the last quantile. *)
Theorem c123_inverse t : table t ->
  (forall p, probability_no 0 <= p -> p <= probability_no 102 -> exists x, quantile_approx t p = Ok (Fin x) /\ quantile_no t 0 <= x /\ x <= quantile_no t 102 /\ cdf_approx t (Fin x) = Ok (Some p)) /\
  (forall x, quantile_no t 0 <= x -> x <= quantile_no t 102 -> exists p, cdf_approx t (Fin x) = Ok (Some p) /\ probability_no 0 <= p /\ p <= probability_no 102 /\ quantile_approx t p = Ok (Fin x)).
Proof.
  intros T. pose proof (proj2 T) as Inc. split.
  - intros p A B. destruct (locate probabilities p 102 A B ltac:(lia)) as (i & H & C & D). change (probability_no i <= p) in C. change (p <= probability_no (S i)) in D.
    assert (L : quantile_no t i < quantile_no t (S i)) by (apply Inc; lia). pose proof (prob_inc i H) as P. destruct (c123_linear t i T H) as [E F]. eexists. split; [apply F; auto|].
    destruct (between_line _ (quantile_no t i) _ (quantile_no t (S i)) p P L C D) as [U V]. split; [eapply Qcle_trans; [apply (table_le t 0 i T); lia|exact U]|]. split; [eapply Qcle_trans; [exact V|apply (table_le t (S i) 102 T); lia]|].
    rewrite E by auto. rewrite line_back by auto. reflexivity.
  - intros x A B. destruct (locate t x 102 A B ltac:(lia)) as (i & H & C & D).
    assert (L : quantile_no t i < quantile_no t (S i)) by (apply Inc; lia). pose proof (prob_inc i H) as P. destruct (c123_linear t i T H) as [E F]. eexists. split; [apply E; auto|].
    destruct (between_line _ (probability_no i) _ (probability_no (S i)) x L P C D) as [U V]. split; [eapply Qcle_trans; [apply (prob_le 0 i); lia|exact U]|]. split; [eapply Qcle_trans; [exact V|apply (prob_le (S i) 102); lia]|].
    rewrite F by auto. rewrite line_back by auto. reflexivity.
Qed.
Print Assumptions c123_inverse.
(** Between the first and the last quantile the distribution function is strictly increasing. *)
Theorem c123_increasing t x y : table t -> quantile_no t 0 <= x -> x < y -> y <= quantile_no t 102 ->
  exists c d, cdf_approx t (Fin x) = Ok (Some c) /\ cdf_approx t (Fin y) = Ok (Some d) /\ c < d.
Proof.
  intros T A L B. pose proof (proj2 T) as Inc. destruct (proj2 (c123_inverse t T) x A ltac:(qlra)) as (c & E1 & _ & _ & Q1). destruct (proj2 (c123_inverse t T) y ltac:(qlra) B) as (d & E2 & _ & _ & Q2).
  exists c, d. split; [exact E1|]. split; [exact E2|]. assert (Le : c <= d).
  { destruct (locate t x 102 A ltac:(qlra) ltac:(lia)) as (i & H & C & D). destruct (locate t y 102 ltac:(qlra) B ltac:(lia)) as (j & G & U & V).
    pose proof (prob_inc i H) as Pi. pose proof (prob_inc j G) as Pj. assert (Li : quantile_no t i < quantile_no t (S i)) by (apply Inc; lia). assert (Lj : quantile_no t j < quantile_no t (S j)) by (apply Inc; lia).
    rewrite (proj1 (c123_linear t i T H) x C D) in E1. rewrite (proj1 (c123_linear t j T G) y U V) in E2. injection E1 as <-. injection E2 as <-.
    destruct (lt_eq_lt_dec i j) as [[Z|Z]|Z].
    - destruct (between_line _ (probability_no i) _ (probability_no (S i)) x Li Pi C D) as [_ K]. destruct (between_line _ (probability_no j) _ (probability_no (S j)) y Lj Pj U V) as [M _]. eapply Qcle_trans; [exact K|]. eapply Qcle_trans; [|exact M]. apply prob_le. lia.
    - subst j. apply line_mono; auto. apply Qclt_le_weak. exact L.
    - exfalso. assert (quantile_no t (S j) <= quantile_no t i) by (apply table_le; auto; lia). assert (y <= x) by (eapply Qcle_trans; [exact V|]; eapply Qcle_trans; eauto). qlra. }
  destruct (Qcle_lt_or_eq _ _ Le) as [K|K]; [exact K|]. subst d. rewrite Q1 in Q2. injection Q2 as <-. exfalso. qlra.
Qed.
Print Assumptions c123_increasing.
(** Outside of the probabilities of the table: infinite for 0 and 1; strictly increasing, and beyond the quantiles, in between. *)
Theorem c123_quantile_ends t p : table t ->
  (p <= 0 -> quantile_approx t p = Ok NInf) /\ (1 <= p -> quantile_approx t p = Ok PInf) /\
  (forall p', 0 < p -> p < p' -> p' <= probability_no 0 -> exists x y, quantile_approx t p = Ok (Fin x) /\ quantile_approx t p' = Ok (Fin y) /\ x < y /\ y <= quantile_no t 0) /\
  (forall p', probability_no 102 <= p -> p < p' -> p' < 1 -> exists x y, quantile_approx t p = Ok (Fin x) /\ quantile_approx t p' = Ok (Fin y) /\ x < y /\ quantile_no t 102 <= x).
Proof.
  intros T. pose proof (proj2 T) as Inc. assert (L0 : quantile_no t 0 < quantile_no t 1) by (apply Inc; lia). assert (L1 : quantile_no t 101 < quantile_no t 102) by (apply Inc; lia).
  assert (E0 : 0 < p4) by reflexivity. assert (E1 : u4 < 1) by reflexivity. assert (E2 : p4 < u4) by reflexivity. change (probability_no 0) with p4. change (probability_no 102) with u4. split; [|split; [|split]].
  - intros H. unfold quantile_approx. destruct (qleb_spec p 0); [reflexivity|contradiction].
  - intros H. unfold quantile_approx. destruct (qleb_spec p 0); [exfalso; qlra|]. destruct (qleb_spec 1 p); [reflexivity|contradiction].
  - intros p' H K M. assert (X : forall q, 0 < q -> q <= p4 -> quantile_approx t q = Ok (Fin (quantile_no t 0 + (q - p4) * ((quantile_no t 1 - quantile_no t 0) / (p3 - p4))))).
    { intros q A B. unfold quantile_approx. destruct (qleb_spec q 0); [exfalso; qlra|]. destruct (qleb_spec 1 q); [exfalso; qlra|]. destruct (qleb_spec q p4); [|contradiction]. rewrite (rdz t 1 1 T) by (reflexivity || lia). rewrite (rdz t 0 0 T) by (reflexivity || lia). cbn [bind]. do 3 f_equal. unfold Qcdiv. ring. }
    assert (P : 0 < (quantile_no t 1 - quantile_no t 0) / (p3 - p4)). { assert (J : 0 < / (p3 - p4)) by (vm_compute; reflexivity). assert (G : 0 < quantile_no t 1 - quantile_no t 0) by qlra. pose proof (Qcmult_lt_compat_r 0 _ _ J G) as Z. rewrite Qcmult_0_l in Z. exact Z. }
    set (k := (quantile_no t 1 - quantile_no t 0) / (p3 - p4)) in *. do 2 eexists. split; [apply X; auto; qlra|]. split; [apply X; auto; qlra|].
    assert (Z : (p - p4) * k < (p' - p4) * k) by (apply Qcmult_lt_compat_r; [exact P|qlra]). assert (W : (p' - p4) * k <= 0 * k) by (apply Qcmult_le_compat_r; [qlra|apply Qclt_le_weak; exact P]). rewrite Qcmult_0_l in W. set (za := (p - p4) * k) in *. set (zb := (p' - p4) * k) in *. clearbody za zb. split; qlra.
  - intros p' H K M. assert (X : forall q, u4 <= q -> q < 1 -> quantile_approx t q = Ok (Fin (quantile_no t 102 + (q - u4) * ((quantile_no t 102 - quantile_no t 101) / (u4 - u3))))).
    { intros q A B. unfold quantile_approx. destruct (qleb_spec q 0); [exfalso; qlra|]. destruct (qleb_spec 1 q); [exfalso; qlra|]. destruct (qleb_spec q p4); [exfalso; qlra|]. destruct (qleb_spec u4 q); [|contradiction]. rewrite (rdz t 102 102 T) by (reflexivity || lia). rewrite (rdz t 101 101 T) by (reflexivity || lia). cbn [bind]. do 3 f_equal. unfold Qcdiv. ring. }
    assert (P : 0 < (quantile_no t 102 - quantile_no t 101) / (u4 - u3)). { assert (J : 0 < / (u4 - u3)) by (vm_compute; reflexivity). assert (G : 0 < quantile_no t 102 - quantile_no t 101) by qlra. pose proof (Qcmult_lt_compat_r 0 _ _ J G) as Z. rewrite Qcmult_0_l in Z. exact Z. }
    set (k := (quantile_no t 102 - quantile_no t 101) / (u4 - u3)) in *. do 2 eexists. split; [apply X; auto; qlra|]. split; [apply X; auto; qlra|].
    assert (Z : (p - u4) * k < (p' - u4) * k) by (apply Qcmult_lt_compat_r; [exact P|qlra]). assert (W : 0 * k <= (p - u4) * k) by (apply Qcmult_le_compat_r; [qlra|apply Qclt_le_weak; exact P]). rewrite Qcmult_0_l in W. set (za := (p - u4) * k) in *. set (zb := (p' - u4) * k) in *. clearbody za zb. split; qlra.
Qed.
Print Assumptions c123_quantile_ends.
(** The tails of the distribution function are wrong, for every table: to the left of the first quantile it is decreasing and has values above 1; to the right of the last one it is decreasing and has negative values. *)
Theorem c123_tail_refuted t : table t ->
  (forall x y, y < x -> x <= quantile_no t 0 -> exists c d, cdf_approx t (Fin x) = Ok (Some c) /\ cdf_approx t (Fin y) = Ok (Some d) /\ c < d) /\
  (exists x c, x < quantile_no t 0 /\ cdf_approx t (Fin x) = Ok (Some c) /\ 1 < c) /\
  (forall x y, quantile_no t 102 <= y -> y < x -> exists c d, cdf_approx t (Fin x) = Ok (Some c) /\ cdf_approx t (Fin y) = Ok (Some d) /\ c < d) /\
  (exists x c, quantile_no t 102 < x /\ cdf_approx t (Fin x) = Ok (Some c) /\ c < 0).
Proof.
  intros T. pose proof (proj2 T) as Inc. assert (L0 : quantile_no t 0 < quantile_no t 1) by (apply Inc; lia). assert (L1 : quantile_no t 101 < quantile_no t 102) by (apply Inc; lia). assert (L2 : quantile_no t 0 < quantile_no t 102) by (apply Inc; lia).
  set (k := (p3 - p4) / (quantile_no t 1 - quantile_no t 0)). set (m := (u4 - u3) / (quantile_no t 102 - quantile_no t 101)).
  assert (Pk : 0 < k). { assert (J : 0 < / (quantile_no t 1 - quantile_no t 0)) by (apply Qc_inv_pos; qlra). pose proof (Qcmult_lt_compat_r 0 (p3 - p4) _ J ltac:(vm_compute; reflexivity)) as Z. rewrite Qcmult_0_l in Z. exact Z. }
  assert (Pm : 0 < m). { assert (J : 0 < / (quantile_no t 102 - quantile_no t 101)) by (apply Qc_inv_pos; qlra). pose proof (Qcmult_lt_compat_r 0 (u4 - u3) _ J ltac:(vm_compute; reflexivity)) as Z. rewrite Qcmult_0_l in Z. exact Z. }
  assert (X : forall x, x <= quantile_no t 0 -> cdf_approx t (Fin x) = Ok (Some (p4 + (quantile_no t 0 - x) * k))).
  { intros x H. cbn [cdf_approx]. unfold cdf_num. rewrite (rdz t 0 0 T) by (reflexivity || lia). cbn [bind]. destruct (qleb_spec x (quantile_no t 0)); [|contradiction]. rewrite (rdz t 1 1 T) by (reflexivity || lia). cbn [bind]. rewrite div_ok by (intros K; qlra). do 2 f_equal. unfold k, Qcdiv. ring. }
  assert (Y : forall x, quantile_no t 102 <= x -> cdf_approx t (Fin x) = Ok (Some (u4 - (x - quantile_no t 102) * m))).
  { intros x H. cbn [cdf_approx]. unfold cdf_num. rewrite (rdz t 0 0 T) by (reflexivity || lia). cbn [bind]. destruct (qleb_spec x (quantile_no t 0)); [exfalso; qlra|]. rewrite (rdz t 102 102 T) by (reflexivity || lia). cbn [bind]. destruct (qleb_spec (quantile_no t 102) x); [|contradiction]. rewrite (rdz t 101 101 T) by (reflexivity || lia). cbn [bind]. rewrite div_ok by (intros K; qlra). do 2 f_equal. unfold m, Qcdiv. ring. }
  clearbody k m. assert (Nk : k <> 0) by (intros ->; qlra). assert (Nm : m <> 0) by (intros ->; qlra). pose proof (Qc_inv_pos k Pk) as Ik. pose proof (Qc_inv_pos m Pm) as Im. split; [|split; [|split]].
  - intros x y H K. do 2 eexists. split; [apply X; exact K|]. split; [apply X; qlra|]. assert (Z : (quantile_no t 0 - x) * k < (quantile_no t 0 - y) * k) by (apply Qcmult_lt_compat_r; [exact Pk|qlra]). set (za := (quantile_no t 0 - x) * k) in *. set (zb := (quantile_no t 0 - y) * k) in *. clearbody za zb. qlra.
  - exists (quantile_no t 0 - / k), (p4 + 1). split; [qlra|]. split; [rewrite X by qlra; do 2 f_equal; field; exact Nk|vm_compute; reflexivity].
  - intros x y H K. do 2 eexists. split; [apply Y; qlra|]. split; [apply Y; exact H|]. assert (Z : (y - quantile_no t 102) * m < (x - quantile_no t 102) * m) by (apply Qcmult_lt_compat_r; [exact Pm|qlra]). set (za := (y - quantile_no t 102) * m) in *. set (zb := (x - quantile_no t 102) * m) in *. clearbody za zb. qlra.
  - exists (quantile_no t 102 + / m), (u4 - 1). split; [qlra|]. split; [rewrite Y by qlra; do 2 f_equal; field; exact Nm|vm_compute; reflexivity].
Qed.
Print Assumptions c123_tail_refuted.
(** Infinite arguments; the argument NaN reads beyond the table. *)
Theorem c123_infinite t : cdf_approx t NInf = Ok (Some 0) /\ cdf_approx t PInf = Ok (Some 1).
Proof. split; reflexivity. Qed.
Print Assumptions c123_infinite.
Theorem c123_nan_refuted t : table t -> cdf_approx t NotNum = UB.
Proof. intros T. cbn [cdf_approx]. rewrite (rdz t 0 0 T) by (reflexivity || lia). rewrite (rdz t 102 102 T) by (reflexivity || lia). cbn [bind]. destruct T as [L _]. unfold rd. change (103 <? 0)%Z with false. cbv iota. destruct (nth_error t (Z.to_nat 103)) eqn:E; [|reflexivity]. exfalso. assert (nth_error t (Z.to_nat 103) <> None) by congruence. apply nth_error_Some in H. lia. Qed.
Print Assumptions c123_nan_refuted.

(** ** Combine *)
Lemma cdf_total t x : table t -> exists c, cdf_num t x = Ok (Some c).
Proof.
  intros T. destruct (Qclt_le_dec x (quantile_no t 0)) as [A|A].
  - destruct (proj1 (c123_tail_refuted t T) x (x - 1) ltac:(qlra) (Qclt_le_weak _ _ A)) as (c & _ & E & _). exists c. exact E.
  - destruct (Qclt_le_dec (quantile_no t 102) x) as [B|B].
    + destruct (proj1 (proj2 (proj2 (c123_tail_refuted t T))) (x + 1) x (Qclt_le_weak _ _ B) ltac:(qlra)) as (_ & d & _ & E & _). exists d. exact E.
    + destruct (proj2 (c123_inverse t T) x A B) as (p & E & _). exists p. exact E.
Qed.
Lemma weighted_ok ts ws x a0 : Forall table ts -> (length ts <= length ws)%nat -> exists a, weighted (combine ts ws) x a0 = Some (a0 + a) /\ mixture_cdf ts ws x a.
Proof.
  intros F. revert ws a0. induction F as [|t ts T F IH]; intros ws a0 L.
  - exists 0. cbn. split; [f_equal; ring|]. exists []. split; [constructor|destruct ws; reflexivity].
  - destruct ws as [|w ws]; [cbn in L; lia|]. cbn in L. destruct (cdf_total t x T) as (c & E). destruct (IH ws (a0 + w * c) ltac:(lia)) as (a & E2 & cs & M & N). exists (w * c + a). cbn [combine weighted]. rewrite E, E2. split; [f_equal; ring|]. exists (c :: cs). split; [constructor; auto|]. cbn. rewrite N. reflexivity.
Qed.
Lemma combine_loop_ok dw fuel : forall i start, length (combine_loop dw fuel i start) = fuel /\
  forall k, (k < fuel)%nat -> nth (S k) (start :: combine_loop dw fuel i start) 0 = fst (minimize1 (objective dw (prob_of (i + Z.of_nat k))) (nth k (start :: combine_loop dw fuel i start) 0) (Q2Qc (1 # 10)) 500 (Q2Qc (1 # 100000000)) (Some (nth k (start :: combine_loop dw fuel i start) 0)) None).
Proof.
  induction fuel as [|n IH]; intros i start; [split; [reflexivity|lia]|]. cbn [combine_loop]. set (s := fst (minimize1 (objective dw (prob_of i)) start _ _ _ _ _)). destruct (IH (i + 1)%Z s) as [L H]. split; [cbn; f_equal; exact L|].
  intros k Hk. destruct k as [|k].
  - cbn [nth]. replace (i + Z.of_nat 0)%Z with i by lia. reflexivity.
  - specialize (H k ltac:(lia)). replace (i + Z.of_nat (S k))%Z with (i + 1 + Z.of_nat k)%Z by lia. exact H.
Qed.
Lemma smallest_ok ts : Forall table ts -> forall mi, exists r, smallest ts mi = Ok r /\ (mi <> None \/ ts <> [] -> exists m, r = Some m /\ (mi = Some m \/ exists t, In t ts /\ quantile_no t 0 = m) /\ (forall q, mi = Some q -> m <= q) /\ forall t, In t ts -> m <= quantile_no t 0).
Proof.
  induction 1 as [|t ts T F IH]; intros mi.
  - exists mi. split; [reflexivity|]. intros [H|H]; [|contradiction]. destruct mi as [q|]; [|contradiction]. exists q. split; [reflexivity|]. split; [auto|]. split; [intros ? [= <-]; apply Qcle_refl|intros ? []].
  - cbn [smallest]. rewrite (rdz t 0 0 T) by (reflexivity || lia). cbn [bind]. set (mi' := match mi with None => _ | Some m => _ end). destruct (IH mi') as (r & E & H). exists r. split; [exact E|]. intros _.
    destruct H as (m & -> & A & B & C); [left; unfold mi'; destruct mi as [q|]; [destruct (qltb _ _)|]; discriminate|]. exists m. split; [reflexivity|]. unfold mi' in *. destruct mi as [q|]; [destruct (qltb_spec (quantile_no t 0) q) as [L|L]|].
    + split; [destruct A as [[= A]|(u & U & V)]; [right; exists t; split; [left; reflexivity|exact A]|right; exists u; split; [right; exact U|exact V]]|]. split; [intros ? [= <-]; pose proof (B _ eq_refl); qlra|]. intros u [<-|U]; [apply B; reflexivity|auto].
    + split; [destruct A as [[= A]|(u & U & V)]; [left; congruence|right; exists u; split; [right; exact U|exact V]]|]. split; [intros ? [= <-]; apply B; reflexivity|]. intros u [<-|U]; [pose proof (B _ eq_refl); qlra|auto].
    + split; [destruct A as [[= A]|(u & U & V)]; [right; exists t; split; [left; reflexivity|exact A]|right; exists u; split; [right; exact U|exact V]]|]. split; [discriminate|]. intros u [<-|U]; [apply B; reflexivity|auto].
Qed.
Lemma skipn_one (l : list Qc) i d : (i < length l)%nat -> skipn i l = nth i l d :: skipn (S i) l.
Proof. revert i. induction l as [|x l IH]; intros i H; [cbn in H; lia|]. destruct i as [|i]; [reflexivity|]. cbn in H. cbn [skipn nth]. apply IH. lia. Qed.
Lemma read_n_ok t n i : (i + n <= length t)%nat -> read_n t n (Z.of_nat i) = Ok (firstn n (skipn i t)).
Proof.
  revert i. induction n as [|n IH]; intros i H; [reflexivity|]. cbn [read_n]. unfold rd. replace (Z.of_nat i <? 0)%Z with false by lia. rewrite Nat2Z.id. rewrite (nth_error_nth' t 0) by lia. cbn [bind]. replace (Z.of_nat i + 1)%Z with (Z.of_nat (S i)) by lia. rewrite IH by lia. cbn [bind].
  rewrite (skipn_one t i 0) by lia. reflexivity.
Qed.
(** No distribution: an exception; one: the same quantiles. *)
Theorem c123_combine_few weights t : table t -> combine_emp [] weights = Throw /\ combine_emp [t] weights = Ok t.
Proof. intros [L _]. split; [reflexivity|]. unfold combine_emp. change 0%Z with (Z.of_nat 0). rewrite read_n_ok by lia. cbn [skipn]. rewrite <- L. rewrite firstn_all. reflexivity. Qed.
Print Assumptions c123_combine_few.
(** Two or more distributions: 103 results. At result i the weighted sum of the distribution functions is not farther from probability i than at the previous result, or for the first one at the smallest quantile of all tables. *)
Theorem c123_combine ts weights : Forall table ts -> (2 <= length ts)%nat -> (forall w, weights = Some w -> (length ts <= length w)%nat) ->
  let ws := match weights with None => repeat (1 / qn (length ts)) (length ts) | Some w => firstn (length ts) w end in
  exists r s, combine_emp ts weights = Ok r /\ length r = 103%nat /\ (exists t, In t ts /\ quantile_no t 0 = s) /\ (forall t, In t ts -> s <= quantile_no t 0) /\
  forall i, (i < 103)%nat -> exists a b, mixture_cdf ts ws (nth (S i) (s :: r) 0) a /\ mixture_cdf ts ws (nth i (s :: r) 0) b /\ qabs (a - probability_no i) <= qabs (b - probability_no i).
Proof.
  intros F L W ws. assert (Lw : length ws = length ts) by (unfold ws; destruct weights as [w|]; [rewrite firstn_length; specialize (W w eq_refl); lia|apply repeat_length]).
  destruct (smallest_ok ts F None) as (r0 & E & H). destruct H as (s & -> & A & _ & C); [right; intros ->; cbn in L; lia|]. destruct A as [A|A]; [discriminate|].
  exists (combine_loop (combine ts ws) 103 0 s), s. split.
  - unfold combine_emp. destruct ts as [|t1 [|t2 ts]]; [cbn in L; lia|cbn in L; lia|]. set (T := t1 :: t2 :: ts) in *.
    assert (G : forallb (fun t => Nat.leb 103 (length t)) T = true) by (apply forallb_forall; intros t I; rewrite Forall_forall in F; destruct (F t I) as [Q _]; rewrite Q; reflexivity). rewrite G. cbn [negb].
    assert (R : match weights with None => Ok (repeat (1 / qn (length T)) (length T)) | Some w => read_n w (length T) 0%Z end = Ok ws).
    { unfold ws. destruct weights as [w|]; [|reflexivity]. change 0%Z with (Z.of_nat 0). rewrite read_n_ok by (cbn; apply W; reflexivity). reflexivity. }
    rewrite R. cbn [bind]. rewrite E. cbn [bind]. reflexivity.
  - destruct (combine_loop_ok (combine ts ws) 103 0 s) as [Ln N]. split; [exact Ln|]. split; [exact A|]. split; [exact C|]. intros i Hi. specialize (N i Hi). set (r := combine_loop (combine ts ws) 103 0 s) in *. cbn [Z.add] in N. change (0 + Z.of_nat i)%Z with (Z.of_nat i) in N. rewrite <- (prob_eq i Hi) in N.
    set (prev := nth i (s :: r) 0) in *. set (x := nth (S i) (s :: r) 0) in *. destruct (minimize1 (objective (combine ts ws) (probability_no i)) prev (Q2Qc (1 # 10)) 500 (Q2Qc (1 # 100000000)) (Some prev) None) as [y it] eqn:M. cbn [fst] in N. subst y.
    apply c56_minimize1 in M; [|intros; discriminate]. destruct M as (y & Hy & _ & V). assert (y = prev). { destruct Hy as (_ & Y & _). apply Y. split; [intros ? [= <-]; apply Qcle_refl|discriminate]. } subst y.
    destruct (weighted_ok ts ws x 0 F ltac:(lia)) as (a & Ea & Ma). destruct (weighted_ok ts ws prev 0 F ltac:(lia)) as (b & Eb & Mb). exists a, b. split; [exact Ma|]. split; [exact Mb|].
    destruct V as [V|V]; [rewrite V in Ea; rewrite Ea in Eb; apply (f_equal (fun o => match o with Some q => q | None => 0 end)) in Eb; cbv beta iota in Eb; assert (a = b) by (rewrite !Qcplus_0_l in Eb; exact Eb); subst b; apply Qcle_refl|].
    unfold objective in V. rewrite Ea, Eb in V. cbn [vle] in V. rewrite !Qcplus_0_l in V. exact V.
Qed.
Print Assumptions c123_combine.
(** The search stops after 500 steps of 1/10: the combination of a table with itself is not this table. *)
Definition thousands : list Qc := map (fun k => qz (1000 * Z.of_nat k)) (seq 0 103).
Theorem c123_combine_refuted : table thousands /\ exists r, combine_emp [thousands; thousands] None = Ok r /\ nth 1 r 0 = qz 50 /\ quantile_no thousands 1 = qz 1000.
Proof.
  split.
  - split; [reflexivity|]. intros i j H. assert (E : forall k, (k < 103)%nat -> quantile_no thousands k = qz (1000 * Z.of_nat k)) by (intros k Hk; unfold quantile_no, thousands; rewrite (nth_indep _ 0 (qz (1000 * Z.of_nat 0))) by (rewrite map_length, seq_length; lia); rewrite (map_nth (fun k => qz (1000 * Z.of_nat k))); rewrite seq_nth by lia; reflexivity).
    rewrite !E by lia. unfold Qclt, qz. cbn [this Q2Qc]. rewrite !Qred_correct. rewrite <- Zlt_Qlt. lia.
  - exists (combine_loop (combine [thousands; thousands] [1 / qn 2; 1 / qn 2]) 103 0 (quantile_no thousands 0)). split; [reflexivity|]. split; [|vm_compute; reflexivity].
    destruct (combine_loop_ok (combine [thousands; thousands] [1 / qn 2; 1 / qn 2]) 103 0 (quantile_no thousands 0)) as [_ N]. pose proof (N 0%nat ltac:(lia)) as N0. pose proof (N 1%nat ltac:(lia)) as N1. clear N. cbn [nth] in N0, N1 |- *. set (r := combine_loop _ 103 0 _) in *. clearbody r. rewrite N1. rewrite N0. vm_compute. apply Qc_is_canon. reflexivity.
Qed.
Print Assumptions c123_combine_refuted.
(** A case for all of this: the table of the probabilities (a uniform distribution) *)
Example c123_case : table probabilities /\ cdf_approx probabilities (Fin (1 / qn 2)) = Ok (Some (1 / qn 2)) /\ Forall table [probabilities; thousands].
Proof. split; [exact table_prob|]. split; [vm_compute; do 2 f_equal; apply Qc_is_canon; reflexivity|]. constructor; [exact table_prob|]. constructor; [exact (proj1 c123_combine_refuted)|constructor]. Qed.
