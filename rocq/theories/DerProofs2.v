(** Proofs for numerical derivatives: the quotients, polynomials. *)
From Coq Require Import Reals Lra Lia List.
From Coquelicot Require Import Coquelicot.
From Verif Require Import DerSpec DerModel DerProofs.
Import Lra.
Local Open Scope R_scope.

(** ** The table *)
Definition divn (T : R) (c : nat) (l : list R) : list R := map (fun h => h / T ^ c) l.
Lemma divn_S T c l : T <> 0 -> map (fun h => h / T) (divn T c l) = divn T (S c) l.
Proof. intros H. unfold divn. rewrite map_map. apply map_ext. intros h. cbn [pow]. field. split; [apply pow_nonzero|]; exact H. Qed.
Lemma divn_0 T l : divn T 0 l = l.
Proof. unfold divn. rewrite <- (map_id l) at 2. apply map_ext. intros h. cbn. field. Qed.
Section Table.
Variable row : list R -> list R -> option (list R) -> list R.
Variable Q : list R -> list R -> nat -> R.
Variable n : nat.
Variable T : R.
Hypothesis T0 : T <> 0.
Hypothesis row_ok : forall hl hr prev, row hl hr prev = map (fun p => if skip prev p then 0 else cut (Q hl hr p)) (seq 0 n).
Lemma nth_row hl hr prev p : (p < n)%nat -> nth p (row hl hr prev) 0 = if skip prev p then 0 else cut (Q hl hr p).
Proof. intros H. rewrite row_ok. set (g := fun p => if skip prev p then 0 else cut (Q hl hr p)). rewrite (nth_indep _ 0 (g 0%nat)) by (rewrite map_length, seq_length; exact H). rewrite map_nth, seq_nth by exact H. reflexivity. Qed.
Lemma table_column hl hr p : (p < n)%nat -> forall k c prev, column p (table row T (divn T c hl) (divn T c hr) prev k) = column_of (fun c => Q (divn T c hl) (divn T c hr) p) c k (option_map (fun r => nth p r 0) prev).
Proof.
  intros Hp. induction k as [|k IH]; intros c prev; [reflexivity|]. cbn [table column map column_of]. cbv zeta. rewrite nth_row by exact Hp. rewrite !divn_S by exact T0.
  assert (E : skip prev p = match option_map (fun r : list R => nth p r 0) prev with Some y => if Req_EM_T y 0 then true else false | None => false end) by (destruct prev; reflexivity). rewrite <- E. f_equal.
  change (column p (table row T (divn T (S c) hl) (divn T (S c) hr) (Some (row (divn T c hl) (divn T c hr) prev)) k) = column_of (fun c => Q (divn T c hl) (divn T c hr) p) (S c) k (Some (if skip prev p then 0 else cut (Q (divn T c hl) (divn T c hr) p)))). rewrite IH. cbn [option_map]. rewrite nth_row by exact Hp. reflexivity.
Qed.
Lemma table_width : forall k hl hr prev, width n (table row T hl hr prev k).
Proof. induction k as [|k IH]; intros hl hr prev r; cbn; [contradiction|]. intros [<-|I]; [rewrite row_ok, map_length, seq_length; reflexivity|exact (IH _ _ _ r I)]. Qed.
Lemma table_length : forall k hl hr prev, length (table row T hl hr prev k) = k.
Proof. induction k; intros; cbn; auto. Qed.
End Table.
(** ** Values of polynomials *)
(** For s other than 0, g s is the value of a polynomial of degree d with constant term t *)
Definition pol (d : nat) (t : R) (g : R -> R) : Prop := exists e : nat -> R, e 0%nat = t /\ forall s, s <> 0 -> g s = sum_f_R0 (fun k => e k * s ^ k) d.
Lemma pol_ext d t t2 g h : t = t2 -> (forall s, s <> 0 -> g s = h s) -> pol d t g -> pol d t2 h.
Proof. intros <- E (e & E0 & H). exists e. split; [exact E0|]. intros s Hs. rewrite <- E by exact Hs. apply H, Hs. Qed.
Lemma pol_plus d t1 t2 g h : pol d t1 g -> pol d t2 h -> pol d (t1 + t2) (fun s => g s + h s).
Proof. intros (e & E0 & H) (e2 & E2 & H2). exists (fun k => e k + e2 k). split; [congruence|]. intros s Hs. rewrite H, H2, <- sum_plus by exact Hs. apply sum_eq. intros. ring. Qed.
Lemma pol_zero d : pol d 0 (fun _ => 0).
Proof. exists (fun _ => 0). split; [reflexivity|]. intros s _. rewrite <- (sum_eq (fun _ => 0)) by (intros; ring). symmetry. apply sum_eq_R0. reflexivity. Qed.
Lemma sum_delta (f : nat -> R) j d : (j <= d)%nat -> sum_f_R0 (fun k => if Nat.eqb k j then f k else 0) d = f j.
Proof.
  induction d as [|d IH]; intros H.
  - replace j with 0%nat by lia. reflexivity.
  - cbn [sum_f_R0]. destruct (Nat.eqb_spec (S d) j) as [<-|N].
    + rewrite sum_eq_R0; [ring|]. intros k Hk. destruct (Nat.eqb_spec k (S d)); [lia|reflexivity].
    + rewrite IH by lia. ring.
Qed.
Lemma pol_monomial d j c : (j <= d)%nat -> pol d (if Nat.eqb j 0 then c else 0) (fun s => c * s ^ j).
Proof.
  intros H. exists (fun k => if Nat.eqb k j then c else 0). split; [destruct j; reflexivity|]. intros s _.
  rewrite (sum_eq _ (fun k => if Nat.eqb k j then c * s ^ k else 0)) by (intros k _; destruct (Nat.eqb k j); ring). symmetry. apply (sum_delta (fun k => c * s ^ k)). exact H.
Qed.
Lemma pol_sum d (t : nat -> R) (g : nat -> R -> R) N : (forall k, (k <= N)%nat -> pol d (t k) (g k)) -> pol d (sum_f_R0 t N) (fun s => sum_f_R0 (fun k => g k s) N).
Proof. induction N as [|N IH]; intros H; cbn [sum_f_R0]; [apply H; lia|]. apply pol_plus; [apply IH; intros k Hk; apply H; lia|apply H; lia]. Qed.
(** polynomials are sampled exactly *)
Lemma pol_sampled T d t g m : 1 < T -> pol d t g -> exists e, e 0%nat = t /\ sampled T d e (map (fun c => g (/ T ^ c)) (seq 0 m)).
Proof.
  intros HT (e & E0 & H). exists e. split; [exact E0|]. intros c Hc. rewrite map_length, seq_length in Hc. rewrite (nth_indep _ 0 (g (/ T ^ 0))) by (rewrite map_length, seq_length; exact Hc). rewrite (map_nth (fun c => g (/ T ^ c))), seq_nth by exact Hc. apply H. apply Rinv_neq_0_compat, pow_nonzero. lra.
Qed.
Lemma pol_extra T d t g m : 1 < T -> (1 <= m)%nat -> (d <= m - 1)%nat -> pol d t g -> extra T 1 (m - 1) (map (fun c => g (/ T ^ c)) (seq 0 m)) = [t].
Proof.
  intros HT Hm Hd P. destruct (pol_sampled T d t g m HT P) as (e & <- & S). pose proof (extra_exact T d (map (fun c : nat => g (/ T ^ c)) (seq 0 m)) e HT) as X. rewrite map_length, seq_length in X. apply X; auto.
Qed.
Lemma odd_even k : (exists j, k = 2 * j)%nat \/ (exists j, k = 2 * j + 1)%nat.
Proof. destruct (Nat.Even_or_Odd k) as [[j E]|[j E]]; eauto. Qed.
Lemma opp_pow_even u j : (- u) ^ (2 * j) = u ^ (2 * j).
Proof. rewrite !pow_mult. f_equal. ring. Qed.
Lemma opp_pow_odd u j : (- u) ^ (2 * j + 1) = - u ^ (2 * j + 1).
Proof. rewrite !pow_add, opp_pow_even. ring. Qed.
(** the central quotient of a polynomial *)
Lemma central_pol (a : nat -> R) D h d : h <> 0 -> (1 <= D)%nat -> (forall j, (2 * j + 1 <= D)%nat -> (2 * j <= d)%nat) ->
  pol d (a 1%nat) (fun s => (sum_f_R0 (fun k => a k * (h * s) ^ k) D - sum_f_R0 (fun k => a k * (- (h * s)) ^ k) D) / (2 * (h * s))).
Proof.
  intros Hh HD Hd. apply (pol_ext d (sum_f_R0 (fun k => if Nat.eqb k 1 then a k else 0) D) _ (fun s => sum_f_R0 (fun k => (a k * (h * s) ^ k - a k * (- (h * s)) ^ k) / (2 * (h * s))) D)).
  - apply (sum_delta a). exact HD.
  - intros s Hs. rewrite <- minus_sum. unfold Rdiv. rewrite (Rmult_comm (sum_f_R0 _ D)), scal_sum. reflexivity.
  - apply pol_sum. intros k Hk. destruct (odd_even k) as [(j & ->)|(j & ->)].
    + apply (pol_ext d 0 _ (fun _ => 0)); [destruct (Nat.eqb_spec (2 * j) 1); [lia|reflexivity]| |apply pol_zero]. intros s Hs. rewrite opp_pow_even. unfold Rdiv. ring.
    + eapply (pol_ext d _ _ (fun s => (a (2 * j + 1)%nat * h ^ (2 * j)) * s ^ (2 * j))); [| |apply pol_monomial, Hd, Hk].
      * destruct j; [cbn; ring|]. destruct (Nat.eqb_spec (2 * S j) 0); [lia|]. destruct (Nat.eqb_spec (2 * S j + 1) 1); [lia|reflexivity].
      * intros s Hs. rewrite opp_pow_odd, !pow_add, !Rpow_mult_distr. cbn [pow]. field. auto.
Qed.
(** the second quotient of a polynomial *)
Lemma central2_pol (a : nat -> R) D h d : h <> 0 -> (2 <= D)%nat -> (forall j, (2 * j + 2 <= D)%nat -> (2 * j <= d)%nat) ->
  pol d (2 * a 2%nat) (fun s => (sum_f_R0 (fun k => a k * (2 * (h * s)) ^ k) D - 2 * a 0%nat + sum_f_R0 (fun k => a k * (- 2 * (h * s)) ^ k) D) / (4 * (h * s) ^ 2)).
Proof.
  intros Hh HD Hd. apply (pol_ext d (sum_f_R0 (fun k => if Nat.eqb k 2 then 2 * a k else 0) D) _ (fun s => sum_f_R0 (fun k => (a k * (2 * (h * s)) ^ k + a k * (- 2 * (h * s)) ^ k - (if Nat.eqb k 0 then 2 * a k else 0)) / (4 * (h * s) ^ 2)) D)).
  - apply (sum_delta (fun k => 2 * a k)). exact HD.
  - intros s Hs. transitivity (sum_f_R0 (fun k => (a k * (2 * (h * s)) ^ k + a k * (- 2 * (h * s)) ^ k - (if Nat.eqb k 0 then 2 * a k else 0)) * / (4 * (h * s) ^ 2)) D); [reflexivity|]. rewrite <- scal_sum, minus_sum, sum_plus, (sum_delta (fun k => 2 * a k) 0 D) by lia. unfold Rdiv. ring.
  - apply pol_sum. intros k Hk. destruct (odd_even k) as [(j & ->)|(j & ->)].
    + destruct j as [|j].
      * apply (pol_ext d 0 _ (fun _ => 0)); [reflexivity| |apply pol_zero]. intros s Hs. cbn. field. auto.
      * eapply (pol_ext d _ _ (fun s => (2 * a (2 * S j)%nat * 4 ^ j * h ^ (2 * j)) * s ^ (2 * j))); [| |apply pol_monomial, Hd; lia].
        -- destruct j; [cbn; ring|]. destruct (Nat.eqb_spec (2 * S j) 0); [lia|]. destruct (Nat.eqb_spec (2 * S (S j)) 2); [lia|reflexivity].
        -- intros s Hs. destruct (Nat.eqb_spec (2 * S j) 0); [lia|]. replace (-2 * (h * s)) with (- (2 * (h * s))) by ring; rewrite opp_pow_even. set (A := a (2 * S j)%nat). clearbody A. replace (2 * S j)%nat with (2 * j + 2)%nat by lia. rewrite !pow_add, !Rpow_mult_distr. rewrite (pow_mult 2 2 j). replace (2 ^ 2) with 4 by ring. cbn [pow]. field. auto.
    + apply (pol_ext d 0 _ (fun _ => 0)); [destruct (Nat.eqb_spec (2 * j + 1) 2); [lia|reflexivity]| |apply pol_zero]. intros s Hs. destruct (Nat.eqb_spec (2 * j + 1) 0); [lia|]. replace (-2 * (h * s)) with (- (2 * (h * s))) by ring; rewrite opp_pow_odd. unfold Rdiv. ring.
Qed.
(** the quotient for mixed derivatives *)
Lemma mixed_pol (c : nat -> nat -> R) D h k d : h <> 0 -> k <> 0 -> (1 <= D)%nat -> (forall a b, (D < a + b)%nat -> c a b = 0) -> (forall j, (2 * j + 2 <= D)%nat -> (2 * j <= d)%nat) ->
  let F u v := sum_f_R0 (fun a => sum_f_R0 (fun b => c a b * u ^ a * v ^ b) D) D in
  pol d (c 1%nat 1%nat) (fun s => (F (h * s) (k * s) - F (h * s) (- (k * s)) - F (- (h * s)) (k * s) + F (- (h * s)) (- (k * s))) / (4 * (h * s) * (k * s))).
Proof.
  intros Hh Hk HD Hc Hd F.
  apply (pol_ext d (sum_f_R0 (fun a => sum_f_R0 (fun b => if Nat.eqb a 1 then if Nat.eqb b 1 then c a b else 0 else 0) D) D) _
    (fun s => sum_f_R0 (fun a => sum_f_R0 (fun b => c a b * ((h * s) ^ a - (- (h * s)) ^ a) * ((k * s) ^ b - (- (k * s)) ^ b) / (4 * (h * s) * (k * s))) D) D)).
  - rewrite (sum_eq _ (fun a => if Nat.eqb a 1 then c a 1%nat else 0)); [apply (sum_delta (fun a => c a 1%nat)); exact HD|]. intros a _. destruct (Nat.eqb a 1); [apply (sum_delta (c a)); exact HD|apply sum_eq_R0; reflexivity].
  - intros s Hs. unfold F. rewrite <- !minus_sum, <- sum_plus. unfold Rdiv. rewrite (Rmult_comm (sum_f_R0 _ D)), scal_sum. apply sum_eq. intros a _. rewrite <- !minus_sum, <- sum_plus. rewrite (Rmult_comm (sum_f_R0 _ D)), scal_sum. apply sum_eq. intros b _. ring.
  - apply pol_sum. intros a Ha. apply pol_sum. intros b Hb. destruct (odd_even a) as [(i & ->)|(i & ->)].
    + apply (pol_ext d 0 _ (fun _ => 0)); [destruct (Nat.eqb_spec (2 * i) 1); [lia|reflexivity]| |apply pol_zero]. intros s Hs. rewrite opp_pow_even. unfold Rdiv. ring.
    + destruct (odd_even b) as [(j & ->)|(j & ->)].
      * apply (pol_ext d 0 _ (fun _ => 0)); [destruct (Nat.eqb (2 * i + 1) 1); [destruct (Nat.eqb_spec (2 * j) 1); [lia|reflexivity]|reflexivity]| |apply pol_zero]. intros s Hs. rewrite opp_pow_even. unfold Rdiv. ring.
      * destruct (Nat.le_gt_cases (2 * i + 1 + (2 * j + 1)) D) as [L|L].
        -- eapply (pol_ext d _ _ (fun s => (c (2 * i + 1)%nat (2 * j + 1)%nat * h ^ (2 * i) * k ^ (2 * j)) * s ^ (2 * (i + j)))); [| |apply pol_monomial, Hd; lia].
           ++ destruct i; [|destruct (Nat.eqb_spec (2 * (S i + j)) 0); [lia|]; destruct (Nat.eqb_spec (2 * S i + 1) 1); [lia|reflexivity]]. destruct j; [cbn; ring|]. destruct (Nat.eqb_spec (2 * (0 + S j)) 0); [lia|]. change (Nat.eqb (2 * 0 + 1) 1) with true. cbv iota. destruct (Nat.eqb_spec (2 * S j + 1) 1); [lia|reflexivity].
           ++ intros s Hs. rewrite !opp_pow_odd, !pow_add, !Rpow_mult_distr. replace (2 * (i + j))%nat with (2 * i + 2 * j)%nat by lia. rewrite pow_add. cbn [pow]. field. auto.
        -- apply (pol_ext d 0 _ (fun _ => 0)); [| |apply pol_zero].
           ++ rewrite (Hc (2 * i + 1)%nat) by exact L. destruct (Nat.eqb (2 * i + 1) 1); [destruct (Nat.eqb (2 * j + 1) 1)|]; reflexivity.
           ++ intros s Hs. rewrite (Hc (2 * i + 1)%nat) by exact L. unfold Rdiv. ring.
Qed.
