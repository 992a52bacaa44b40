(** Proofs for numerical derivatives: the extrapolation of one entry. *)
From Coq Require Import Reals Lra Lia List.
From Coquelicot Require Import Coquelicot.
From Verif Require Import DerSpec DerModel.
Import Lra.
Local Open Scope R_scope.

(** ** The extrapolation of a sequence of numbers *)
Definition estep (tki : R) (l : list R) : list R := map2 (fun y x => (y * tki - x) / (tki - 1)) (tl l) l.
Fixpoint extra (T : R) (c k : nat) (l : list R) : list R := match k with O => l | S k => extra T (S c) k (estep (T ^ c) l) end.
Lemma map2_length {A B C} (f : A -> B -> C) l k : length (map2 f l k) = Nat.min (length l) (length k).
Proof. revert k. induction l as [|a l IH]; intros [|b k]; cbn; auto. Qed.
Lemma map2_nth {A B C} (f : A -> B -> C) l k i a b c : (i < length l)%nat -> (i < length k)%nat -> nth i (map2 f l k) c = f (nth i l a) (nth i k b).
Proof. revert k i. induction l as [|x l IH]; intros [|y k] i H1 H2; cbn in *; try lia. destruct i; [reflexivity|]. apply IH; lia. Qed.
Lemma tl_nth (l : list R) i : nth i (tl l) 0 = nth (S i) l 0.
Proof. destruct l; [destruct i; reflexivity|reflexivity]. Qed.
Lemma tl_length {A} (l : list A) : length (tl l) = (length l - 1)%nat.
Proof. destruct l; cbn; lia. Qed.
Lemma estep_length tki l : length (estep tki l) = (length l - 1)%nat.
Proof. unfold estep. rewrite map2_length, tl_length. lia. Qed.
Lemma estep_nth tki l i : (S i < length l)%nat -> nth i (estep tki l) 0 = (nth (S i) l 0 * tki - nth i l 0) / (tki - 1).
Proof. intros H. unfold estep. rewrite (map2_nth _ _ _ i 0 0) by (rewrite ?tl_length; lia). rewrite tl_nth. reflexivity. Qed.
Lemma extra_length T k : forall c l, length (extra T c k l) = (length l - k)%nat.
Proof. induction k as [|k IH]; intros c l; cbn [extra]; [lia|]. rewrite IH, estep_length. lia. Qed.
Lemma pow_gt1 T c : 1 < T -> (1 <= c)%nat -> 1 < T ^ c.
Proof. intros H Hc. apply Rlt_pow_R1; [exact H|lia]. Qed.
(** the numbers are values of a polynomial at the points 1, 1/T, 1/T^2, ... *)
Definition sampled (T : R) (d : nat) (e : nat -> R) (l : list R) : Prop := forall c, (c < length l)%nat -> nth c l 0 = sum_f_R0 (fun k => e k * (/ T ^ c) ^ k) d.
Lemma inv_pow_swap T c k : T <> 0 -> (/ T ^ c) ^ k = (/ T ^ k) ^ c.
Proof. intros H. rewrite <- !pow_inv, <- !pow_mult. f_equal. lia. Qed.
Lemma estep_sampled T d e l c0 : 1 < T -> (1 <= c0)%nat -> sampled T d e l -> sampled T d (fun k => e k * ((T ^ c0 * / T ^ k - 1) / (T ^ c0 - 1))) (estep (T ^ c0) l).
Proof.
  intros HT Hc S c Hl. rewrite estep_length in Hl. rewrite estep_nth by lia. rewrite !S by lia. pose proof (pow_gt1 T c0 HT Hc) as Q.
  set (t := T ^ c0) in *. unfold Rdiv at 1. rewrite (Rmult_comm (sum_f_R0 _ d) t). rewrite scal_sum, <- minus_sum, Rmult_comm, scal_sum. apply sum_eq. intros k Hk. rewrite (inv_pow_swap T (Datatypes.S c) k), (inv_pow_swap T c k) by lra. cbn [pow]. unfold Rdiv. ring.
Qed.
Lemma extra_sampled T d k : 1 < T -> forall c l e, (1 <= c)%nat -> sampled T d e l ->
  exists e', sampled T d e' (extra T c k l) /\ e' 0%nat = e 0%nat /\ (forall j, e j = 0 -> e' j = 0) /\ forall j, (c <= j < c + k)%nat -> e' j = 0.
Proof.
  intros HT. induction k as [|k IH]; intros c l e Hc S; cbn [extra].
  - exists e. split; [exact S|]. split; [reflexivity|]. split; [auto|intros; lia].
  - destruct (IH (Datatypes.S c) _ _ ltac:(lia) (estep_sampled T d e l c HT Hc S)) as (e' & S' & E0 & Z & K). exists e'. pose proof (pow_gt1 T c HT Hc) as Q. split; [exact S'|]. split; [|split].
    + rewrite E0. cbn [pow]. field. lra.
    + intros j Hj. apply Z. rewrite Hj. ring.
    + intros j Hj. destruct (Nat.eq_dec j c) as [->|N]; [|apply K; lia]. apply Z. rewrite Rinv_r by lra. unfold Rdiv, Rminus. rewrite Rplus_opp_r. ring.
Qed.
Lemma sum_first (e : nat -> R) d : (forall j, (1 <= j <= d)%nat -> e j = 0) -> sum_f_R0 e d = e 0%nat.
Proof. induction d as [|d IH]; intros H; [reflexivity|]. cbn [sum_f_R0]. rewrite (H (S d)) by lia. rewrite IH by (intros j Hj; apply H; lia). ring. Qed.
(** The extrapolation of m values of a polynomial of degree less than m is its value at 0. *)
Lemma extra_exact T d l e : 1 < T -> (d <= length l - 1)%nat -> (1 <= length l)%nat -> sampled T d e l -> extra T 1 (length l - 1) l = [e 0%nat].
Proof.
  intros HT Hd Hl S. destruct (extra_sampled T d (length l - 1) HT 1%nat l e ltac:(lia) S) as (e' & S' & E0 & _ & K). set (r := extra T 1 (length l - 1) l) in *. assert (L : length r = 1%nat) by (unfold r; rewrite extra_length; lia).
  destruct r as [|a [|b r]]; try discriminate. f_equal. specialize (S' 0%nat ltac:(cbn; lia)). cbn [nth] in S'. rewrite S', <- E0. rewrite sum_first; [cbn; ring|]. intros j Hj. rewrite K by lia. ring.
Qed.
(** If all values are near to v, the extrapolated one is. *)
Lemma estep_near T c0 l v e : 1 < T -> (1 <= c0)%nat -> (forall c, (c < length l)%nat -> Rabs (nth c l 0 - v) <= e) -> forall c, (c < length (estep (T ^ c0) l))%nat -> Rabs (nth c (estep (T ^ c0) l) 0 - v) <= e * ((T ^ c0 + 1) / (T ^ c0 - 1)).
Proof.
  intros HT Hc H c Hl. rewrite estep_length in Hl. rewrite estep_nth by lia. pose proof (pow_gt1 T c0 HT Hc) as Q. set (t := T ^ c0) in *. pose proof (H (S c) ltac:(lia)) as H1. pose proof (H c ltac:(lia)) as H2. set (y := nth (S c) l 0) in *. set (x := nth c l 0) in *.
  replace ((y * t - x) / (t - 1) - v) with (((y - v) * t - (x - v)) / (t - 1)) by (field; lra). rewrite Rabs_div by lra. rewrite (Rabs_right (t - 1)) by lra. replace (e * ((t + 1) / (t - 1))) with ((e * t + e) / (t - 1)) by (field; lra). apply Rmult_le_compat_r; [left; apply Rinv_0_lt_compat; lra|].
  apply Rabs_le. apply Rabs_le_between in H1. apply Rabs_le_between in H2. nra.
Qed.
Fixpoint amp (T : R) (c k : nat) : R := match k with O => 1 | S k => ((T ^ c + 1) / (T ^ c - 1)) * amp T (S c) k end.
Lemma extra_near T k : 1 < T -> forall c0 l v e, (1 <= c0)%nat -> (forall c, (c < length l)%nat -> Rabs (nth c l 0 - v) <= e) ->
  forall c, (c < length (extra T c0 k l))%nat -> Rabs (nth c (extra T c0 k l) 0 - v) <= e * amp T c0 k.
Proof.
  intros HT. induction k as [|k IH]; intros c0 l v e Hc H c Hl; cbn [extra amp] in *; [rewrite Rmult_1_r; apply H; exact Hl|]. rewrite <- Rmult_assoc. apply IH; [lia| |exact Hl]. apply estep_near; assumption.
Qed.
Lemma amp_end T c k : amp T c (S k) = amp T c k * ((T ^ (c + k) + 1) / (T ^ (c + k) - 1)).
Proof.
  revert c. induction k as [|k IH]; intros c; [cbn [amp]; rewrite Nat.add_0_r; ring|]. change (amp T c (S (S k))) with (((T ^ c + 1) / (T ^ c - 1)) * amp T (S c) (S k)). rewrite IH. cbn [amp]. replace (S c + k)%nat with (c + S k)%nat by lia. ring.
Qed.
Lemma amp_amplification T k : amp T 1 k = amplification T k.
Proof. induction k as [|k IH]; [reflexivity|]. rewrite amp_end, IH. reflexivity. Qed.
(** ** One entry of the rows *)
Definition column (p : nat) (rows : list (list R)) : list R := map (fun r => nth p r 0) rows.
Definition width (n : nat) (rows : list (list R)) : Prop := forall r, In r rows -> length r = n.
Lemma step_width n tki rows : width n rows -> width n (extrapolate_step tki rows).
Proof.
  unfold extrapolate_step. intros W. assert (G : forall a b, width n a -> width n b -> width n (map2 (map2 (fun y x => (y * tki - x) / (tki - 1))) a b)).
  { induction a as [|x a IH]; intros [|y b] Wa Wb r; cbn; try contradiction. intros [<-|I]; [rewrite map2_length, (Wa x), (Wb y) by (left; reflexivity); lia|]. apply (IH b); [intros z Z; apply Wa; right; exact Z|intros z Z; apply Wb; right; exact Z|exact I]. }
  apply G; [|exact W]. intros r I. apply W. destruct rows; [contradiction|right; exact I].
Qed.
Lemma step_column n tki rows p : width n rows -> (p < n)%nat -> column p (extrapolate_step tki rows) = estep tki (column p rows).
Proof.
  unfold extrapolate_step, estep, column. intros W Hp. assert (G : forall a b, width n a -> width n b -> map (fun r => nth p r 0) (map2 (map2 (fun y x => (y * tki - x) / (tki - 1))) a b) = map2 (fun y x => (y * tki - x) / (tki - 1)) (map (fun r => nth p r 0) a) (map (fun r => nth p r 0) b)).
  { induction a as [|x a IH]; intros [|y b] Wa Wb; cbn; try reflexivity. f_equal; [apply (map2_nth (fun y x => (y * tki - x) / (tki - 1)) x y p 0 0 0); [rewrite (Wa x) by (left; reflexivity); exact Hp|rewrite (Wb y) by (left; reflexivity); exact Hp]|]. apply IH; [intros z Z; apply Wa; right; exact Z|intros z Z; apply Wb; right; exact Z]. }
  rewrite G; [|intros r I; apply W; destruct rows; [contradiction|right; exact I]|exact W]. f_equal. destruct rows; reflexivity.
Qed.
Lemma extrapolate_width n T k : forall c rows, width n rows -> width n (extrapolate T c k rows).
Proof. induction k as [|k IH]; intros c rows W; [exact W|]. cbn [extrapolate]. apply IH, step_width, W. Qed.
Lemma extrapolate_column n T p k : (p < n)%nat -> forall c rows, width n rows -> column p (extrapolate T c k rows) = extra T c k (column p rows).
Proof. intros Hp. induction k as [|k IH]; intros c rows W; [reflexivity|]. cbn [extrapolate extra]. rewrite IH by (apply step_width, W). rewrite (step_column n) by assumption. reflexivity. Qed.
Lemma last_row_ok s n rows : length rows = s_count s -> (1 <= s_count s)%nat -> width n rows -> exists r, last_row s rows = Ok r /\ length r = n /\ forall p, (p < n)%nat -> [nth p r 0] = extra (s_T s) 1 (s_count s - 1) (column p rows).
Proof.
  intros L Hc W. unfold last_row. destruct (Nat.eqb_spec (s_count s) 0); [lia|]. set (rs := extrapolate (s_T s) 1 (s_count s - 1) rows).
  assert (E : length rs = 1%nat). { unfold rs. assert (G : forall k c l, length (extrapolate (s_T s) c k l) = (length l - k)%nat). { induction k as [|k IH]; intros c l; cbn; [lia|]. rewrite IH. unfold extrapolate_step. rewrite map2_length, tl_length. lia. } rewrite G, L. lia. }
  assert (Wr : width n rs) by (apply extrapolate_width, W). destruct rs as [|r [|? ?]] eqn:Er; try discriminate. exists r. split; [reflexivity|]. split; [apply Wr; left; reflexivity|]. intros p Hp. rewrite <- (extrapolate_column n) by assumption. fold rs. rewrite Er. reflexivity.
Qed.
(** The rows of the table, for one entry; [q c] is the quotient with the steps of row c. *)
Fixpoint column_of (q : nat -> R) (c k : nat) (prev : option R) : list R :=
  match k with O => [] | S k => let v := if (match prev with Some y => if Req_EM_T y 0 then true else false | None => false end) then 0 else cut (q c) in v :: column_of q (S c) k (Some v) end.
Lemma column_plain q : forall k c prev, (forall i, (c <= i < c + k)%nat -> 1 / 10 ^ 16 < Rabs (q i)) -> (forall y, prev = Some y -> y <> 0) -> column_of q c k prev = map q (seq c k).
Proof.
  induction k as [|k IH]; intros c prev H P; [reflexivity|]. cbn [column_of seq map]. assert (E : (match prev with Some y => if Req_EM_T y 0 then true else false | None => false end) = false).
  { destruct prev as [y|]; [|reflexivity]. destruct (Req_EM_T y 0) as [E|E]; [|reflexivity]. exfalso. apply (P y eq_refl E). }
  rewrite E. cbv zeta. assert (C : cut (q c) = q c) by (unfold cut; destruct (Rle_dec _ _) as [K|K]; [specialize (H c ltac:(lia)); lra|reflexivity]). rewrite C. f_equal. apply IH; [intros i Hi; apply H; lia|]. intros y [= <-]. specialize (H c ltac:(lia)). intros Z. rewrite Z, Rabs_R0 in H. lra.
Qed.
Lemma column_zero q : forall k c prev, (forall i, (c <= i < c + k)%nat -> q i = 0) -> column_of q c k prev = map q (seq c k).
Proof.
  induction k as [|k IH]; intros c prev H; [reflexivity|]. cbn [column_of seq map]. assert (C : cut (q c) = 0) by (rewrite (H c) by lia; unfold cut; destruct (Rle_dec _ _); reflexivity). rewrite C.
  cbv zeta. replace (if match prev with Some y => if Req_EM_T y 0 then true else false | None => false end then 0 else 0) with 0 by (destruct (match prev with Some y => if Req_EM_T y 0 then true else false | None => false end); reflexivity). rewrite (H c) by lia. f_equal. apply IH. intros i Hi. apply H. lia.
Qed.
Lemma column_not_cut q m : not_cut m q -> column_of q 0 m None = map q (seq 0 m).
Proof. intros [H|H]; [apply column_plain; [intros i Hi; apply H; lia|discriminate]|apply column_zero; intros i Hi; apply H; lia]. Qed.
Lemma cut_near v q e : Rabs (q - v) <= e -> Rabs (cut q - v) <= e + 1 / 10 ^ 16.
Proof. intros H. unfold cut. apply Rabs_le_between in H. apply Rabs_le. destruct (Rle_dec (Rabs q) (1 / 10 ^ 16)) as [K|K]; [apply Rabs_le_between in K; lra|assert (0 < 1 / 10 ^ 16) by lra; lra]. Qed.
Lemma column_near q v e : forall k c prev, (forall i, (c <= i < c + k)%nat -> Rabs (q i - v) <= e) -> (forall y, prev = Some y -> Rabs (y - v) <= e + 1 / 10 ^ 16) ->
  forall i, (i < k)%nat -> Rabs (nth i (column_of q c k prev) 0 - v) <= e + 1 / 10 ^ 16.
Proof.
  induction k as [|k IH]; intros c prev H P i Hi; [lia|]. cbn [column_of]. cbv zeta. set (b := match prev with Some y => if Req_EM_T y 0 then true else false | None => false end). set (w := if b then 0 else cut (q c)).
  assert (V : Rabs (w - v) <= e + 1 / 10 ^ 16).
  { unfold w. destruct b eqn:B; [|apply cut_near, H; lia]. unfold b in B. destruct prev as [y|]; [|discriminate]. destruct (Req_EM_T y 0) as [->|]; [|discriminate]. apply P. reflexivity. }
  destruct i as [|i]; [exact V|]. cbn [nth]. apply IH; [intros j Hj; apply H; lia|intros y [= <-]; exact V|lia].
Qed.
Lemma column_length q : forall k c prev, length (column_of q c k prev) = k.
Proof. induction k; intros; cbn; auto. Qed.
