(** C125: numerical derivatives. *)
From Coq Require Import Reals Lra Lia List ZArith.
From Coquelicot Require Import Coquelicot.
From Verif Require Import MatSpec MatProofs DerSpec DerModel DerProofs DerProofs2 DerProofs3 DerProofs4 DerProofs5.
Import Lra.
Local Open Scope R_scope.

(** First derivatives: one number for each element of x. It is the partial derivative if f is a polynomial in this direction, of degree 2 * ((count + 1) / 2) or less, and no quotient is taken for zero. *)
Theorem c125_first : forall (s : setup) (f : list R -> R) (x : list R),
  s_first s = true -> length x = s_n s -> (1 <= s_count s)%nat -> 1 < s_T s -> 0 < s_step0 s -> 0 < s_step1 s -> 0 < s_epsilon s ->
  exists r, calculate_first s f x = Ok r /\ length r = length x /\
    forall i D, (i < length x)%nat -> polynomial D (along f x i) -> (D <= 2 * ((s_count s + 1) / 2))%nat ->
      not_cut (s_count s) (fun c => central f x i (step1 (s_step0 s) (s_step1 s) (s_epsilon s) (nth i x 0) / s_T s ^ c)) -> partial f x i (nth i r 0).
Proof.
  intros s f x F L Hc HT A B E. destruct (first_result s f x (conj A (conj B (conj E (conj HT (conj Hc F))))) L) as (r & Er & Lr & Hr). exists r. split; [exact Er|]. split; [exact Lr|]. intros i D Hi P HD NC.
  destruct (central_exact f x i _ (s_T s) (s_count s) D HT (step1_pos _ _ _ (nth i x 0) A B E) Hi Hc P HD) as (d & Pd & Ed). specialize (Hr i Hi). rewrite (column_not_cut _ _ NC), Ed in Hr. injection Hr as ->. exact Pd.
Qed.
Print Assumptions c125_first.
(** A quadratic function of two numbers, at (3, 2) *)
Definition quad (l : list R) : R := nth 0 l 0 * nth 0 l 0 + 3 * nth 0 l 0 * nth 1 l 0.
Lemma quad_along h : along quad [3; 2] 0 h = sum_f_R0 (fun k => match k with 0%nat => 27 | 1%nat => 12 | 2%nat => 1 | _ => 0 end * h ^ k) 2.
Proof. unfold along, quad. cbn. ring. Qed.
Lemma quad_central h : h <> 0 -> central quad [3; 2] 0 h = 12.
Proof. intros H. unfold central. rewrite !quad_along. cbn. field. exact H. Qed.
Example c125_first_example : exists r, calculate_first (der_new 2 true false 2) quad [3; 2] = Ok r /\ partial quad [3; 2] 0 (nth 0 r 0).
Proof.
  destruct (c125_first (der_new 2 true false 2) quad [3; 2] eq_refl eq_refl) as (r & Er & _ & H); try (cbn; lra); [cbn; lia|]. exists r. split; [exact Er|]. apply (H 0%nat 2%nat); [cbn; lia| |cbn; lia|].
  - exists (fun k => match k with 0%nat => 27 | 1%nat => 12 | 2%nat => 1 | _ => 0 end). exact quad_along.
  - left. intros c _. pose proof (step1_pos (s_step0 (der_new 2 true false 2)) (s_step1 (der_new 2 true false 2)) (s_epsilon (der_new 2 true false 2)) (nth 0 [3; 2] 0) ltac:(cbn; lra) ltac:(cbn; lra) ltac:(cbn; lra)) as P.
    assert (0 < s_T (der_new 2 true false 2) ^ c) by (apply pow_lt; cbn; lra). rewrite quad_central; [rewrite Rabs_right; lra|]. apply Rgt_not_eq, Rdiv_lt_0_compat; assumption.
Qed.

(** For any function with a partial derivative the result is near to it if the step is short enough, up to the numbers that are taken for zero and amplified by the extrapolation. *)
Theorem c125_first_converges : forall (f : list R -> R) (x : list R) (i : nat) (d : R), partial f x i d -> (i < length x)%nat -> forall eps, 0 < eps -> exists delta, 0 < delta /\
  forall s, s_first s = true -> length x = s_n s -> (1 <= s_count s)%nat -> 1 < s_T s -> 0 < s_step0 s -> 0 < s_step1 s -> 0 < s_epsilon s ->
    step1 (s_step0 s) (s_step1 s) (s_epsilon s) (nth i x 0) < delta ->
    exists r, calculate_first s f x = Ok r /\ Rabs (nth i r 0 - d) <= amplification (s_T s) (s_count s - 1) * (eps + 1 / 10 ^ 16).
Proof.
  intros f x i d P Hi eps He. destruct (central_converges f x i d P Hi eps He) as (delta & D0 & D). exists delta. split; [exact D0|]. intros s F L Hc HT A B E Hs.
  destruct (first_result s f x (conj A (conj B (conj E (conj HT (conj Hc F))))) L) as (r & Er & Lr & Hr). exists r. split; [exact Er|]. specialize (Hr i Hi). change (nth i r 0) with (nth 0 [nth i r 0] 0). rewrite Hr. apply extra_one; [exact HT|exact Hc|]. intros c _. apply D. apply shrink; [exact HT|]. split; [apply step1_pos; assumption|exact Hs].
Qed.
Print Assumptions c125_first_converges.
Example c125_first_converges_example : partial (fun l => exp (nth 0 l 0)) [1] 0 (exp 1).
Proof. unfold partial. cbn. auto_derive; [exact Logic.I|ring]. Qed.

(** Second derivatives: a symmetric matrix, in the given array. An entry on the diagonal is the second derivative for polynomials of degree 2 * ((count + 1) / 2) + 1 or less, another one is the mixed derivative (in either order) for polynomials of this total degree. *)
Theorem c125_second : forall (s : setup) (f : list R -> R) (x storage : list R),
  s_second s = true -> length x = s_n s -> (length x * length x <= length storage)%nat -> (1 <= s_count s)%nat -> 1 < s_T s -> 0 < s_step0 s -> 0 < s_step1 s ->
  exists H, calculate_second s f x storage = Ok H /\ rows H = length x /\ cols H = length x /\ length (data H) = length storage /\
    (forall k, (length x * length x <= k)%nat -> nth_error (data H) k = nth_error storage k) /\
    forall i j, (i <= j < length x)%nat -> exists d, entry H (Z.of_nat i) (Z.of_nat j) = Some d /\ entry H (Z.of_nat j) (Z.of_nat i) = Some d /\
      forall D, (if Nat.eqb i j then polynomial D (along f x i) else polynomial2 D (around f x i j)) -> (D <= 2 * ((s_count s + 1) / 2) + 1)%nat ->
        not_cut (s_count s) (fun c => central2 f x i j (step2 (s_step0 s) (s_step1 s) (nth i x 0) / s_T s ^ c) (step2 (s_step0 s) (s_step1 s) (nth j x 0) / s_T s ^ c)) ->
        partial2 f x i j d /\ partial2 f x j i d.
Proof.
  intros s f x storage F L W Hc HT A B. destruct (second_result s f x storage (conj A (conj B (conj HT (conj Hc F)))) L W) as (H & r & EH & BH & Hr). exists H. split; [exact EH|]. destruct BH as [BR BC BL BE BB]. split; [exact BR|]. split; [exact BC|]. split; [exact BL|]. split; [exact BB|].
  intros i j Hij. exists (nth (idx (length x) (i, j)) r 0). split; [|split].
  - rewrite BE; [|unfold inside, nrows, ncols; cbn [rows cols]; lia]. unfold sym_entry. rewrite Z.min_l, Z.max_r, !Nat2Z.id by lia. reflexivity.
  - rewrite BE; [|unfold inside, nrows, ncols; cbn [rows cols]; lia]. unfold sym_entry. rewrite Z.min_r, Z.max_l, !Nat2Z.id by lia. reflexivity.
  - intros D P HD NC. specialize (Hr i j Hij). rewrite (column_not_cut _ _ NC) in Hr. destruct (Nat.eqb_spec i j) as [<-|N].
    + destruct (central2_exact f x i _ (s_T s) (s_count s) D HT (step2_pos _ _ (nth i x 0) A B) ltac:(lia) Hc P HD) as (d & Pd & Ed). rewrite Ed in Hr. injection Hr as ->. auto.
    + destruct (mixed_quotient_exact f x i j _ _ (s_T s) (s_count s) D HT (step2_pos _ _ (nth i x 0) A B) (step2_pos _ _ (nth j x 0) A B) ltac:(lia) ltac:(lia) N Hc P HD) as (d & Pd & Pd2 & Ed). rewrite Ed in Hr. injection Hr as ->. auto.
Qed.
Print Assumptions c125_second.
Lemma quad_around u v : around quad [3; 2] 0 1 u v = sum_f_R0 (fun a => sum_f_R0 (fun b => match a, b with 0%nat, 0%nat => 27 | 1%nat, 0%nat => 12 | 0%nat, 1%nat => 9 | 2%nat, 0%nat => 1 | 1%nat, 1%nat => 3 | _, _ => 0 end * u ^ a * v ^ b) 2) 2.
Proof. unfold around, quad. cbn. ring. Qed.
Lemma quad_central2 h k : h <> 0 -> k <> 0 -> central2 quad [3; 2] 0 1 h k = 3.
Proof. intros H K. unfold central2. cbn [Nat.eqb]. rewrite !quad_around. cbn. field. auto. Qed.
Example c125_second_example : exists H d, calculate_second (der_new 2 false true 4) quad [3; 2] [0; 0; 0; 0; 7] = Ok H /\ entry H 0 1 = Some d /\ partial2 quad [3; 2] 0 1 d /\ nth_error (data H) 4 = Some 7.
Proof.
  destruct (c125_second (der_new 2 false true 4) quad [3; 2] [0; 0; 0; 0; 7] eq_refl eq_refl) as (H & EH & _ & _ & _ & Bh & He); try (cbn; lra); [cbn; lia|cbn; lia|]. destruct (He 0%nat 1%nat ltac:(cbn; lia)) as (d & E1 & _ & P). exists H, d. split; [exact EH|]. split; [exact E1|]. split; [|rewrite Bh; [reflexivity|cbn; lia]]. apply (P 2%nat).
  - cbn [Nat.eqb]. eexists. split; [|exact quad_around]. intros [|[|[|a]]] [|[|[|b]]] L; try reflexivity; lia.
  - cbn. lia.
  - left. intros c _. assert (0 < s_T (der_new 2 false true 4) ^ c) by (apply pow_lt; cbn; lra). pose proof (step2_pos (s_step0 (der_new 2 false true 4)) (s_step1 (der_new 2 false true 4)) (nth 0 [3; 2] 0) ltac:(cbn; lra) ltac:(cbn; lra)) as P1. pose proof (step2_pos (s_step0 (der_new 2 false true 4)) (s_step1 (der_new 2 false true 4)) (nth 1 [3; 2] 0) ltac:(cbn; lra) ltac:(cbn; lra)) as P2.
    rewrite quad_central2; [rewrite Rabs_right; lra| |]; apply Rgt_not_eq, Rdiv_lt_0_compat; assumption.
Qed.

(** The second derivatives are near to the derivatives of f if the steps are short enough. *)
Theorem c125_second_converges : forall (f : list R -> R) (x : list R) (i j : nat) (d : R), (if Nat.eqb i j then twice f x i d else mixed f x i j d) -> (i <= j < length x)%nat -> forall eps, 0 < eps -> exists delta, 0 < delta /\
  forall s storage, s_second s = true -> length x = s_n s -> (length x * length x <= length storage)%nat -> (1 <= s_count s)%nat -> 1 < s_T s -> 0 < s_step0 s -> 0 < s_step1 s ->
    step2 (s_step0 s) (s_step1 s) (nth i x 0) < delta -> step2 (s_step0 s) (s_step1 s) (nth j x 0) < delta ->
    exists H v, calculate_second s f x storage = Ok H /\ entry H (Z.of_nat i) (Z.of_nat j) = Some v /\ entry H (Z.of_nat j) (Z.of_nat i) = Some v /\
      Rabs (v - d) <= amplification (s_T s) (s_count s - 1) * (eps + 1 / 10 ^ 16).
Proof.
  intros f x i j d P Hij eps He.
  assert (G : exists delta, 0 < delta /\ forall h k, 0 < h < delta -> 0 < k < delta -> (i = j -> h = k) -> Rabs (central2 f x i j h k - d) <= eps).
  { destruct (Nat.eqb_spec i j) as [<-|N].
    - destruct (central2_converges f x i d P ltac:(lia) eps He) as (delta & D0 & D). exists delta. split; [exact D0|]. intros h k H1 H2 H3. apply D; auto.
    - destruct (mixed_converges f x i j d P N eps He) as (delta & D0 & D). exists delta. split; [exact D0|]. intros h k H1 H2 _. apply D; assumption. }
  destruct G as (delta & D0 & D). exists delta. split; [exact D0|]. intros s storage F L W Hc HT A B Hs1 Hs2.
  destruct (second_result s f x storage (conj A (conj B (conj HT (conj Hc F)))) L W) as (H & r & EH & BH & Hr). exists H, (nth (idx (length x) (i, j)) r 0). split; [exact EH|]. destruct BH as [BR BC BL BE BB]. split; [|split].
  - rewrite BE; [|unfold inside, nrows, ncols; cbn [rows cols]; lia]. unfold sym_entry. rewrite Z.min_l, Z.max_r, !Nat2Z.id by lia. reflexivity.
  - rewrite BE; [|unfold inside, nrows, ncols; cbn [rows cols]; lia]. unfold sym_entry. rewrite Z.min_r, Z.max_l, !Nat2Z.id by lia. reflexivity.
  - specialize (Hr i j Hij). set (v := nth (idx (length x) (i, j)) r 0) in *. change v with (nth 0 [v] 0). rewrite Hr. apply extra_one; [exact HT|exact Hc|]. intros c _.
    apply D; [apply shrink; [exact HT|]; split; [apply step2_pos; assumption|exact Hs1]|apply shrink; [exact HT|]; split; [apply step2_pos; assumption|exact Hs2]|intros <-; reflexivity].
Qed.
Print Assumptions c125_second_converges.
Example c125_second_converges_example : twice (fun l => exp (nth 0 l 0)) [0] 0 1 /\ mixed (fun l => nth 0 l 0 * exp (nth 1 l 0)) [5; 0] 0 1 1.
Proof.
  split.
  - exists 1, exp. split; [lra|]. split; [intros h _; unfold along; cbn; auto_derive; [exact Logic.I|rewrite Rplus_0_l; ring]|]. replace 1 with (exp 0) by apply exp_0. apply is_derive_exp.
  - exists 1, (fun _ v => exp v), (fun _ v => exp v). split; [lra|]. split; [intros u v _ _; split; [unfold around; cbn; auto_derive; [exact Logic.I|rewrite Rplus_0_l; ring]|apply is_derive_exp]|]. split; [apply exp_0|].
    intros eps He. pose proof (derivable_continuous_pt exp 0 (derivable_pt_exp 0)) as C. destruct (C eps He) as (delta & D0 & D). exists delta. split; [exact D0|]. intros u v _ Hv. destruct (Req_dec v 0) as [->|N]; [rewrite exp_0, Rminus_eq_0, Rabs_R0; exact He|].
    specialize (D v). unfold dist in D. cbn in D. unfold R_dist in D. rewrite exp_0 in D. apply D. split; [split; [exact Logic.I|auto]|]. rewrite Rminus_0_r. exact Hv.
Qed.

(** The arrays of the announced size are large enough. *)
Theorem c125_sizes : forall (s : setup), (s_first s = true -> (first_used s (s_n s) <= work_size s)%nat /\ (s_n s <= storage_size1 s)%nat) /\ (s_second s = true -> (second_used s (s_n s) <= work_size s)%nat /\ (s_n s * s_n s <= storage_size2 s)%nat).
Proof. intros s. unfold first_used, second_used, work_size, storage_size1, storage_size2. split; intros ->; lia. Qed.
Print Assumptions c125_sizes.
Example c125_sizes_example : work_size (der_new 2 true true 3) = 24%nat.
Proof. reflexivity. Qed.

(** Derivatives that were not requested and arguments of another length are rejected. *)
Theorem c125_throws : forall (s : setup) (f : list R -> R) (x storage : list R),
  (s_first s = false \/ length x <> s_n s -> calculate_first s f x = Throw) /\ (s_second s = false \/ length x <> s_n s -> calculate_second s f x storage = Throw).
Proof.
  intros s f x storage. unfold calculate_first, calculate_second. split; intros H; destruct (Nat.ltb_spec (s_n s) (length x)); try reflexivity.
  - destruct (s_first s); [|reflexivity]. destruct H as [|H]; [discriminate|]. cbn [negb]. destruct (Nat.eqb_spec (length x * 1) (s_n s * 1)); [lia|reflexivity].
  - destruct (s_second s); [|reflexivity]. destruct H as [|H]; [discriminate|]. cbn [negb]. destruct (Nat.eqb_spec (length x * length x) (s_n s * s_n s)); [nia|reflexivity].
Qed.
Print Assumptions c125_throws.

(** Claim: an argument shorter than the announced length is accepted ("in case n is smaller"). Refuted: the result cannot be restructured. *)
Theorem c125_shorter_refuted : forall (f : list R -> R) (x storage : list R) (n count : nat), (length x < n)%nat -> calculate_first (der_new n true true count) f x = Throw /\ calculate_second (der_new n true true count) f x storage = Throw.
Proof. intros f x storage n count H. destruct (c125_throws (der_new n true true count) f x storage) as [T1 T2]. split; [apply T1|apply T2]; right; cbn [s_n der_new]; lia. Qed.
Print Assumptions c125_shorter_refuted.
Example c125_shorter_example : calculate_first (der_new 3 true true 4) quad [3; 2] = Throw.
Proof. apply (c125_shorter_refuted quad [3; 2] []). cbn. lia. Qed.

(** Claim: every number of steps gives a result or an error. Refuted: with no step at all, a vector is used outside of its range. *)
Theorem c125_count_refuted : forall (f : list R -> R) (x storage : list R), calculate_first (der_new (length x) true true 0) f x = UB /\ calculate_second (der_new (length x) true true 0) f x storage = UB.
Proof. intros f x storage. unfold calculate_first, calculate_second, last_row. cbn [der_new s_n s_first s_second s_count]. rewrite Nat.ltb_irrefl, !Nat.eqb_refl. split; reflexivity. Qed.
Print Assumptions c125_count_refuted.

(** Claim: the derivatives of all polynomials of the degree in c125_first are found. Refuted: where the first quotient is zero by chance the result is zero, although the derivative is -25. *)
Definition wave (l : list R) : R := 10 ^ 12 * (nth 0 l 0 ^ 3 - (1 / (2 * 10 ^ 5)) ^ 2 * nth 0 l 0).
Theorem c125_zero_refuted : forall count, (1 <= count)%nat -> calculate_first (der_new 1 true false count) wave [0] = Ok [0] /\ partial wave [0] 0 (-25) /\ polynomial 3 (along wave [0] 0).
Proof.
  intros count Hc. split; [|split].
  - destruct (first_result (der_new 1 true false count) wave [0]) as (r & -> & Lr & Hr); [repeat split; cbn; try lra; exact Hc|reflexivity|]. cbn [length] in Lr. destruct r as [|v [|? ?]]; try discriminate. specialize (Hr 0%nat ltac:(cbn; lia)). cbn [nth] in Hr. do 2 f_equal.
    set (q := fun c => _) in Hr. assert (Q0 : q 0%nat = 0). { unfold q, central, along, wave, step1. cbn. rewrite Rabs_R0. destruct (Rlt_dec 0 _) as [K|K]; [|exfalso; lra]. field. }
    assert (Z : forall c k prev, prev = Some 0 -> column_of q c k prev = repeat 0 k). { intros c k. revert c. induction k as [|k IH]; intros c prev ->; [reflexivity|]. cbn [column_of repeat]. destruct (Req_EM_T 0 0) as [_|K]; [|contradiction]. f_equal. apply IH. reflexivity. }
    cbn [s_count s_T der_new] in Hr. destruct count as [|m]; [lia|]. assert (C : column_of q 0 (S m) None = repeat 0 (S m)). { cbn [column_of repeat]. replace (cut (q 0%nat)) with 0 by (rewrite Q0; unfold cut; destruct (Rle_dec _ _); reflexivity). f_equal. apply Z. reflexivity. }
    rewrite C in Hr. assert (E : forall k c n, exists p, extra 2 c k (repeat 0 n) = repeat 0 p).
    { induction k as [|k IH]; intros c n; [eexists; reflexivity|]. cbn [extra]. assert (X : estep (2 ^ c) (repeat 0 n) = repeat 0 (n - 1)). { unfold estep. destruct n as [|n]; [reflexivity|]. cbn [repeat tl]. rewrite Nat.sub_succ, Nat.sub_0_r. change (0 :: repeat 0 n) with (repeat 0 (S n)). induction n as [|n IHn]; [reflexivity|]. cbn [repeat map2] in *. f_equal; [unfold Rdiv; ring|]. exact IHn. } rewrite X. apply IH. }
    destruct (E (S m - 1)%nat 1%nat (S m)) as (p & Ep). rewrite Ep in Hr. destruct p as [|p]; [discriminate|]. injection Hr as ->. reflexivity.
  - unfold partial, wave. cbn. auto_derive; [exact Logic.I|]. field.
  - exists (fun k => match k with 1%nat => - 25 | 3%nat => 10 ^ 12 | _ => 0 end). intros h. unfold along, wave. cbn. field.
Qed.
Print Assumptions c125_zero_refuted.
