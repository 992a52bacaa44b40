(** Proofs for numerical derivatives: the pairs of the second derivatives, the calculations. *)
From Coq Require Import Reals Lra Lia List ZArith.
From Coquelicot Require Import Coquelicot.
From Verif Require Import MatSpec MatProofs DerSpec DerModel DerProofs DerProofs2 DerProofs3.
Import Lra.
Local Open Scope R_scope.

(** ** Steps *)
Lemma divn_nth T c l i : nth i (divn T c l) 0 = nth i l 0 / T ^ c.
Proof. unfold divn. replace 0 with (0 / T ^ c) at 1 by (unfold Rdiv; ring). apply (map_nth (fun h => h / T ^ c)). Qed.
Lemma opp_nth l i : nth i (map Ropp l) 0 = - nth i l 0.
Proof. replace 0 with (- 0) at 1 by ring. apply (map_nth Ropp). Qed.
Lemma first_steps_nth s x i : (i < length x)%nat -> nth i (first_steps s x) 0 = step1 (s_step0 s) (s_step1 s) (s_epsilon s) (nth i x 0).
Proof. intros H. unfold first_steps, step1. set (g := fun v => _). rewrite (nth_indep _ 0 (g 0)) by (rewrite map_length; exact H). rewrite map_nth. reflexivity. Qed.
Lemma second_steps_nth s x i : (i < length x)%nat -> nth i (second_steps s x) 0 = step2 (s_step0 s) (s_step1 s) (nth i x 0).
Proof. intros H. unfold second_steps, step2. set (g := fun v => _). rewrite (nth_indep _ 0 (g 0)) by (rewrite map_length; exact H). rewrite map_nth. reflexivity. Qed.
Lemma step1_pos a b e v : 0 < a -> 0 < b -> 0 < e -> 0 < step1 a b e v.
Proof. intros A B E. unfold step1. destruct (Rlt_dec _ _); [lra|]. apply Rmult_lt_0_compat; lra. Qed.
Lemma step2_pos a b v : 0 < a -> 0 < b -> 0 < step2 a b v.
Proof. intros A B. unfold step2. destruct (Rlt_dec _ _); [lra|]. apply Rmult_lt_0_compat; lra. Qed.
(** ** The quotients *)
Lemma first_dif_central f x T c hl i : first_dif f x (divn T c hl) (divn T c (map Ropp hl)) i = central f x i (nth i hl 0 / T ^ c).
Proof.
  unfold first_dif, central, along. cbv zeta. rewrite !divn_nth, opp_nth. replace (- nth i hl 0 / T ^ c) with (- (nth i hl 0 / T ^ c)) by (unfold Rdiv; ring). set (h := nth i hl 0 / T ^ c). replace (h - - h) with (2 * h) by ring. reflexivity.
Qed.
Lemma second_dif_central2 f x T c hl i j : second_dif f x (divn T c hl) (divn T c (map Ropp hl)) i j = central2 f x i j (nth i hl 0 / T ^ c) (nth j hl 0 / T ^ c).
Proof.
  unfold second_dif, central2, along, around. cbv zeta. rewrite !divn_nth, !opp_nth. replace (- nth i hl 0 / T ^ c) with (- (nth i hl 0 / T ^ c)) by (unfold Rdiv; ring). replace (- nth j hl 0 / T ^ c) with (- (nth j hl 0 / T ^ c)) by (unfold Rdiv; ring).
  set (h := nth i hl 0 / T ^ c). set (k := nth j hl 0 / T ^ c). destruct (Nat.eqb_spec i j) as [E|N].
  - replace k with h by (unfold h, k; rewrite E; reflexivity). replace (nth i x 0 + h + - h) with (nth i x 0) by ring. rewrite upd_self. replace (-2 * h) with (2 * - h) by ring. replace ((- h - h) * (- h - h)) with (4 * h ^ 2) by ring. f_equal. ring.
  - replace ((- h - h) * (- k - k)) with (4 * h * k) by ring. reflexivity.
Qed.
(** ** First derivatives *)
Definition valid1 (s : setup) : Prop := 0 < s_step0 s /\ 0 < s_step1 s /\ 0 < s_epsilon s /\ 1 < s_T s /\ (1 <= s_count s)%nat /\ s_first s = true.
Lemma first_result s f x : valid1 s -> length x = s_n s -> exists r, calculate_first s f x = Ok r /\ length r = length x /\ forall i, (i < length x)%nat ->
  [nth i r 0] = extra (s_T s) 1 (s_count s - 1) (column_of (fun c => central f x i (step1 (s_step0 s) (s_step1 s) (s_epsilon s) (nth i x 0) / s_T s ^ c)) 0 (s_count s) None).
Proof.
  intros (A & B & E & HT & Hc & F) L. unfold calculate_first. rewrite F. destruct (Nat.ltb_spec (s_n s) (length x)); [lia|]. rewrite L, Nat.eqb_refl. cbn [negb]. cbv zeta.
  set (hl := first_steps s x). assert (T0 : s_T s <> 0) by lra. assert (RO : forall hl hr prev, first_row f x hl hr prev = map (fun p => if skip prev p then 0 else cut (first_dif f x hl hr p)) (seq 0 (length x))) by reflexivity.
  destruct (last_row_ok s (length x) (table (first_row f x) (s_T s) hl (map Ropp hl) None (s_count s))) as (r & Er & Lr & Hr); [apply (table_length _)|exact Hc|apply (table_width _ _ _ _ RO)|].
  exists r. split; [exact Er|]. split; [congruence|]. intros i Hi. rewrite Hr by lia. f_equal. pose proof (table_column (first_row f x) (first_dif f x) (length x) (s_T s) T0 RO hl (map Ropp hl) i ltac:(lia) (s_count s) 0 None) as C. rewrite !divn_0 in C. rewrite C. cbn [option_map].
  assert (G : forall q1 q2 k c prev, (forall c, q1 c = q2 c) -> column_of q1 c k prev = column_of q2 c k prev) by (intros q1 q2 k; induction k as [|k IH]; intros c prev Q; [reflexivity|]; cbn [column_of]; rewrite Q; f_equal; apply IH; exact Q).
  apply G. intros c. rewrite first_dif_central. unfold hl. rewrite first_steps_nth by lia. reflexivity.
Qed.
Lemma half_bound D count j : (D <= 2 * ((count + 1) / 2))%nat -> (1 <= count)%nat -> (2 * j + 1 <= D)%nat -> (2 * j <= count - 1)%nat.
Proof. intros H Hc Hj. pose proof (Nat.mul_div_le (count + 1) 2). lia. Qed.
Lemma central_exact f x i h0 T count D : 1 < T -> 0 < h0 -> (i < length x)%nat -> (1 <= count)%nat -> polynomial D (along f x i) -> (D <= 2 * ((count + 1) / 2))%nat ->
  exists d, partial f x i d /\ extra T 1 (count - 1) (map (fun c => central f x i (h0 / T ^ c)) (seq 0 count)) = [d].
Proof.
  intros HT Hh Hi Hc P HD. set (N := (2 * ((count + 1) / 2))%nat). assert (HN : (2 <= N)%nat). { unfold N. pose proof (Nat.div_le_mono 2 (count + 1) 2 ltac:(lia) ltac:(lia)) as Q. change (2 / 2)%nat with 1%nat in Q. lia. }
  destruct (polynomial_more D N _ HD P) as (a & Ea). exists (a 1%nat). split; [apply (partial_exact a N); [exact Hi|lia|exact Ea]|].
  rewrite <- (pol_extra T (count - 1) (a 1%nat) (fun s => central f x i (h0 * s)) count HT Hc (le_n _)); [reflexivity|].
  eapply pol_ext; [reflexivity| |apply (central_pol a N h0 (count - 1)); [lra|lia|intros j Hj; apply (half_bound N count j); unfold N in *; lia]]. intros s _. cbv beta. unfold central. rewrite !Ea. reflexivity.
Qed.
(** ** Second derivatives: pairs *)
Definition prow (n i : nat) : list (nat * nat) := map (fun j => (i, j)) (seq i (n - i)).
Fixpoint base (n i : nat) : nat := match i with O => 0 | S i => base n i + (n - i) end.
Definition idx (n : nat) (ij : nat * nat) : nat := (base n (fst ij) + (snd ij - fst ij))%nat.
Lemma idx_prow n i : map (idx n) (prow n i) = seq (base n i) (n - i).
Proof.
  unfold prow. rewrite map_map. unfold idx. cbn [fst snd]. assert (G : forall k a, (i <= a)%nat -> map (fun j => (base n i + (j - i))%nat) (seq a k) = seq (base n i + (a - i)) k).
  { induction k as [|k IH]; intros a H; [reflexivity|]. cbn [seq map]. f_equal. rewrite IH by lia. f_equal. lia. }
  rewrite G by lia. f_equal. lia.
Qed.
Lemma idx_rows n : forall k a, map (idx n) (flat_map (prow n) (seq a k)) = seq (base n a) (base n (a + k) - base n a).
Proof.
  induction k as [|k IH]; intros a; [rewrite Nat.add_0_r, Nat.sub_diag; reflexivity|]. cbn [seq flat_map]. rewrite map_app, idx_prow, IH. assert (M : forall m, (base n (S a) <= base n (S a + m))%nat) by (induction m; [rewrite Nat.add_0_r; lia|]; rewrite Nat.add_succ_r; cbn [base]; cbn [base] in IHm; lia).
  specialize (M k). rewrite Nat.add_succ_r. rewrite Nat.add_succ_l in *. replace (base n (S (a + k)) - base n a)%nat with ((n - a) + (base n (S (a + k)) - base n (S a)))%nat by (cbn [base] in *; lia). rewrite seq_app. cbn [base]. reflexivity.
Qed.
Lemma pairs_idx n : map (idx n) (pairs n) = seq 0 (base n n).
Proof. change (pairs n) with (flat_map (prow n) (seq 0 n)). rewrite idx_rows. cbn [base]. f_equal. cbn [Nat.add]. lia. Qed.
Lemma pairs_length n : length (pairs n) = base n n.
Proof. rewrite <- (map_length (idx n)), pairs_idx. apply seq_length. Qed.
Lemma base_count n : base n n = pairs_count n.
Proof.
  assert (G : forall i, (i <= n)%nat -> (2 * base n i + i * i = i * (2 * n + 1))%nat) by (induction i as [|i IH]; intros H; [reflexivity|cbn [base]; specialize (IH ltac:(lia)); nia]).
  unfold pairs_count. specialize (G n (le_n _)). apply Nat.div_unique with 0%nat; [lia|nia].
Qed.
Lemma pairs_in n i j : In (i, j) (pairs n) <-> (i <= j < n)%nat.
Proof.
  unfold pairs. rewrite in_flat_map. split.
  - intros (a & Ha & I). apply in_map_iff in I as (b & [= <- <-] & Hb). apply in_seq in Ha. apply in_seq in Hb. lia.
  - intros H. exists i. split; [apply in_seq; lia|]. apply in_map_iff. exists j. split; [reflexivity|apply in_seq; lia].
Qed.
Lemma pairs_at n i j : (i <= j < n)%nat -> (idx n (i, j) < length (pairs n))%nat /\ nth (idx n (i, j)) (pairs n) (0%nat, 0%nat) = (i, j).
Proof.
  intros H. apply pairs_in in H. destruct (In_nth _ _ (0%nat, 0%nat) H) as (p & Hp & E). replace (idx n (i, j)) with p; [auto|]. rewrite <- E. rewrite pairs_length in Hp. rewrite <- (map_nth (idx n)).
  rewrite (nth_indep _ _ 0%nat) by (rewrite map_length, pairs_length; exact Hp). rewrite pairs_idx, seq_nth by exact Hp. reflexivity.
Qed.
Lemma second_row_ok f x hl hr prev : second_row f x hl hr prev = map (fun p => if skip prev p then 0 else cut (second_dif f x hl hr (fst (nth p (pairs (length x)) (0%nat, 0%nat))) (snd (nth p (pairs (length x)) (0%nat, 0%nat))))) (seq 0 (length (pairs (length x)))).
Proof.
  unfold second_row. set (l := pairs (length x)). set (g := fun pij : nat * (nat * nat) => _). assert (G : forall k a, map g (combine (seq a (length k)) k) = map (fun p => g (p, nth (p - a) k (0%nat, 0%nat))) (seq a (length k))).
  { induction k as [|y k IH]; intros a; [reflexivity|]. cbn [length seq combine map]. rewrite Nat.sub_diag. cbn [nth]. f_equal. rewrite IH. apply map_ext_in. intros p Hp. apply in_seq in Hp. replace (p - a)%nat with (S (p - S a)) by lia. reflexivity. }
  rewrite G. apply map_ext. intros p. rewrite Nat.sub_0_r. reflexivity.
Qed.
(** the walk of MakeTriangular0 *)
Definition pw (n : nat) (v : nat * nat -> R) (ij : nat * nat) : list (Z * res R) :=
  [(Z.of_nat (fst ij) + Z.of_nat n * Z.of_nat (snd ij), Ok (v ij)); (Z.of_nat (snd ij) + Z.of_nat n * Z.of_nat (fst ij), Ok (v ij))]%Z.
Lemma tri_row n r v l2 : (r < n)%nat -> forall k j, (j + S k = n)%nat ->
  triangular (Z.of_nat n) (Z.of_nat r * Z.of_nat n + Z.of_nat j) (map v (map (fun j => (r, j)) (seq j (S k))) ++ l2) = flat_map (pw n v) (map (fun j => (r, j)) (seq j (S k))) ++ triangular (Z.of_nat n) (Z.of_nat (S r) * Z.of_nat n + Z.of_nat (S r)) l2.
Proof.
  intros Hr. assert (Q : forall j, (j < n)%nat -> ((Z.of_nat r * Z.of_nat n + Z.of_nat j) / Z.of_nat n = Z.of_nat r /\ (Z.of_nat r * Z.of_nat n + Z.of_nat j) mod Z.of_nat n = Z.of_nat j)%Z).
  { intros j Hj. split; [rewrite Z.div_add_l by lia; rewrite Z.div_small by lia; lia|]. rewrite Z.add_comm, Z.mod_add by lia. apply Z.mod_small. lia. }
  induction k as [|k IH]; intros j Hj; destruct (Q j ltac:(lia)) as (Q1 & Q2).
  - cbn [seq map app flat_map triangular pw fst snd]. cbv zeta. rewrite Q1, Q2. destruct (Z.eqb_spec (Z.of_nat n) 0); [lia|]. destruct (Z.eqb_spec (Z.of_nat j) (Z.of_nat n - 1)); [|lia]. do 2 f_equal. f_equal. lia.
  - specialize (IH (S j) ltac:(lia)). remember (seq (S j) (S k)) as sq. replace (seq j (S (S k))) with (j :: sq) by (rewrite Heqsq; reflexivity). cbn [map app flat_map triangular pw fst snd]. cbv zeta. rewrite Q1, Q2. destruct (Z.eqb_spec (Z.of_nat n) 0); [lia|]. destruct (Z.eqb_spec (Z.of_nat j) (Z.of_nat n - 1)); [lia|]. do 2 f_equal.
    replace (Z.of_nat r * Z.of_nat n + Z.of_nat j + 1)%Z with (Z.of_nat r * Z.of_nat n + Z.of_nat (S j))%Z by lia. exact IH.
Qed.
Lemma tri_rows n v : forall k r, (r + k = n)%nat -> triangular (Z.of_nat n) (Z.of_nat r * Z.of_nat n + Z.of_nat r) (map v (flat_map (prow n) (seq r k))) = flat_map (pw n v) (flat_map (prow n) (seq r k)).
Proof.
  induction k as [|k IH]; intros r H; [reflexivity|]. cbn [seq flat_map]. rewrite map_app, flat_map_app. unfold prow at 1 3. replace (n - r)%nat with (S k) by lia. rewrite tri_row by lia. f_equal. apply IH. lia.
Qed.
Lemma list_as_map n (r : list R) : length r = length (pairs n) -> r = map (fun ij => nth (idx n ij) r 0) (pairs n).
Proof.
  intros L. rewrite <- (map_map (idx n) (fun p => nth p r 0)), pairs_idx, <- pairs_length, <- L. apply (nth_ext _ _ 0 0); [rewrite map_length, seq_length; reflexivity|]. intros p Hp.
  set (g := fun p => nth p r 0). rewrite (nth_indep (map g _) 0 (g 0%nat)) by (rewrite map_length, seq_length; exact Hp). rewrite map_nth, seq_nth by exact Hp. reflexivity.
Qed.
Definition sym_entry (n : nat) (r : list R) (i j : Z) : option R := Some (nth (idx n (Z.to_nat (Z.min i j), Z.to_nat (Z.max i j))) r 0).
Lemma triangular_ok n (storage r : list R) : (n * n <= length storage)%nat -> length r = length (pairs n) -> exists M, mwrites (Mat n n storage) (triangular (Z.of_nat n) 0 r) = Ok M /\ becomes (Mat n n storage) (sym_entry n r) M.
Proof.
  intros W L. set (v := fun ij => nth (idx n ij) r 0). replace (triangular (Z.of_nat n) 0 r) with (flat_map (pw n v) (pairs n)).
  2:{ rewrite (list_as_map n r L) at 1. symmetry. exact (tri_rows n v n 0%nat ltac:(lia)). }
  apply mwrites_ok; [exact W| |].
  - intros p e I. apply in_flat_map in I as ((i & j) & Iij & I). apply pairs_in in Iij. unfold pw in I. cbn [fst snd] in I. unfold inside, pos, nrows, ncols. cbn [rows cols]. destruct I as [[= <- <-]|[[= <- <-]|[]]].
    + exists (Z.of_nat i), (Z.of_nat j), (v (i, j)). split; [lia|]. split; [lia|]. split; [reflexivity|]. unfold sym_entry. rewrite Z.min_l, Z.max_r, !Nat2Z.id by lia. reflexivity.
    + exists (Z.of_nat j), (Z.of_nat i), (v (i, j)). split; [lia|]. split; [lia|]. split; [reflexivity|]. unfold sym_entry. rewrite Z.min_r, Z.max_l, !Nat2Z.id by lia. reflexivity.
  - intros i j [Hi Hj]. left. unfold nrows, ncols in *. cbn [rows cols] in *. apply in_map_iff. destruct (Z.le_gt_cases i j) as [Lij|Lij].
    + exists (pos (Mat n n storage) i j, Ok (v (Z.to_nat i, Z.to_nat j))). split; [reflexivity|]. apply in_flat_map. exists (Z.to_nat i, Z.to_nat j). split; [apply pairs_in; lia|]. left. unfold pos, nrows. cbn [fst snd rows]. f_equal. lia.
    + exists (pos (Mat n n storage) i j, Ok (v (Z.to_nat j, Z.to_nat i))). split; [reflexivity|]. apply in_flat_map. exists (Z.to_nat j, Z.to_nat i). split; [apply pairs_in; lia|]. right. left. unfold pos, nrows. cbn [fst snd rows]. f_equal. lia.
Qed.
(** ** Second derivatives *)
Definition valid2 (s : setup) : Prop := 0 < s_step0 s /\ 0 < s_step1 s /\ 1 < s_T s /\ (1 <= s_count s)%nat /\ s_second s = true.
Lemma second_result s f x storage : valid2 s -> length x = s_n s -> (length x * length x <= length storage)%nat -> exists M r, calculate_second s f x storage = Ok M /\ becomes (Mat (length x) (length x) storage) (sym_entry (length x) r) M /\ forall i j, (i <= j < length x)%nat ->
  [nth (idx (length x) (i, j)) r 0] = extra (s_T s) 1 (s_count s - 1) (column_of (fun c => central2 f x i j (step2 (s_step0 s) (s_step1 s) (nth i x 0) / s_T s ^ c) (step2 (s_step0 s) (s_step1 s) (nth j x 0) / s_T s ^ c)) 0 (s_count s) None).
Proof.
  intros (A & B & HT & Hc & F) L W. unfold calculate_second. rewrite F. destruct (Nat.ltb_spec (s_n s) (length x)); [lia|]. rewrite <- L, Nat.eqb_refl. cbn [negb]. cbv zeta.
  set (hl := second_steps s x). assert (T0 : s_T s <> 0) by lra. set (Q := fun hl hr p => second_dif f x hl hr (fst (nth p (pairs (length x)) (0%nat, 0%nat))) (snd (nth p (pairs (length x)) (0%nat, 0%nat)))).
  assert (RO : forall hl hr prev, second_row f x hl hr prev = map (fun p => if skip prev p then 0 else cut (Q hl hr p)) (seq 0 (length (pairs (length x))))) by (intros; apply second_row_ok).
  destruct (last_row_ok s (length (pairs (length x))) (table (second_row f x) (s_T s) hl (map Ropp hl) None (s_count s))) as (r & Er & Lr & Hr); [apply (table_length _)|exact Hc|apply (table_width _ _ _ _ RO)|].
  rewrite Er. cbn [bind]. destruct (triangular_ok (length x) storage r W Lr) as (M & EM & BM). exists M, r. split; [exact EM|]. split; [exact BM|]. intros i j Hij. destruct (pairs_at (length x) i j Hij) as (P1 & P2). rewrite Hr by exact P1. f_equal.
  pose proof (table_column (second_row f x) Q (length (pairs (length x))) (s_T s) T0 RO hl (map Ropp hl) _ P1 (s_count s) 0 None) as C. rewrite !divn_0 in C. rewrite C. cbn [option_map].
  assert (G : forall q1 q2 k c prev, (forall c, q1 c = q2 c) -> column_of q1 c k prev = column_of q2 c k prev) by (intros q1 q2 k; induction k as [|k IH]; intros c prev QQ; [reflexivity|]; cbn [column_of]; rewrite QQ; f_equal; apply IH; exact QQ).
  apply G. intros c. unfold Q. rewrite P2. cbn [fst snd]. rewrite second_dif_central2. unfold hl. rewrite !second_steps_nth by lia. reflexivity.
Qed.
Lemma half_bound2 count j : (1 <= count)%nat -> (2 * j + 2 <= 2 * ((count + 1) / 2) + 1)%nat -> (2 * j <= count - 1)%nat.
Proof. intros Hc Hj. pose proof (Nat.mul_div_le (count + 1) 2). lia. Qed.
Lemma degree_pos count : (1 <= count)%nat -> (2 <= 2 * ((count + 1) / 2))%nat.
Proof. intros Hc. pose proof (Nat.div_le_mono 2 (count + 1) 2 ltac:(lia) ltac:(lia)) as Q. change (2 / 2)%nat with 1%nat in Q. lia. Qed.
Lemma central2_exact f x i h0 T count D : 1 < T -> 0 < h0 -> (i < length x)%nat -> (1 <= count)%nat -> polynomial D (along f x i) -> (D <= 2 * ((count + 1) / 2) + 1)%nat ->
  exists d, partial2 f x i i d /\ extra T 1 (count - 1) (map (fun c => central2 f x i i (h0 / T ^ c) (h0 / T ^ c)) (seq 0 count)) = [d].
Proof.
  intros HT Hh Hi Hc P HD. pose proof (degree_pos count Hc) as HN. set (N := (2 * ((count + 1) / 2) + 1)%nat) in *.
  destruct (polynomial_more D N _ HD P) as (a & Ea). exists (2 * a 2%nat). split; [apply (partial2_exact a N); [exact Hi|lia|exact Ea]|].
  rewrite <- (pol_extra T (count - 1) (2 * a 2%nat) (fun s => central2 f x i i (h0 * s) (h0 * s)) count HT Hc (le_n _)); [reflexivity|].
  eapply pol_ext; [reflexivity| |apply (central2_pol a N h0 (count - 1)); [lra|lia|intros j Hj; apply half_bound2; unfold N in *; lia]]. intros s _. cbv beta. unfold central2. rewrite Nat.eqb_refl, !Ea.
  assert (F : f x = a 0%nat). { transitivity (along f x i 0); [unfold along; rewrite Rplus_0_r, upd_self; reflexivity|]. rewrite Ea. rewrite (sum_eq _ (fun k => if Nat.eqb k 0 then a k else 0)); [apply (sum_delta a); lia|]. intros k _. destruct k as [|k]; [cbn; ring|]. rewrite pow_ne_zero by lia. cbn [Nat.eqb]. ring. }
  rewrite F. reflexivity.
Qed.
Lemma mixed_quotient_exact f x i j h0 k0 T count D : 1 < T -> 0 < h0 -> 0 < k0 -> (i < length x)%nat -> (j < length x)%nat -> i <> j -> (1 <= count)%nat -> polynomial2 D (around f x i j) -> (D <= 2 * ((count + 1) / 2) + 1)%nat ->
  exists d, partial2 f x i j d /\ partial2 f x j i d /\ extra T 1 (count - 1) (map (fun c => central2 f x i j (h0 / T ^ c) (k0 / T ^ c)) (seq 0 count)) = [d].
Proof.
  intros HT Hh Hk Hi Hj Nij Hc P HD. pose proof (degree_pos count Hc) as HN. set (N := (2 * ((count + 1) / 2) + 1)%nat) in *.
  destruct (polynomial2_more D N _ HD P) as (c & Zc & Ec). exists (c 1%nat 1%nat). split; [apply (mixed_exact c N); try assumption; lia|]. split; [apply (mixed_exact_swap c N); try assumption; lia|].
  rewrite <- (pol_extra T (count - 1) (c 1%nat 1%nat) (fun s => central2 f x i j (h0 * s) (k0 * s)) count HT Hc (le_n _)); [reflexivity|].
  eapply pol_ext; [reflexivity| |apply (mixed_pol c N h0 k0 (count - 1)); [lra|lra|lia|exact Zc|intros l Hl; apply half_bound2; unfold N in *; lia]]. intros s _. cbv beta. unfold central2. destruct (Nat.eqb_spec i j); [contradiction|]. rewrite !Ec. reflexivity.
Qed.
