(** Proofs for numerical derivatives: derivatives of polynomials. *)
From Coq Require Import Reals Lra Lia List.
From Coquelicot Require Import Coquelicot.
From Verif Require Import DerSpec DerModel DerProofs DerProofs2.
Import Lra.
Local Open Scope R_scope.

(** Derivative of a polynomial around y *)
Definition dpoly (a : nat -> R) (D : nat) (h : R) : R := sum_f_R0 (fun k => INR k * a k * h ^ pred k) D.
Lemma poly_derive (a : nat -> R) D (y t : R) : is_derive (fun t => sum_f_R0 (fun k => a k * (t - y) ^ k) D) t (dpoly a D (t - y)).
Proof.
  unfold dpoly. induction D as [|D IH].
  - cbn [sum_f_R0]. apply (is_derive_ext (fun _ => a 0%nat)); [intros u; change (a 0%nat = a 0%nat * 1); ring|]. replace (INR 0 * a 0%nat * (t - y) ^ pred 0) with 0 by (cbn; ring). apply (is_derive_const (K := R_AbsRing) (V := R_NormedModule)).
  - apply (is_derive_ext (fun u => sum_f_R0 (fun k => a k * (u - y) ^ k) D + a (S D) * (u - y) ^ S D)); [reflexivity|]. change (sum_f_R0 (fun k => INR k * a k * (t - y) ^ pred k) (S D)) with (sum_f_R0 (fun k => INR k * a k * (t - y) ^ pred k) D + INR (S D) * a (S D) * (t - y) ^ D).
    apply (is_derive_plus (K := R_AbsRing) (V := R_NormedModule)); [exact IH|]. 
    replace (INR (S D) * a (S D) * (t - y) ^ D) with (a (S D) * (INR (S D) * 1 * (t - y) ^ pred (S D))) by (cbn [pred]; ring).
    apply (is_derive_scal (fun u => (u - y) ^ S D)). apply (is_derive_pow (fun u => u - y)). auto_derive; [exact Logic.I|ring].
Qed.
Lemma dpoly_0 a D : (1 <= D)%nat -> dpoly a D 0 = a 1%nat.
Proof.
  intros H. unfold dpoly. rewrite (sum_eq _ (fun k => if Nat.eqb k 1 then a k else 0)); [apply (sum_delta a), H|]. intros k _. destruct k as [|[|k]]; [cbn; ring|cbn; ring|]. cbn [pred]. rewrite pow_ne_zero by lia. cbn [Nat.eqb]. ring.
Qed.
Lemma dpoly_sum a D h : dpoly a (S D) h = sum_f_R0 (fun k => INR (S k) * a (S k) * h ^ k) D.
Proof. unfold dpoly. induction D as [|D IH]; [cbn; ring|]. change (sum_f_R0 (fun k => INR k * a k * h ^ pred k) (S (S D))) with (sum_f_R0 (fun k => INR k * a k * h ^ pred k) (S D) + INR (S (S D)) * a (S (S D)) * h ^ S D). rewrite IH. reflexivity. Qed.
(** a polynomial of degree D is one of any larger degree *)
Definition cutoff (D : nat) (a : nat -> R) (k : nat) : R := if (k <=? D)%nat then a k else 0.
Lemma sum_cutoff (a g : nat -> R) D N : (D <= N)%nat -> sum_f_R0 (fun k => a k * g k) D = sum_f_R0 (fun k => cutoff D a k * g k) N.
Proof.
  intros H. replace N with (D + (N - D))%nat by lia. induction (N - D)%nat as [|m IH].
  - rewrite Nat.add_0_r. apply sum_eq. intros k Hk. unfold cutoff. destruct (Nat.leb_spec k D); [reflexivity|lia].
  - replace (D + S m)%nat with (S (D + m)) by lia. cbn [sum_f_R0]. rewrite <- IH. unfold cutoff. destruct (Nat.leb_spec (S (D + m)) D); [lia|]. ring.
Qed.
Lemma polynomial_more D N p : (D <= N)%nat -> polynomial D p -> polynomial N p.
Proof. intros H (a & E). exists (cutoff D a). intros h. rewrite E. apply (sum_cutoff a (fun k => h ^ k)), H. Qed.
Lemma polynomial2_more D N p : (D <= N)%nat -> polynomial2 D p -> polynomial2 N p.
Proof.
  intros H (c & Z & E). exists c. split; [intros a b L; apply Z; lia|]. intros u v. rewrite E.
  assert (G : forall (g : nat -> R), (forall k, (D < k)%nat -> g k = 0) -> sum_f_R0 g D = sum_f_R0 g N).
  { intros g Hg. replace N with (D + (N - D))%nat by lia. induction (N - D)%nat as [|m IH]; [rewrite Nat.add_0_r; reflexivity|]. replace (D + S m)%nat with (S (D + m)) by lia. cbn [sum_f_R0]. rewrite <- IH, (Hg (S (D + m))) by lia. ring. }
  rewrite G; [apply sum_eq; intros a _; apply G; intros b Hb; rewrite Z by lia; ring|]. intros a Ha. apply sum_eq_R0. intros b _. rewrite Z by lia. ring.
Qed.

(** ** Partial derivatives *)
Lemma upd_twice i (u v : R) x : upd i u (upd i v x) = upd i u x.
Proof.
  revert i. induction x as [|a x IH]; intros [|i]; cbn; try reflexivity. rewrite IH. reflexivity.
Qed.
Lemma upd_self i (x : list R) : upd i (nth i x 0) x = x.
Proof. revert i. induction x as [|a x IH]; intros [|i]; cbn; try reflexivity. rewrite IH. reflexivity. Qed.
Lemma upd_swap i j (u v : R) x : i <> j -> upd i u (upd j v x) = upd j v (upd i u x).
Proof. revert i j. induction x as [|a x IH]; intros [|i] [|j] H; cbn; try reflexivity; try congruence. rewrite IH; [reflexivity|congruence]. Qed.
Lemma nth_upd_i i (u : R) x : (i < length x)%nat -> nth i (upd i u x) 0 = u.
Proof. intros H. apply nth_upd_same, H. Qed.
Lemma nth_upd_j i j (u : R) x : i <> j -> nth j (upd i u x) 0 = nth j x 0.
Proof. intros H. apply nth_upd_other. auto. Qed.
Lemma along_upd f x i t : (i < length x)%nat -> f (upd i t x) = along f x i (t - nth i x 0).
Proof. intros H. unfold along. f_equal. f_equal. ring. Qed.
Lemma partial_of (a : nat -> R) D f x i t : (i < length x)%nat -> (forall h, along f x i h = sum_f_R0 (fun k => a k * h ^ k) D) -> partial f (upd i t x) i (dpoly a D (t - nth i x 0)).
Proof.
  intros Hi E. unfold partial. rewrite nth_upd_i by exact Hi. apply (is_derive_ext (fun u => sum_f_R0 (fun k => a k * (u - nth i x 0) ^ k) D)); [|apply poly_derive].
  intros u. rewrite upd_twice, along_upd by exact Hi. symmetry. apply E.
Qed.
Lemma partial_exact (a : nat -> R) D f x i : (i < length x)%nat -> (1 <= D)%nat -> (forall h, along f x i h = sum_f_R0 (fun k => a k * h ^ k) D) -> partial f x i (a 1%nat).
Proof. intros Hi HD E. pose proof (partial_of a D f x i (nth i x 0) Hi E) as P. rewrite upd_self, Rminus_eq_0, dpoly_0 in P by exact HD. exact P. Qed.
Lemma partial2_exact (a : nat -> R) D f x i : (i < length x)%nat -> (2 <= D)%nat -> (forall h, along f x i h = sum_f_R0 (fun k => a k * h ^ k) D) -> partial2 f x i i (2 * a 2%nat).
Proof.
  intros Hi HD E. exists (fun t => dpoly a D (t - nth i x 0)). split; [intros t; apply partial_of; assumption|]. destruct D as [|D]; [lia|].
  apply (is_derive_ext (fun t => sum_f_R0 (fun k => (INR (S k) * a (S k)) * (t - nth i x 0) ^ k) D)); [intros t; symmetry; apply dpoly_sum|].
  replace (2 * a 2%nat) with (dpoly (fun k => INR (S k) * a (S k)) D (nth i x 0 - nth i x 0)); [apply poly_derive|]. rewrite Rminus_eq_0, dpoly_0 by lia. reflexivity.
Qed.
(** the function around x, in directions i and j *)
Lemma mixed_inner (c : nat -> nat -> R) D u v : sum_f_R0 (fun a => sum_f_R0 (fun b => c a b * u ^ a * v ^ b) D) D = sum_f_R0 (fun b => (sum_f_R0 (fun a => c a b * u ^ a) D) * v ^ b) D.
Proof.
  rewrite (sum_eq (fun b => _ * v ^ b) (fun b => sum_f_R0 (fun a => c a b * u ^ a * v ^ b) D)) by (intros b _; rewrite Rmult_comm, scal_sum; reflexivity).
  assert (G : forall N M, sum_f_R0 (fun a => sum_f_R0 (fun b => c a b * u ^ a * v ^ b) M) N = sum_f_R0 (fun b => sum_f_R0 (fun a => c a b * u ^ a * v ^ b) N) M).
  { intros N M. induction N as [|N IH]; [reflexivity|]. cbn [sum_f_R0]. rewrite IH, <- sum_plus. reflexivity. }
  apply G.
Qed.
Lemma mixed_exact (c : nat -> nat -> R) D f x i j : (i < length x)%nat -> (j < length x)%nat -> i <> j -> (1 <= D)%nat -> (forall u v, around f x i j u v = sum_f_R0 (fun a => sum_f_R0 (fun b => c a b * u ^ a * v ^ b) D) D) -> partial2 f x i j (c 1%nat 1%nat).
Proof.
  intros Hi Hj N HD E. set (al := fun u b => sum_f_R0 (fun a => c a b * u ^ a) D). exists (fun t => al (t - nth i x 0) 1%nat). split.
  - intros t. apply (partial_exact (al (t - nth i x 0)) D); [rewrite upd_length; exact Hj|exact HD|]. intros h. unfold al. rewrite <- mixed_inner, <- E. unfold along, around. rewrite nth_upd_j by exact N. do 2 f_equal. f_equal. ring.
  - unfold al. replace (c 1%nat 1%nat) with (dpoly (fun a => c a 1%nat) D (nth i x 0 - nth i x 0)) by (rewrite Rminus_eq_0; apply (dpoly_0 (fun a => c a 1%nat)), HD). apply (poly_derive (fun a => c a 1%nat)).
Qed.
Lemma around_swap f x i j u v : (i < length x)%nat -> (j < length x)%nat -> i <> j -> around f x i j u v = around f x j i v u.
Proof. intros Hi Hj N. unfold around. f_equal. apply upd_swap. auto. Qed.
Lemma mixed_exact_swap (c : nat -> nat -> R) D f x i j : (i < length x)%nat -> (j < length x)%nat -> i <> j -> (1 <= D)%nat -> (forall u v, around f x i j u v = sum_f_R0 (fun a => sum_f_R0 (fun b => c a b * u ^ a * v ^ b) D) D) -> partial2 f x j i (c 1%nat 1%nat).
Proof.
  intros Hi Hj N HD E. apply (mixed_exact (fun a b => c b a) D); auto. intros u v. rewrite around_swap, E by auto. rewrite mixed_inner. apply sum_eq. intros b _. rewrite Rmult_comm, scal_sum. apply sum_eq. intros a _. ring.
Qed.
