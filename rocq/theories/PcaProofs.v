From Coq Require Import Lia.
From Verif Require Export PcaModel PcaSpec.
From Verif Require Import DcProofs.
From Coq Require Import Lra.
Local Open Scope R_scope.

Lemma sumr_swap n m (f : nat -> nat -> R) : sumr n (fun i => sumr m (f i)) = sumr m (fun j => sumr n (fun i => f i j)).
Proof. induction n as [|n IH]; cbn [sumr]. { symmetry; apply sumr_zero; reflexivity. } rewrite IH, <- sumr_plus. reflexivity. Qed.
Lemma sumr_scal_r n c f : sumr n (fun i => f i * c) = sumr n f * c.
Proof. rewrite Rmult_comm, <- sumr_scal. apply sumr_ext. intros; ring. Qed.
Lemma sumr_delta n a f : (a < n)%nat -> sumr n (fun l => delta l a * f l) = f a.
Proof.
  induction n as [|n IH]; [lia|]. intros H; cbn [sumr]. destruct (Nat.eq_dec a n) as [ -> | E].
  - rewrite sumr_zero. 2:{ intros i Hi; unfold delta. destruct (Nat.eqb_spec i n); [lia|ring]. } unfold delta. rewrite Nat.eqb_refl. ring.
  - rewrite IH by lia. unfold delta. destruct (Nat.eqb_spec n a); [lia|ring].
Qed.
Lemma sumr_nonneg n f : (forall i, (i < n)%nat -> 0 <= f i) -> 0 <= sumr n f.
Proof. intros H; induction n as [|n IH]; cbn [sumr]; [lra|]. pose proof (H n ltac:(lia)). assert (0 <= sumr n f) by (apply IH; intros; apply H; lia). lra. Qed.
Lemma sumr_le n f g : (forall i, (i < n)%nat -> f i <= g i) -> sumr n f <= sumr n g.
Proof. intros H; induction n as [|n IH]; cbn [sumr]; [lra|]. pose proof (H n ltac:(lia)). assert (sumr n f <= sumr n g) by (apply IH; intros; apply H; lia). lra. Qed.
Lemma sumr_const n c : sumr n (fun _ => c) = INR n * c.
Proof. induction n as [|n IH]; [cbn; ring|]. cbn [sumr]. rewrite IH, S_INR. ring. Qed.
Lemma sumr_nonneg_0 n f : (forall i, (i < n)%nat -> 0 <= f i) -> sumr n f = 0 -> forall i, (i < n)%nat -> f i = 0.
Proof.
  induction n as [|n IH]; [lia|]. intros H E i Hi. cbn [sumr] in E. pose proof (H n ltac:(lia)).
  assert (0 <= sumr n f) by (apply sumr_nonneg; intros; apply H; lia).
  destruct (Nat.eq_dec i n) as [ -> | ]; [lra|]. apply IH; [intros; apply H; lia|lra|lia].
Qed.
Lemma sumr_split n m f : sumr (n + m) f = sumr n f + sumr m (fun i => f (n + i)%nat).
Proof. induction m as [|m IH]; [rewrite Nat.add_0_r; cbn; ring|]. rewrite Nat.add_succ_r; cbn [sumr]. rewrite IH. ring. Qed.

Lemma dot_ext n a b c d : (forall i, (i < n)%nat -> a i = c i) -> (forall i, (i < n)%nat -> b i = d i) -> dot n a b = dot n c d.
Proof. intros H K; apply sumr_ext; intros i Hi; rewrite H, K by easy; reflexivity. Qed.
(** Products of combinations of an orthonormal family. *)
Lemma parseval n m e a b : orthonormal n m e -> dot n (fun i => sumr m (fun l => a l * e l i)) (fun i => sumr m (fun l => b l * e l i)) = sumr m (fun l => a l * b l).
Proof.
  intros O. unfold dot.
  transitivity (sumr n (fun i => sumr m (fun l => sumr m (fun q => a l * b q * (e l i * e q i))))).
  { apply sumr_ext; intros i Hi. rewrite <- sumr_scal_r. apply sumr_ext; intros l Hl. rewrite <- sumr_scal. apply sumr_ext; intros q Hq. ring. }
  rewrite sumr_swap. apply sumr_ext; intros l Hl. rewrite sumr_swap.
  transitivity (sumr m (fun q => delta q l * (a l * b q))).
  { apply sumr_ext; intros q Hq. rewrite sumr_scal. pose proof (O l q Hl Hq) as E. unfold dot in E. rewrite E. unfold delta. rewrite (Nat.eqb_sym q l). ring. }
  rewrite sumr_delta by easy. reflexivity.
Qed.
Lemma bessel n m e w : orthonormal n m e -> sumr m (fun l => dot n (e l) w * dot n (e l) w) <= dot n w w.
Proof.
  intros O. set (c := fun l => dot n (e l) w).
  assert (P : 0 <= dot n (fun i => w i - sumr m (fun l => c l * e l i)) (fun i => w i - sumr m (fun l => c l * e l i))).
  { apply sumr_nonneg; intros i _; cbv beta. apply Rle_0_sqr. }
  assert (E : dot n (fun i => w i - sumr m (fun l => c l * e l i)) (fun i => w i - sumr m (fun l => c l * e l i))
    = dot n w w - 2 * sumr n (fun i => w i * sumr m (fun l => c l * e l i)) + dot n (fun i => sumr m (fun l => c l * e l i)) (fun i => sumr m (fun l => c l * e l i))).
  { unfold dot. rewrite <- sumr_scal, <- sumr_minus, <- sumr_plus. apply sumr_ext; intros; ring. }
  rewrite (parseval _ _ _ _ _ O) in E.
  assert (F : sumr n (fun i => w i * sumr m (fun l => c l * e l i)) = sumr m (fun l => c l * c l)).
  { transitivity (sumr n (fun i => sumr m (fun l => c l * (e l i * w i)))). { apply sumr_ext; intros i Hi. rewrite <- sumr_scal. apply sumr_ext; intros; ring. }
    rewrite sumr_swap. apply sumr_ext; intros l Hl. rewrite sumr_scal. reflexivity. }
  rewrite F in E. change (sumr m (fun l => c l * c l) <= dot n w w). lra.
Qed.

Section Svd.
Context (n k : nat) (X vt : mtx) (s : vec) (sv : svd_of n k X s vt).
Let m := Nat.min n k.
(** A combination of the columns of X. *)
Lemma svd_comb U w i : (forall i j, (i < n)%nat -> (j < k)%nat -> X i j = sumr m (fun l => U i l * s l * vt l j)) -> (i < n)%nat ->
  combination k X w i = sumr m (fun l => (s l * dot k (vt l) w) * col U l i).
Proof using.
  clear sv. intros H Hi. unfold combination.
  transitivity (sumr k (fun j => sumr m (fun l => U i l * s l * (vt l j * w j)))).
  { apply sumr_ext; intros j Hj. rewrite (H i j Hi Hj), <- sumr_scal_r. apply sumr_ext; intros; ring. }
  rewrite sumr_swap. apply sumr_ext; intros l Hl. rewrite sumr_scal. unfold dot, col. ring.
Qed.
Lemma svd_dot v w : dot n (combination k X v) (combination k X w) = sumr m (fun l => (s l * s l) * (dot k (vt l) v * dot k (vt l) w)).
Proof using sv.
  destruct sv as (_ & _ & _ & U & OU & H).
  rewrite (dot_ext n _ _ _ _ (fun i Hi => svd_comb U v i H Hi) (fun i Hi => svd_comb U w i H Hi)).
  rewrite (parseval n m (col U) _ _ OU). apply sumr_ext; intros; ring.
Qed.
(** The columns X d_a. *)
Lemma svd_scores a b : (a < m)%nat -> (b < m)%nat -> dot n (combination k X (vt a)) (combination k X (vt b)) = if (a =? b)%nat then s a * s a else 0.
Proof using sv.
  intros Ha Hb. rewrite svd_dot. destruct sv as (_ & _ & O & _).
  transitivity (sumr m (fun l => delta l a * (s l * s l * delta l b))).
  { apply sumr_ext; intros l Hl. rewrite (O l a Hl Ha), (O l b Hl Hb). ring. }
  rewrite sumr_delta by easy. unfold delta. destruct (a =? b)%nat; ring.
Qed.
(** X = (X V) V'. *)
Lemma svd_back i j : (i < n)%nat -> (j < k)%nat -> X i j = sumr m (fun l => combination k X (vt l) i * vt l j).
Proof using sv.
  intros Hi Hj. destruct sv as (_ & _ & O & U & OU & H). rewrite (H i j Hi Hj). apply sumr_ext; intros l Hl.
  rewrite (svd_comb U (vt l) i H Hi).
  transitivity (sumr m (fun q => delta q l * (s q * col U q i)) * vt l j). { rewrite sumr_delta by easy. unfold col. ring. }
  f_equal. apply sumr_ext; intros q Hq. rewrite (O q l Hq Hl). ring.
Qed.
Lemma svd_decreasing a b : (a <= b)%nat -> (b < m)%nat -> 0 <= s b <= s a.
Proof using sv.
  destruct sv as (P & D & _). fold m in P, D. intros Hab Hb. split; [apply P; easy|]. revert Hb.
  induction Hab as [|b Hab IH]; intros Hb; [lra|]. pose proof (IH ltac:(lia)). pose proof (D b Hb). lra.
Qed.
(** No combination that is perpendicular to the first a directions is longer than the a-th. *)
Lemma svd_max a w : (a < m)%nat -> (forall b, (b < a)%nat -> dot k (vt b) w = 0) -> dot n (combination k X w) (combination k X w) <= s a * s a * dot k w w.
Proof using sv.
  intros Ha Hw. rewrite svd_dot.
  assert (Q : 0 <= s a) by apply (svd_decreasing a a (le_n a) Ha).
  apply Rle_trans with (s a * s a * sumr m (fun l => dot k (vt l) w * dot k (vt l) w)).
  - rewrite <- sumr_scal. apply sumr_le. intros l Hl. destruct (Nat.lt_ge_cases l a) as [L|L]; [rewrite (Hw l L); lra|].
    pose proof (svd_decreasing a l L Hl). assert (s l * s l <= s a * s a) by (apply Rmult_le_compat; lra).
    pose proof (Rle_0_sqr (dot k (vt l) w)) as Q2; unfold Rsqr in Q2. apply Rmult_le_compat_r; assumption.
  - destruct sv as (_ & _ & O & _). apply Rmult_le_compat_l; [nra|]. apply (bessel k m vt w O).
Qed.
Lemma svd_total : sumr k (fun j => dot n (col X j) (col X j)) = sumr m (fun l => s l * s l).
Proof using sv.
  destruct sv as (_ & _ & O & U & OU & H).
  transitivity (sumr k (fun j => sumr m (fun l => (s l * s l) * (vt l j * vt l j)))).
  { apply sumr_ext; intros j Hj.
    rewrite (dot_ext n _ (col X j) (fun i => sumr m (fun l => (s l * vt l j) * col U l i)) (fun i => sumr m (fun l => (s l * vt l j) * col U l i))).
    2,3: intros i Hi; unfold col; rewrite (H i j Hi Hj); apply sumr_ext; intros; ring.
    rewrite (parseval n m (col U) _ _ OU). apply sumr_ext; intros; ring. }
  rewrite sumr_swap. apply sumr_ext; intros l Hl. rewrite sumr_scal. pose proof (O l l Hl Hl) as E. unfold dot in E. rewrite E. unfold delta. rewrite Nat.eqb_refl. ring.
Qed.
End Svd.
