(** Proofs for numerical derivatives: convergence of the quotients. *)
From Coq Require Import Reals Lra Lia List.
From Coquelicot Require Import Coquelicot.
From Verif Require Import DerSpec DerModel DerProofs DerProofs2 DerProofs3 DerProofs4.
Import Lra.
Local Open Scope R_scope.

Lemma derive_bound (g : R -> R) (x0 d : R) : is_derive g x0 d -> forall eps, 0 < eps -> exists delta, 0 < delta /\ forall h, Rabs h < delta -> Rabs (g (x0 + h) - g x0 - d * h) <= eps * Rabs h.
Proof.
  intros H eps He. apply is_derive_Reals in H. destruct (H eps He) as (delta & D). exists delta. split; [apply cond_pos|]. intros h Hh. destruct (Req_dec h 0) as [->|N]; [rewrite Rplus_0_r, Rabs_R0, !Rmult_0_r; rewrite Rminus_eq_0, Rminus_0_r, Rabs_R0; lra|].
  specialize (D h N Hh). replace (g (x0 + h) - g x0 - d * h) with (((g (x0 + h) - g x0) / h - d) * h) by (field; exact N). rewrite Rabs_mult. apply Rmult_le_compat_r; [apply Rabs_pos|lra].
Qed.
Lemma central_converges f x i d : partial f x i d -> (i < length x)%nat -> forall eps, 0 < eps -> exists delta, 0 < delta /\ forall h, 0 < h < delta -> Rabs (central f x i h - d) <= eps.
Proof.
  intros P Hi eps He. destruct (derive_bound _ _ _ P eps He) as (delta & D0 & D). exists delta. split; [exact D0|]. intros h Hh. pose proof (D h ltac:(rewrite Rabs_right by lra; lra)) as A. pose proof (D (- h) ltac:(rewrite Rabs_left by lra; lra)) as B. rewrite Rabs_Ropp in B. rewrite (Rabs_right h) in A, B by lra. cbv beta in A, B.
  unfold central, along. set (p := f (upd i (nth i x 0 + h) x)) in *. set (q := f (upd i (nth i x 0 + - h) x)) in *. apply Rabs_le_between in A. apply Rabs_le_between in B. set (z := f (upd i (nth i x 0) x)). change (- (eps * h) <= p - z - d * h <= eps * h) in A. change (- (eps * h) <= q - z - d * - h <= eps * h) in B. clearbody p q z. replace ((p - q) / (2 * h) - d) with ((p - q - 2 * d * h) / (2 * h)) by (field; lra). rewrite Rabs_div by lra. rewrite (Rabs_right (2 * h)) by lra.
  apply (Rmult_le_reg_r (2 * h)); [lra|]. unfold Rdiv. rewrite Rmult_assoc, Rinv_l, Rmult_1_r by lra. apply Rabs_le. lra.
Qed.
Lemma central2_converges f x i d : twice f x i d -> (i < length x)%nat -> forall eps, 0 < eps -> exists delta, 0 < delta /\ forall h k, 0 < h < delta -> 0 < k < delta -> h = k -> Rabs (central2 f x i i h k - d) <= eps.
Proof.
  intros (r & g & R0 & G & Gd) Hi eps He. destruct (derive_bound g 0 d Gd (eps / 2) ltac:(lra)) as (delta & D0 & D). exists (Rmin (delta / 2) (r / 2)). split; [apply Rmin_glb_lt; lra|]. intros h k Hh _ <-.
  pose proof (Rmin_l (delta / 2) (r / 2)) as M1. pose proof (Rmin_r (delta / 2) (r / 2)) as M2. set (F := along f x i) in *.
  set (psi := fun t => F (2 * t) + F (- (2 * t)) - 4 * d * t ^ 2).
  assert (P : forall t, Rabs t < r / 2 -> is_derive psi t (2 * (g (2 * t) - g (- (2 * t))) - 8 * d * t)).
  { intros t Ht. assert (A1 : is_derive F (2 * t) (g (2 * t))) by (apply G; rewrite Rabs_mult, (Rabs_right 2) by lra; lra). assert (A2 : is_derive F (- (2 * t)) (g (- (2 * t)))) by (apply G; rewrite Rabs_Ropp, Rabs_mult, (Rabs_right 2) by lra; lra).
    assert (B1 : is_derive (fun t => F (2 * t)) t (2 * g (2 * t))). { apply (is_derive_comp F (fun t => 2 * t)); [exact A1|]. auto_derive; [exact Logic.I|ring]. }
    assert (B2 : is_derive (fun t => F (- (2 * t))) t (- 2 * g (- (2 * t)))). { apply (is_derive_comp F (fun t => - (2 * t))); [exact A2|]. auto_derive; [exact Logic.I|ring]. }
    assert (B3 : is_derive (fun t => 4 * d * t ^ 2) t (8 * d * t)) by (auto_derive; [exact Logic.I|ring]).
    pose proof (is_derive_minus _ _ _ _ _ (is_derive_plus (K := R_AbsRing) (V := R_NormedModule) _ _ _ _ _ B1 B2) B3) as X. unfold psi.
    replace (2 * (g (2 * t) - g (- (2 * t))) - 8 * d * t) with (minus (plus (2 * g (2 * t)) (-2 * g (- (2 * t)))) (8 * d * t)); [exact X|]. unfold minus, plus, opp. cbn. ring. }
  destruct (MVT_gen psi 0 h (fun t => 2 * (g (2 * t) - g (- (2 * t))) - 8 * d * t)) as (c & Hc & E).
  { intros t Ht. rewrite Rmin_left, Rmax_right in Ht by lra. apply P. rewrite Rabs_right by lra. lra. }
  { intros t Ht. rewrite Rmin_left, Rmax_right in Ht by lra. apply continuity_pt_filterlim. apply (ex_derive_continuous psi). eexists. apply P. rewrite Rabs_right by lra. lra. }
  rewrite Rmin_left, Rmax_right in Hc by lra. pose proof (D (2 * c) ltac:(rewrite Rabs_right by lra; lra)) as A. pose proof (D (- (2 * c)) ltac:(rewrite Rabs_Ropp, Rabs_right by lra; lra)) as B. rewrite Rplus_0_l in A, B. rewrite Rabs_Ropp in B. rewrite (Rabs_right (2 * c)) in A, B by lra. apply Rabs_le_between in A. apply Rabs_le_between in B.
  assert (F0 : f x = F 0) by (unfold F, along; rewrite Rplus_0_r, upd_self; reflexivity).
  unfold central2. rewrite Nat.eqb_refl, F0. fold F. replace (-2 * h) with (- (2 * h)) by ring.
  assert (E2 : F (2 * h) - 2 * F 0 + F (- (2 * h)) - 4 * d * h ^ 2 = (2 * (g (2 * c) - g (- (2 * c))) - 8 * d * c) * h).
  { replace (F (2 * h) - 2 * F 0 + F (- (2 * h)) - 4 * d * h ^ 2) with (psi h - psi 0); [rewrite E; ring|]. unfold psi. rewrite !Rmult_0_r, Ropp_0. ring. }
  replace ((F (2 * h) - 2 * F 0 + F (- (2 * h))) / (4 * h ^ 2) - d) with ((F (2 * h) - 2 * F 0 + F (- (2 * h)) - 4 * d * h ^ 2) / (4 * h ^ 2)) by (field; lra). rewrite E2.
  replace ((2 * (g (2 * c) - g (- (2 * c))) - 8 * d * c) * h / (4 * h ^ 2)) with ((2 * (g (2 * c) - g (- (2 * c))) - 8 * d * c) / (4 * h)) by (field; lra). rewrite Rabs_div by lra. rewrite (Rabs_right (4 * h)) by lra.
  apply (Rmult_le_reg_r (4 * h)); [lra|]. unfold Rdiv. rewrite Rmult_assoc, Rinv_l, Rmult_1_r by lra. assert (eps * c <= eps * h) by (apply Rmult_le_compat_l; lra). apply Rabs_le. lra.
Qed.
Lemma mixed_converges f x i j d : mixed f x i j d -> i <> j -> forall eps, 0 < eps -> exists delta, 0 < delta /\ forall h k, 0 < h < delta -> 0 < k < delta -> Rabs (central2 f x i j h k - d) <= eps.
Proof.
  intros (r & g1 & g2 & R0 & G & Gd & C) N eps He. destruct (C eps He) as (delta & D0 & D). exists (Rmin delta r). split; [apply Rmin_glb_lt; lra|]. intros h k Hh Hk. pose proof (Rmin_l delta r) as M1. pose proof (Rmin_r delta r) as M2.
  set (F := around f x i j) in *. set (psi := fun u => F u k - F u (- k)).
  assert (P : forall u, Rabs u < r -> is_derive psi u (g1 u k - g1 u (- k))).
  { intros u Hu. assert (A1 := proj1 (G u k Hu ltac:(rewrite Rabs_right by lra; lra))). assert (A2 := proj1 (G u (- k) Hu ltac:(rewrite Rabs_Ropp, Rabs_right by lra; lra))). exact (is_derive_minus _ _ _ _ _ A1 A2). }
  destruct (MVT_gen psi (- h) h (fun u => g1 u k - g1 u (- k))) as (c & Hc & E).
  { intros t Ht. rewrite Rmin_left, Rmax_right in Ht by lra. apply P. apply Rabs_def1; lra. }
  { intros t Ht. rewrite Rmin_left, Rmax_right in Ht by lra. apply continuity_pt_filterlim. apply (ex_derive_continuous psi). eexists. apply P. apply Rabs_def1; lra. }
  rewrite Rmin_left, Rmax_right in Hc by lra. assert (Hc2 : Rabs c < r) by (apply Rabs_def1; lra).
  destruct (MVT_gen (g1 c) (- k) k (g2 c)) as (e & Hev & E2).
  { intros t Ht. rewrite Rmin_left, Rmax_right in Ht by lra. apply (G c t Hc2). apply Rabs_def1; lra. }
  { intros t Ht. rewrite Rmin_left, Rmax_right in Ht by lra. apply continuity_pt_filterlim. apply (ex_derive_continuous (g1 c)). eexists. apply (G c t Hc2). apply Rabs_def1; lra. }
  rewrite Rmin_left, Rmax_right in Hev by lra. unfold central2. destruct (Nat.eqb_spec i j); [contradiction|]. fold F.
  replace (F h k - F h (- k) - F (- h) k + F (- h) (- k)) with (psi h - psi (- h)) by (unfold psi; ring). rewrite E, E2. replace (g2 c e * (k - - k) * (h - - h) / (4 * h * k)) with (g2 c e) by (field; lra). left. apply D; apply Rabs_def1; lra.
Qed.
(** one entry, if all of its quotients are near to d *)
Lemma extra_one T q m d e : 1 < T -> (1 <= m)%nat -> (forall c, (c < m)%nat -> Rabs (q c - d) <= e) -> Rabs (nth 0 (extra T 1 (m - 1) (column_of q 0 m None)) 0 - d) <= amplification T (m - 1) * (e + 1 / 10 ^ 16).
Proof.
  intros HT Hm H. rewrite Rmult_comm, <- amp_amplification. apply extra_near; [exact HT|lia| |rewrite extra_length, column_length; lia]. intros c Hc. rewrite column_length in Hc. apply column_near; [intros i Hi; apply H; lia|discriminate|exact Hc].
Qed.
Lemma shrink h T c delta : 1 < T -> 0 < h < delta -> 0 < h / T ^ c < delta.
Proof.
  intros HT Hh. assert (P : 1 <= T ^ c) by (apply pow_R1_Rle; lra). split; [apply Rdiv_lt_0_compat; lra|]. apply Rle_lt_trans with (h / 1); [|lra]. apply Rmult_le_compat_l; [lra|]. apply Rinv_le_contravar; lra.
Qed.
