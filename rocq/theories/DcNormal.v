(** The normal distribution function exists: what DcSpec.normal_like asks of it can be met. *)
From Verif Require Import DcSpec DcProofs.
From Coquelicot Require Import Coquelicot.
From Coq Require Import Lia Lra.
Local Open Scope R_scope.

Definition bell (t : R) : R := exp (- (t * t / 2)).
Lemma bell_pos t : 0 < bell t. Proof. apply exp_pos. Qed.
Lemma bell_derive t : is_derive bell t (- t * bell t).
Proof. unfold bell. auto_derive; [trivial|unfold Rdiv; field]. Qed.
Lemma bell_neg t : bell (- t) = bell t.
Proof. unfold bell. f_equal. unfold Rdiv. ring. Qed.
Lemma bell_cont t : continuous bell t.
Proof. apply (ex_derive_continuous bell). exists (- t * bell t). apply bell_derive. Qed.
Definition area (z : R) : R := RInt bell 0 z.
Lemma area_derive z : is_derive area z (bell z).
Proof.
  apply (is_derive_RInt bell area 0 z).
  - apply filter_forall. intros t. apply (RInt_correct bell 0 t). apply (ex_RInt_continuous bell). intros u _. apply bell_cont.
  - apply bell_cont.
Qed.
Lemma derive_cont (f : R -> R) (d t : R) : is_derive f t d -> continuity_pt f t.
Proof. intros D. apply continuity_pt_filterlim. apply (ex_derive_continuous f). exists d. exact D. Qed.
(** Functions with non-negative derivatives do not decrease. *)
Lemma increases (f d : R -> R) u v : (forall t, is_derive f t (d t)) -> (forall t, 0 <= d t) -> u <= v -> f u <= f v.
Proof.
  intros D P L. destruct (MVT_gen f u v d) as [c [_ E]]; [intros; apply D|intros t _; eapply derive_cont, D|]. assert (Q := P c). nra.
Qed.
Lemma increases_strictly (f d : R -> R) u v : (forall t, is_derive f t (d t)) -> (forall t, 0 < d t) -> u < v -> f u < f v.
Proof.
  intros D P L. destruct (MVT_gen f u v d) as [c [_ E]]; [intros; apply D|intros t _; eapply derive_cont, D|]. assert (Q := P c). nra.
Qed.
Lemma area_0 : area 0 = 0. Proof. apply (RInt_point 0 bell). Qed.
Lemma area_lt u v : u < v -> area u < area v.
Proof. apply (increases_strictly area bell); [apply area_derive|apply bell_pos]. Qed.
Lemma area_neg z : area (- z) = - area z.
Proof.
  set (g := fun z => area (- z) + area z).
  assert (G : forall t, is_derive g t 0).
  { intros t. unfold g. apply (derive_eq _ _ (-1 * bell (- t) + bell t)); [rewrite bell_neg; ring|].
    apply (is_derive_plus (K := R_AbsRing) (V := R_NormedModule)); [|apply area_derive].
    apply (is_derive_comp (K := R_AbsRing) (V := R_NormedModule) area (fun t => - t)); [apply area_derive|]. auto_derive; [trivial|ring]. }
  destruct (MVT_gen g 0 z (fun _ => 0)) as [c [_ E]]; [intros; apply G|intros t _; eapply derive_cont, G|].
  unfold g in E. rewrite Ropp_0, area_0 in E. lra.
Qed.
Lemma bell_bound t : bell t <= 2 * (/ (1 + t ^ 2)).
Proof.
  unfold bell. rewrite exp_Ropp. assert (K := exp_ineq1_le (t * t / 2)). assert (0 <= t * t) by nra.
  replace (2 * / (1 + t ^ 2)) with (/ ((1 + t * t) / 2)) by (field; nra).
  apply Rinv_le_contravar; lra.
Qed.
Lemma area_bound z : area z <= PI.
Proof.
  destruct (Rle_lt_dec z 0) as [L|L].
  - assert (area z <= area 0). { destruct (Req_dec z 0) as [->|N]; [lra|]. left. apply area_lt. lra. } rewrite area_0 in H. assert (P := PI_RGT_0). lra.
  - assert (Q := increases (fun z => 2 * atan z - area z) (fun t => 2 * (/ (1 + t ^ 2)) - bell t) 0 z).
    cbv beta in Q. rewrite atan_0, area_0 in Q. assert (2 * 0 - 0 <= 2 * atan z - area z).
    { apply Q; [|intros t; assert (B := bell_bound t); lra|lra]. intros t.
      apply (is_derive_minus (K := R_AbsRing) (V := R_NormedModule) (fun z => 2 * atan z) area); [|apply area_derive].
      apply derive_scal. apply is_derive_Reals.
      assert (A := derivable_pt_lim_atan t). exact A. }
    assert (A := atan_bound z). lra.
Qed.
Lemma half_area : exists S, 0 < S /\ (forall z, - S < area z < S) /\ forall eps, 0 < eps -> exists z, S - eps < area z.
Proof.
  destruct (completeness (fun r => exists z, r = area z)) as [S [U L]].
  - exists PI. intros r [z ->]. apply area_bound.
  - exists 0. exists 0. symmetry. apply area_0.
  - assert (B : forall z, area z < S).
    { intros z. assert (area z < area (z + 1)) by (apply area_lt; lra). assert (area (z + 1) <= S) by (apply U; eexists; reflexivity). lra. }
    exists S. split; [|split].
    + assert (Q := B 0). rewrite area_0 in Q. exact Q.
    + intros z. split; [|apply B]. assert (Q := B (- z)). rewrite area_neg in Q. lra.
    + intros eps E. destruct (Classical_Prop.classic (exists z, S - eps < area z)) as [Y|N]; [exact Y|exfalso].
      assert (S <= S - eps); [|lra]. apply L. intros r [z ->]. destruct (Rle_lt_dec (area z) (S - eps)) as [Q|Q]; [exact Q|].
      exfalso. apply N. exists z. exact Q.
Qed.
Theorem normal_exists : exists cdf pdf, normal_like cdf pdf.
Proof.
  destruct half_area as [S [SP [B T]]].
  exists (fun z => / 2 + / (2 * S) * area z), (fun z => / (2 * S) * bell z).
  assert (I2 : 0 < / (2 * S)) by (apply Rinv_0_lt_compat; lra).
  assert (IS : / (2 * S) * S = / 2) by (field; lra).
  repeat split.
  - destruct (B z) as [L _]. apply (Rmult_lt_compat_l (/ (2 * S))) in L; [|exact I2]. lra.
  - destruct (B z) as [_ L]. apply (Rmult_lt_compat_l (/ (2 * S))) in L; [|exact I2]. lra.
  - intros z. rewrite area_neg. lra.
  - intros z. rewrite bell_neg. reflexivity.
  - intros z. apply is_derive_Reals. apply (derive_eq _ _ (0 + / (2 * S) * bell z)); [ring|].
    apply (is_derive_plus (K := R_AbsRing) (V := R_NormedModule)); [apply @is_derive_const|]. apply derive_scal, area_derive.
  - intros z. apply is_derive_Reals. apply (derive_eq _ _ (/ (2 * S) * (- z * bell z))); [ring|]. apply derive_scal, bell_derive.
  - intros eps E. destruct (T (2 * S * eps)) as [z Z]; [nra|]. exists (- z). intros t Ht.
    assert (A : area t < - area z) by (rewrite <- area_neg; apply area_lt; exact Ht).
    assert (A' : area t < 2 * S * eps - S) by lra.
    apply (Rmult_lt_compat_l (/ (2 * S))) in A'; [|exact I2].
    replace (/ (2 * S) * (2 * S * eps - S)) with (eps - / 2) in A' by (field; lra). lra.
Qed.
