(** Lemmas for mixtures of distributions. *)
From Coq Require Import Reals Lra Lia List.
From Verif Require Import MixModel MixSpec UdProofs2.
Local Open Scope R_scope.

Lemma rsum_pos ws : positive ws -> ws <> [] -> 0 < rsum ws.
Proof.
  induction ws as [|w ws IH]; intros P N; [contradiction|]. cbn [rsum]. pose proof (P w (or_introl eq_refl)). destruct ws as [|w2 ws]; [cbn; lra|]. assert (0 < rsum (w2 :: ws)) by (apply IH; [intros u U; apply P; right; exact U|discriminate]). lra.
Qed.
Definition state_ok (s : xr * xr) (sw t : R) : Prop := exists mu, s = (Fin sw, Fin mu) /\ sw * mu = t.
Lemma push_ok s sw t x w : state_ok s sw t -> 0 <= sw -> 0 < w -> state_ok (push s (Fin x) w) (sw + w) (t + w * x).
Proof. intros (mu & -> & E) A B. unfold push. cbn [is_nan fst snd xadd xmul]. rewrite fin_div by lra. eexists. split; [reflexivity|]. rewrite <- E. field. lra. Qed.
Lemma fold_ok (f : comp -> xr) (m : mixture) (xs : list R) : positive (map fst m) -> Forall2 (fun wc x => f (snd wc) = Fin x) m xs -> forall s sw t, state_ok s sw t -> 0 <= sw ->
  state_ok (fold_left (fun s wc => push s (f (snd wc)) (fst wc)) m s) (sw + rsum (map fst m)) (t + rsum (products (map fst m) xs)).
Proof.
  intros P F. induction F as [|wc x m xs E F IH]; intros s sw t S A.
  - cbn. rewrite !Rplus_0_r. exact S.
  - cbn [fold_left map rsum products]. rewrite E. pose proof (P (fst wc) (or_introl eq_refl)) as W. rewrite <- !Rplus_assoc. apply IH; [intros u U; apply P; right; exact U|apply push_ok; auto|lra].
Qed.
Lemma weighted_mean_ok (f : comp -> xr) (m : mixture) (xs : list R) : positive (map fst m) -> m <> [] -> Forall2 (fun wc x => f (snd wc) = Fin x) m xs -> weighted_mean f m = Fin (average (map fst m) xs).
Proof.
  intros P N F. unfold weighted_mean. assert (S0 : state_ok (Fin 0, Fin 0) 0 0) by (exists 0; split; [reflexivity|ring]).
  destruct (fold_ok f m xs P F _ _ _ S0 (Rle_refl 0)) as (mu & E & K). rewrite E. unfold get_mean. cbn [fst snd]. rewrite !Rplus_0_l in *. assert (Q : 0 < rsum (map fst m)) by (apply rsum_pos; [exact P|destruct m; [contradiction|discriminate]]).
  rewrite fin_ne by lra. f_equal. unfold average. rewrite <- K. field. lra.
Qed.
(** ** Expectations *)
Lemma quartic_shift a b c d e m : quartic (fun x => a + b * (x - m) + c * (x - m) ^ 2 + d * (x - m) ^ 3 + e * (x - m) ^ 4).
Proof. exists (a - b * m + c * m ^ 2 - d * m ^ 3 + e * m ^ 4), (b - 2 * c * m + 3 * d * m ^ 2 - 4 * e * m ^ 3), (c - 3 * d * m + 6 * e * m ^ 2), (d - 4 * e * m), e. intros x. ring. Qed.
Lemma q0 : quartic (fun _ => 1). Proof. exists 1, 0, 0, 0, 0. intros. ring. Qed.
Lemma q1 : quartic (fun x => x). Proof. exists 0, 1, 0, 0, 0. intros. ring. Qed.
Lemma q2 m : quartic (fun x => (x - m) ^ 2). Proof. exists (m ^ 2), (- 2 * m), 1, 0, 0. intros. ring. Qed.
Lemma q3 m : quartic (fun x => (x - m) ^ 3). Proof. exists (- m ^ 3), (3 * m ^ 2), (- 3 * m), 1, 0. intros. ring. Qed.
Lemma q4 m : quartic (fun x => (x - m) ^ 4). Proof. exists (m ^ 4), (- 4 * m ^ 3), (6 * m ^ 2), (- 4 * m), 1. intros. ring. Qed.
Lemma q_lin a b g h : quartic g -> quartic h -> quartic (fun x => a * g x + b * h x).
Proof. intros (a1 & b1 & c1 & d1 & e1 & H1) (a2 & b2 & c2 & d2 & e2 & H2). exists (a * a1 + b * a2), (a * b1 + b * b2), (a * c1 + b * c2), (a * d1 + b * d2), (a * e1 + b * e2). intros x. rewrite H1, H2. ring. Qed.
(** The expectation of a polynomial, in terms of central moments *)
Lemma expect_poly E m a b c d e : expectation_operator E ->
  E (fun x => a + b * (x - m) + c * (x - m) ^ 2 + d * (x - m) ^ 3 + e * (x - m) ^ 4) = a + b * (E (fun x => x) - m) + c * E (fun x => (x - m) ^ 2) + d * E (fun x => (x - m) ^ 3) + e * E (fun x => (x - m) ^ 4).
Proof.
  intros (H0 & Ex & L).
  set (g1 := fun x : R => (a - b * m) * 1 + b * x). set (g2 := fun x : R => 1 * g1 x + c * (x - m) ^ 2). set (g3 := fun x : R => 1 * g2 x + d * (x - m) ^ 3). set (g4 := fun x : R => 1 * g3 x + e * (x - m) ^ 4).
  assert (Q1 : quartic g1) by (apply q_lin; [apply q0|apply q1]). assert (Q2 : quartic g2) by (apply q_lin; [exact Q1|apply q2]). assert (Q3 : quartic g3) by (apply q_lin; [exact Q2|apply q3]).
  rewrite (Ex _ g4) by (intros x; unfold g4, g3, g2, g1; ring). unfold g4. rewrite (L g3 (fun x => (x - m) ^ 4)) by (auto using q4). unfold g3. rewrite (L g2 (fun x => (x - m) ^ 3)) by (auto using q3). unfold g2. rewrite (L g1 (fun x => (x - m) ^ 2)) by (auto using q2). unfold g1.
  rewrite (L (fun _ => 1) (fun x => x)) by (auto using q0, q1). rewrite H0. ring.
Qed.
Lemma shift2 E mu v c : expectation_operator E -> mean_variance E mu v -> E (fun x => (x - c) ^ 2) = v + (mu - c) ^ 2.
Proof.
  intros O (M & V). pose proof O as (_ & Ex & _). rewrite (Ex _ (fun x => (mu - c) ^ 2 + (2 * (mu - c)) * (x - mu) + 1 * (x - mu) ^ 2 + 0 * (x - mu) ^ 3 + 0 * (x - mu) ^ 4)) by (intros x; ring). rewrite expect_poly by exact O. rewrite M, V. ring.
Qed.
Lemma shift3 E mu v c : expectation_operator E -> mean_variance E mu v -> E (fun x => (x - c) ^ 3) = E (fun x => (x - mu) ^ 3) + 3 * (mu - c) * v + (mu - c) ^ 3.
Proof.
  intros O (M & V). pose proof O as (_ & Ex & _). rewrite (Ex _ (fun x => (mu - c) ^ 3 + (3 * (mu - c) ^ 2) * (x - mu) + (3 * (mu - c)) * (x - mu) ^ 2 + 1 * (x - mu) ^ 3 + 0 * (x - mu) ^ 4)) by (intros x; ring). rewrite expect_poly by exact O. rewrite M, V. ring.
Qed.
Lemma shift4 E mu v c : expectation_operator E -> mean_variance E mu v -> E (fun x => (x - c) ^ 4) = E (fun x => (x - mu) ^ 4) + 4 * (mu - c) * E (fun x => (x - mu) ^ 3) + 6 * (mu - c) ^ 2 * v + (mu - c) ^ 4.
Proof.
  intros O (M & V). pose proof O as (_ & Ex & _). rewrite (Ex _ (fun x => (mu - c) ^ 4 + (4 * (mu - c) ^ 3) * (x - mu) + (6 * (mu - c) ^ 2) * (x - mu) ^ 2 + (4 * (mu - c)) * (x - mu) ^ 3 + 1 * (x - mu) ^ 4)) by (intros x; ring). rewrite expect_poly by exact O. rewrite M, V. ring.
Qed.
(** averages *)
Lemma average_ops ws Es (g h k : R -> R) a b : length Es = length ws -> (forall E, In E Es -> E g = a * E h + b * E k) -> mixed ws Es g = a * mixed ws Es h + b * mixed ws Es k.
Proof.
  intros L H. unfold mixed, average. assert (E : rsum (products ws (map (fun E => E g) Es)) = a * rsum (products ws (map (fun E => E h) Es)) + b * rsum (products ws (map (fun E => E k) Es))).
  { revert ws L. induction Es as [|E Es IH]; intros [|w ws] L; try discriminate; cbn; [ring|]. rewrite (H E (or_introl eq_refl)), IH; [ring|intros E' I; apply H; right; exact I|cbn in L; lia]. }
  rewrite E. unfold Rdiv. ring.
Qed.
Lemma average_const ws xs c : positive ws -> ws <> [] -> length xs = length ws -> (forall x, In x xs -> x = c) -> average ws xs = c.
Proof.
  intros P N L H. unfold average. pose proof (rsum_pos ws P N) as Q. assert (E : rsum (products ws xs) = c * rsum ws).
  { clear P N Q. revert xs L H. induction ws as [|w ws IH]; intros [|x xs] L H; try discriminate; cbn; [ring|]. rewrite (H x (or_introl eq_refl)), IH; [ring|cbn in L; lia|intros y I; apply H; right; exact I]. }
  rewrite E. field. lra.
Qed.
Lemma mixed_ext ws Es (g h : R -> R) : (forall E, In E Es -> E g = E h) -> mixed ws Es g = mixed ws Es h.
Proof. intros H. unfold mixed. f_equal. apply map_ext_in. exact H. Qed.
Lemma mixed_operator ws Es : positive ws -> ws <> [] -> length Es = length ws -> (forall E, In E Es -> expectation_operator E) -> expectation_operator (mixed ws Es).
Proof.
  intros P N L H. split; [|split].
  - apply average_const; auto; [rewrite map_length; exact L|]. intros x I. apply in_map_iff in I. destruct I as (E & <- & I). apply (H E I).
  - intros g h X. apply mixed_ext. intros E I. apply (H E I). exact X.
  - intros g h a b Qg Qh. apply (average_ops ws Es (fun x => a * g x + b * h x) g h); [exact L|]. intros E I. apply (H E I); auto.
Qed.
