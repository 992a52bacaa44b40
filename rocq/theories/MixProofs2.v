(** Lemmas for Prop_Mix: smallest and largest values; mixtures of distributions on the integers. *)
From Coq Require Import Reals Lra Lia List.
From Coquelicot Require Import Coquelicot.
From Verif Require Import UdSpec UdProofs UdProofs2 Prop_UdMoments MixModel MixSpec MixProofs.
Import Lra.
Local Open Scope R_scope.

Lemma xle_refl a : a <> NaN -> xle a a = true.
Proof. destruct a; intros H; cbn; try reflexivity; [|congruence]. unfold xle. cbn. destruct (Rlt_dec x x); [lra|]. destruct (Req_EM_T x x); [reflexivity|contradiction]. Qed.
Lemma xle_fin x y : xle (Fin x) (Fin y) = true <-> x <= y.
Proof. unfold xle. cbn. destruct (Rlt_dec x y), (Req_EM_T x y); cbn; split; intros; try reflexivity; try lra; discriminate. Qed.
Lemma xle_trans a b c : xle a b = true -> xle b c = true -> xle a c = true.
Proof. destruct a, b, c; try (cbn; congruence); try (intros; reflexivity). rewrite !xle_fin. lra. Qed.
Lemma xlt_le a b : xlt a b = true -> xle a b = true.
Proof. intros H. unfold xle. rewrite H. reflexivity. Qed.
Lemma xnlt_le a b : a <> NaN -> b <> NaN -> xlt a b = false -> xle b a = true.
Proof. intros A B. destruct a, b; cbn; try congruence; intros H; try reflexivity. apply xle_fin. destruct (Rlt_dec x x0); [discriminate|lra]. Qed.
Lemma xlt_nan a b : xlt a b = true -> a <> NaN /\ b <> NaN.
Proof. destruct a, b; cbn; intros H; split; congruence. Qed.
Section Extreme.
Context {A : Type}.
Lemma fold_min (f : A -> xr) l : (forall c, In c l -> f c <> NaN) -> forall a, a <> NaN ->
  let r := fold_left (fun a c => let v := f c in if xlt v a then v else a) l a in
  r <> NaN /\ (r = a \/ exists c, In c l /\ r = f c) /\ xle r a = true /\ forall c, In c l -> xle r (f c) = true.
Proof.
  induction l as [|c l IH]; intros H a Na; cbn [fold_left]; cbv zeta.
  - split; [exact Na|]. split; [left; reflexivity|]. split; [apply xle_refl; exact Na|intros c []].
  - set (a2 := if xlt (f c) a then f c else a). assert (Nc : f c <> NaN) by (apply H; left; reflexivity). assert (N2 : a2 <> NaN) by (unfold a2; destruct (xlt (f c) a); auto).
    destruct (IH ltac:(intros x I; apply H; right; exact I) a2 N2) as (R1 & R2 & R3 & R4). cbv zeta in *. split; [exact R1|]. split; [|split].
    + destruct R2 as [E|(x & I & E)]; [|right; exists x; split; [right; exact I|exact E]]. rewrite E. unfold a2. destruct (xlt (f c) a); [right; exists c; split; [left; reflexivity|reflexivity]|left; reflexivity].
    + eapply xle_trans; [exact R3|]. unfold a2. destruct (xlt (f c) a) eqn:X; [apply xlt_le; exact X|apply xle_refl; exact Na].
    + intros x [<-|I]; [|apply R4; exact I]. eapply xle_trans; [exact R3|]. unfold a2. destruct (xlt (f c) a) eqn:X; [apply xle_refl; exact Nc|apply xnlt_le; auto].
Qed.
Lemma fold_max (f : A -> xr) l : (forall c, In c l -> f c <> NaN) -> forall a, a <> NaN ->
  let r := fold_left (fun a c => let v := f c in if xlt a v then v else a) l a in
  r <> NaN /\ (r = a \/ exists c, In c l /\ r = f c) /\ xle a r = true /\ forall c, In c l -> xle (f c) r = true.
Proof.
  induction l as [|c l IH]; intros H a Na; cbn [fold_left]; cbv zeta.
  - split; [exact Na|]. split; [left; reflexivity|]. split; [apply xle_refl; exact Na|intros c []].
  - set (a2 := if xlt a (f c) then f c else a). assert (Nc : f c <> NaN) by (apply H; left; reflexivity). assert (N2 : a2 <> NaN) by (unfold a2; destruct (xlt a (f c)); auto).
    destruct (IH ltac:(intros x I; apply H; right; exact I) a2 N2) as (R1 & R2 & R3 & R4). cbv zeta in *. split; [exact R1|]. split; [|split].
    + destruct R2 as [E|(x & I & E)]; [|right; exists x; split; [right; exact I|exact E]]. rewrite E. unfold a2. destruct (xlt a (f c)); [right; exists c; split; [left; reflexivity|reflexivity]|left; reflexivity].
    + eapply xle_trans; [|exact R3]. unfold a2. destruct (xlt a (f c)) eqn:X; [apply xlt_le; exact X|apply xle_refl; exact Na].
    + intros x [<-|I]; [|apply R4; exact I]. eapply xle_trans; [|exact R3]. unfold a2. destruct (xlt a (f c)) eqn:X; [apply xle_refl; exact Nc|apply xnlt_le; auto].
Qed.
End Extreme.
(** ** Distributions on a lattice *)
Lemma shift_many (a : nat -> R) (l : R) n : (forall k, (k < n)%nat -> a k = 0) -> is_series (fun k => a (n + k)%nat) l -> is_series a l.
Proof.
  revert a. induction n as [|n IH]; intros a Z H; [exact H|]. apply series_shift; [apply Z; lia|]. apply IH; [intros k Hk; apply Z; lia|]. exact H.
Qed.
Lemma moments_lower lo n (f : R -> R) mu v sk ku : (forall k, (k < n)%nat -> f (lo + INR k) = 0) -> has_moments (lo + INR n) f mu v sk ku -> has_moments lo f mu v sk ku.
Proof.
  intros Z ((Hp & E0 & E1 & E2) & V & E3 & E4).
  assert (X : forall g m, expectation (lo + INR n) f g m -> expectation lo f g m).
  { intros g m H. apply (shift_many _ _ n); [intros k Hk; rewrite Z by exact Hk; ring|]. eapply series_eq; [|reflexivity|exact H]. intros k. cbv beta. rewrite plus_INR, Rplus_assoc. reflexivity. }
  split; [|split; [exact V|split; apply X; assumption]]. split; [|split; [|split]; apply X; assumption].
  intros k. destruct (Nat.lt_ge_cases k n) as [L|L]; [rewrite Z by exact L; lra|]. specialize (Hp (k - n)%nat). replace k with (n + (k - n))%nat by lia. rewrite plus_INR, <- Rplus_assoc. exact Hp.
Qed.
(** the expectation of a function *)
Definition lattice_expectation (lo : R) (f : R -> R) (g : R -> R) : R := Series (fun k => f (lo + INR k) * g (lo + INR k)).
Lemma expectation_quartic lo f mu v sk ku g : has_moments lo f mu v sk ku -> quartic g -> expectation lo f g (lattice_expectation lo f g).
Proof.
  intros ((Hp & E0 & E1 & E2) & V & E3 & E4) (a & b & c & d & e & Hg).
  assert (X : exists m, expectation lo f g m).
  { pose (m1 := series_scal b _ _ E1).
    (* in terms of x - mu *)
    set (a' := a + b * mu + c * mu ^ 2 + d * mu ^ 3 + e * mu ^ 4 - (b + 2 * c * mu + 3 * d * mu ^ 2 + 4 * e * mu ^ 3) * mu).
    set (b' := b + 2 * c * mu + 3 * d * mu ^ 2 + 4 * e * mu ^ 3). set (c' := c + 3 * d * mu + 6 * e * mu ^ 2). set (d' := d + 4 * e * mu). clear m1.
    eexists. eapply series_eq; [|reflexivity|exact (series_plus _ _ _ _ (series_plus _ _ _ _ (series_plus _ _ _ _ (series_plus _ _ _ _ (series_scal a' _ _ E0) (series_scal b' _ _ E1)) (series_scal c' _ _ E2)) (series_scal d' _ _ E3)) (series_scal e _ _ E4))].
    intros k. cbv beta. rewrite Hg. unfold a', b', c', d'. ring. }
  destruct X as (m & X). unfold expectation, lattice_expectation. rewrite (is_series_unique _ _ X). exact X.
Qed.
Lemma lattice_operator lo f mu v sk ku : has_moments lo f mu v sk ku -> expectation_operator (lattice_expectation lo f).
Proof.
  intros H. split; [|split].
  - apply is_series_unique. apply H.
  - intros g h E. apply Series_ext. intros k. rewrite E. reflexivity.
  - intros g h a b Qg Qh. pose proof (expectation_quartic lo f mu v sk ku g H Qg) as G. pose proof (expectation_quartic lo f mu v sk ku h H Qh) as K. apply is_series_unique.
    eapply series_eq; [|reflexivity|exact (series_plus _ _ _ _ (series_scal a _ _ G) (series_scal b _ _ K))]. intros k. cbv beta. ring.
Qed.
Lemma lattice_moments lo f mu v sk ku : has_moments lo f mu v sk ku -> four_moments (lattice_expectation lo f) mu v sk ku.
Proof. intros ((Hp & E0 & E1 & E2) & V & E3 & E4). repeat split; apply is_series_unique; assumption. Qed.
(** the average of densities *)
Lemma average_series ws (Fs : list (R -> R)) lo g : positive ws -> ws <> [] -> length Fs = length ws -> (forall f, In f Fs -> expectation lo f g (lattice_expectation lo f g)) ->
  expectation lo (fun x => average ws (map (fun f => f x) Fs)) g (average ws (map (fun f => lattice_expectation lo f g) Fs)).
Proof.
  intros P N L H. unfold average. pose proof (rsum_pos ws P N) as Q.
  assert (K : is_series (fun k => rsum (products ws (map (fun f => f (lo + INR k)) Fs)) * g (lo + INR k)) (rsum (products ws (map (fun f => lattice_expectation lo f g) Fs)))).
  { clear P N Q. revert Fs L H. induction ws as [|w ws IH]; intros [|f Fs] L H; try discriminate; cbn [map products rsum].
    - eapply series_eq; [| |exact (series_finite (fun _ => 0) 0 ltac:(intros; reflexivity))]; [intros k; cbv beta; ring|reflexivity].
    - eapply series_eq; [|reflexivity|exact (series_plus _ _ _ _ (series_scal w _ _ (H f (or_introl eq_refl))) (IH Fs ltac:(cbn in L; lia) ltac:(intros h I; apply H; right; exact I)))]. intros k. cbv beta. ring. }
  unfold expectation. eapply series_eq; [| |exact (series_scal (/ rsum ws) _ _ K)]; [intros k; cbv beta; unfold Rdiv; ring|unfold Rdiv; ring].
Qed.
