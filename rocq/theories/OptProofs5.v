(** Bounds, Minimize1. *)
From Verif Require Import OptModel OptSpec MatProofs LsProofs DescProofs OptProofs OptProofs2 OptProofs3 OptProofs4.
From Coq Require Import Lia ZifyBool.
Local Open Scope Z_scope.

Definition hd_ (b : option (list Qc)) : option Qc := match b with Some (l :: _) => Some l | _ => None end.
Lemma bounds_cons n b : bounds_for (Z.of_nat (S n)) b -> bounds_for (Z.of_nat n) (option_map (@tl Qc) b) /\ hd_ b = bound b 0 /\ forall i, 0 <= i -> bound (option_map (@tl Qc) b) i = bound b (i + 1).
Proof.
  intros H. destruct b as [[|q l]|].
  - specialize (H [] eq_refl). unfold dim in H. cbn [length] in H. lia.
  - specialize (H _ eq_refl). unfold dim in H. cbn [length] in H. split; [|split]; auto.
    + intros l' [= <-]. unfold dim. lia.
    + intros i Hi. unfold bound, at0. cbn [option_map tl]. replace (Z.to_nat (i + 1)) with (S (Z.to_nat i)) by lia. auto.
  - split; [|split]; auto. intros l [=].
Qed.
Lemma at0_cons a x i : 0 <= i -> at0 (a :: x) (i + 1) = at0 x i.
Proof. intros Hi. unfold at0. replace (Z.to_nat (i + 1)) with (S (Z.to_nat i)) by lia. auto. Qed.
Lemma inside_cons a x lo up : bounds_for (Z.of_nat (S (length x))) lo -> bounds_for (Z.of_nat (S (length x))) up ->
  inside_bounds (a :: x) lo up <-> within a (bound lo 0) (bound up 0) /\ inside_bounds x (option_map (@tl Qc) lo) (option_map (@tl Qc) up).
Proof.
  intros Bl Bu. destruct (bounds_cons _ _ Bl) as (_ & _ & Tl). destruct (bounds_cons _ _ Bu) as (_ & _ & Tu). unfold inside_bounds, dim. cbn [length]. split.
  - intros H. split; [apply (H 0); lia|]. intros i Hi. rewrite Tl, Tu, <- (at0_cons a) by lia. apply H. lia.
  - intros (H0 & H) i Hi. destruct (Z.eq_dec i 0) as [->|Ne]; auto. specialize (H (i - 1) ltac:(lia)). rewrite Tl, Tu, <- (at0_cons a) in H by lia. replace (i - 1 + 1) with i in H by lia. auto.
Qed.
Lemma penalty_ok : forall x lo up, bounds_for (dim x) lo -> bounds_for (dim x) up -> (0 <= penalty x lo up)%Qc /\ (penalty x lo up = 0%Qc <-> inside_bounds x lo up).
Proof.
  unfold dim. induction x as [|a x IH]; intros lo up Bl Bu; cbn [penalty].
  { split; [apply Qcle_refl|]. split; auto. intros _ i Hi. unfold dim in Hi. cbn in Hi. lia. }
  cbn [length] in Bl, Bu. destruct (bounds_cons _ _ Bl) as (Bl' & Hl & _). destruct (bounds_cons _ _ Bu) as (Bu' & Hu & _). destruct (IH _ _ Bl' Bu') as (P0 & P1). rewrite (inside_cons a x lo up Bl Bu).
  fold (hd_ lo). fold (hd_ up). rewrite Hl, Hu. set (p := penalty x _ _) in *. clearbody p.
  assert (Sq : forall q, (0 <= q * q)%Qc) by (intros; apply sq_nn).
  assert (Sq0 : forall q, (0 < q)%Qc -> (0 < q * q)%Qc). { intros q Hq. assert (K := Qcmult_lt_compat_r 0 q q Hq Hq). rewrite Qcmult_0_l in K. auto. }
  assert (Out : forall d, (0 < d)%Qc -> ~ within a (bound lo 0) (bound up 0) -> (0 <= d * d + p)%Qc /\ ((d * d + p)%Qc = 0%Qc <-> within a (bound lo 0) (bound up 0) /\ inside_bounds x (option_map (@tl Qc) lo) (option_map (@tl Qc) up))).
  { intros d Hd W. specialize (Sq0 d Hd). split; [qlra|]. split; [intros E; exfalso; qlra|tauto]. }
  assert (In_ : within a (bound lo 0) (bound up 0) -> (0 <= 0 + p)%Qc /\ ((0 + p)%Qc = 0%Qc <-> within a (bound lo 0) (bound up 0) /\ inside_bounds x (option_map (@tl Qc) lo) (option_map (@tl Qc) up))).
  { intros W. rewrite Qcplus_0_l. tauto. }
  assert (Up : (forall l, bound lo 0 = Some l -> (l <= a)%Qc) -> forall q, q = match bound up 0 with Some u => if qltb u a then (a - u) * (a - u) else 0 | None => 0 end%Qc ->
     (0 <= q + p)%Qc /\ ((q + p)%Qc = 0%Qc <-> within a (bound lo 0) (bound up 0) /\ inside_bounds x (option_map (@tl Qc) lo) (option_map (@tl Qc) up))).
  { intros Lo q ->. destruct (bound up 0) as [u|] eqn:Eu; [destruct (qltb_spec u a) as [L|L]|].
    - apply Out; [qlra|]. intros (_ & K). specialize (K u eq_refl). qlra.
    - apply In_. split; auto. intros u' [= <-]. qlra.
    - apply In_. split; auto. intros u' [=]. }
  destruct (bound lo 0) as [l|] eqn:El; [destruct (qltb_spec l a) as [L|L]; destruct (qltb_spec a l) as [L'|L']|].
  - exfalso. qlra.
  - apply Up; auto. intros l' [= <-]. qlra.
  - apply Out; [qlra|]. intros (K & _). specialize (K l eq_refl). qlra.
  - apply Up; auto. intros l' [= <-]. qlra.
  - apply Up; auto. intros l' [=].
Qed.
Lemma clamp_ok : forall x lo up, bounds_for (dim x) lo -> bounds_for (dim x) up ->
  match clamp x lo up with
  | Ok y => length y = length x /\ (forall i, 0 <= i < dim x -> nearest (at0 x i) (at0 y i) (bound lo i) (bound up i))
  | Throw => exists i l u, 0 <= i < dim x /\ bound lo i = Some l /\ bound up i = Some u /\ (u < l)%Qc
  | UB => False
  end.
Proof.
  unfold dim. induction x as [|a x IH]; intros lo up Bl Bu; cbn [clamp].
  { split; auto. intros i Hi. cbn in Hi. lia. }
  cbn [length] in Bl, Bu. destruct (bounds_cons _ _ Bl) as (Bl' & Hl & Tl). destruct (bounds_cons _ _ Bu) as (Bu' & Hu & Tu). specialize (IH _ _ Bl' Bu').
  fold (hd_ lo). fold (hd_ up). rewrite Hl, Hu.
  match goal with |- context[if ?b then Throw else _] => destruct b eqn:Bad end.
  { destruct (bound lo 0) as [l|] eqn:El; [|discriminate]. destruct (bound up 0) as [u|] eqn:Eu; [|discriminate]. destruct (qltb_spec u l); [|discriminate]. exists 0, l, u. split; [cbn [length]; lia|auto]. }
  set (y0 := match bound up 0 with Some u => _ | None => _ end).
  assert (Y : nearest a y0 (bound lo 0) (bound up 0)).
  { unfold nearest, within, y0. clear - Bad. destruct (bound lo 0) as [l|]; destruct (bound up 0) as [u|]; try destruct (qltb_spec a l); try destruct (qltb_spec u l); try destruct (qltb_spec u a); try discriminate;
    (split; [split|split; [intros (W1 & W2)|split]]; try (intros ? [= <-]); try (intros ? [=]); intros; try reflexivity; try (specialize (W1 _ eq_refl)); try (specialize (W2 _ eq_refl));
     first [reflexivity | qlra | exfalso; qlra | apply Qcle_antisym; qlra]). }
  destruct (clamp x (option_map (@tl Qc) lo) (option_map (@tl Qc) up)) as [y| |]; cbn [bind].
  - destruct IH as (L & IH). split; [cbn [length]; auto|]. intros i Hi. cbn [length] in Hi. destruct (Z.eq_dec i 0) as [->|Ne]; [exact Y|].
    specialize (IH (i - 1) ltac:(lia)). rewrite Tl, Tu in IH by lia. rewrite <- (at0_cons a x), <- (at0_cons y0 y) in IH by lia. replace (i - 1 + 1) with i in IH by lia. auto.
  - destruct IH as (i & l & u & Hi & E1 & E2 & L). rewrite Tl in E1 by lia. rewrite Tu in E2 by lia. exists (i + 1), l, u. split; [cbn [length]; lia|auto].
  - auto.
Qed.
(** ** Minimize1 *)
Lemma vleb_vle a b : vleb a b = true -> vle a b.
Proof. destruct a, b; cbn; try discriminate; auto. destruct (qleb_spec q q0); [auto|discriminate]. Qed.
Definition worse (f : Qc -> val) (x y : Qc) : Prop := y = x \/ vle (f y) (f x).
Lemma worse_trans f x y z : worse f x y -> worse f y z -> worse f x z.
Proof. intros [->|A] [->|B]; unfold worse; auto. right. eapply vle_trans; eauto. Qed.
Lemma min1_loop_ok f tol : forall fuel x s it x' it', min1_loop f tol fuel x (x + s)%Qc (x - s)%Qc s it = (x', it') ->
  it <= it' <= it + Z.of_nat fuel /\ worse f x x'.
Proof.
  induction fuel as [|n IH]; intros x s it x' it'; cbn [min1_loop].
  - intros [= <- <-]. split; [lia|left; auto].
  - destruct (vleb (f (x + s)%Qc) (f (x - s)%Qc) && vleb (f (x + s)%Qc) (f x)) eqn:E1.
    { intros E. apply IH in E. destruct E as (B & W). split; [lia|]. eapply worse_trans; [|apply W]. right. apply vleb_vle. apply andb_prop in E1. tauto. }
    destruct (vleb (f (x - s)%Qc) (f (x + s)%Qc) && vleb (f (x - s)%Qc) (f x)) eqn:E2.
    { intros E. apply IH in E. destruct E as (B & W). split; [lia|]. eapply worse_trans; [|apply W]. right. apply vleb_vle. apply andb_prop in E2. tauto. }
    destruct (qltb _ _ && qltb _ _); [intros [= <- <-]; split; [lia|left; auto]|]. intros E. apply IH in E. destruct E as (B & W). split; [lia|auto].
Qed.
Lemma vleb_total a b : a <> Nan -> b <> Nan -> vleb a b = false -> vleb b a = true.
Proof. destruct a, b; cbn; try congruence; auto. destruct (qleb_spec q q0); destruct (qleb_spec q0 q); try congruence. intros; qlra. Qed.
Lemma vleb_false a b : a <> Nan -> b <> Nan -> vleb a b = false -> vlt b a.
Proof. destruct a, b; cbn; try congruence; auto; try discriminate. destruct (qleb_spec q q0); [discriminate|]. intros; qlra. Qed.
Lemma vleb_trans a b c : vleb a b = true -> vleb b c = true -> vleb a c = true.
Proof. destruct a, b, c; cbn; try discriminate; auto. destruct (qleb_spec q q0); destruct (qleb_spec q0 q1); destruct (qleb_spec q q1); try discriminate; auto. exfalso. qlra. Qed.
Lemma half_pos' s : (0 < s)%Qc -> (0 < s / (1 + 1))%Qc.
Proof. intros H. assert (P : (0 < / (1 + 1))%Qc) by reflexivity. assert (K := Qcmult_lt_compat_r 0 s (/ (1 + 1))%Qc P H). rewrite Qcmult_0_l in K. auto. Qed.
Lemma min1_stop f tol : (forall q, f q <> Nan) -> forall fuel x s it x' it', (0 < s)%Qc -> min1_loop f tol fuel x (x + s)%Qc (x - s)%Qc s it = (x', it') ->
  it' < it + Z.of_nat fuel -> exists t, (0 < t)%Qc /\ (t < tol)%Qc /\ vlt (f x') (f (x' + t)%Qc) /\ vlt (f x') (f (x' - t)%Qc).
Proof.
  intros Nn. induction fuel as [|n IH]; intros x s it x' it' Hs; cbn [min1_loop].
  - intros [= <- <-] L. lia.
  - destruct (vleb (f (x + s)%Qc) (f (x - s)%Qc) && vleb (f (x + s)%Qc) (f x)) eqn:E1; [intros E L; apply IH in E; auto; lia|].
    destruct (vleb (f (x - s)%Qc) (f (x + s)%Qc) && vleb (f (x - s)%Qc) (f x)) eqn:E2; [intros E L; apply IH in E; auto; lia|].
    destruct (qltb (qabs (x - (x + s))) tol && qltb (qabs (x - (x - s))) tol) eqn:E3.
    2:{ intros E L. apply IH in E; auto; [|lia]. apply half_pos'. auto. }
    intros [= <- <-] L. exists s. split; auto. apply andb_prop in E3. destruct E3 as (_ & E3). apply qabs_lt in E3. split; [replace s with (x - (x - s))%Qc by ring; auto|].
    destruct (vleb (f (x + s)%Qc) (f (x - s)%Qc)) eqn:E4; cbn [andb] in E1.
    + split; [apply vleb_false; auto|]. destruct (vleb (f (x - s)%Qc) (f x)) eqn:E5; [|apply vleb_false; auto].
      exfalso. assert (K := vleb_trans _ _ _ E4 E5). congruence.
    + assert (E4' := vleb_total _ _ (Nn _) (Nn _) E4). rewrite E4' in E2. cbn [andb] in E2. split; [|apply vleb_false; auto].
      destruct (vleb (f (x + s)%Qc) (f x)) eqn:E5; [|apply vleb_false; auto]. exfalso. assert (K := vleb_trans _ _ _ E4' E5). congruence.
Qed.
Lemma bracket h m x t : unimodal h m -> (0 < t)%Qc -> (h x < h (x + t)%Qc)%Qc -> (h x < h (x - t)%Qc)%Qc -> (x - t < m)%Qc /\ (m < x + t)%Qc.
Proof.
  intros (D & Inc) Ht H1 H2. split.
  - destruct (Qclt_le_dec (x - t)%Qc m); auto. exfalso. assert (K := Inc (x - t)%Qc x q ltac:(qlra)). qlra.
  - destruct (Qclt_le_dec m (x + t)%Qc); auto. exfalso. assert (K := D x (x + t)%Qc ltac:(qlra) q). qlra.
Qed.
Lemma clamp1_ok x lo up : (forall l u, lo = Some l -> up = Some u -> (l <= u)%Qc) -> nearest x (clamp1 x lo up) lo up.
Proof.
  intros H. unfold nearest, within, clamp1. destruct lo as [l|]; destruct up as [u|]; try specialize (H _ _ eq_refl eq_refl); try destruct (qltb_spec x l); try destruct (qltb_spec u l); try destruct (qltb_spec u x); try discriminate;
    (split; [split|split; [intros (W1 & W2)|split]]; try (intros ? [= <-]); try (intros ? [=]); intros; try reflexivity; try (specialize (W1 _ eq_refl)); try (specialize (W2 _ eq_refl));
     first [reflexivity | qlra | exfalso; qlra | apply Qcle_antisym; qlra]).
Qed.
Lemma penalized1_inside objective lo up x : within x lo up -> penalized1 objective lo up x = objective x.
Proof.
  intros (L & U). unfold penalized1. assert (E : (match up with Some u => qltb u x | None => false end || match lo with Some l => qltb x l | None => false end) = false).
  { destruct lo as [l|]; destruct up as [u|]; try specialize (L _ eq_refl); try specialize (U _ eq_refl); try destruct (qltb_spec u x); try destruct (qltb_spec x l); auto; exfalso; qlra. }
  rewrite E. destruct (objective x); cbn [vadd]; auto. f_equal. ring.
Qed.
Lemma vle_penalized1 objective lo up x v : vle (penalized1 objective lo up x) v -> vle (objective x) v.
Proof.
  unfold penalized1. set (b := _ || _). assert (P : (0 <= (if b then qz 100000 * (x * x) else 0))%Qc).
  { destruct b; [|apply Qcle_refl]. assert (K := Qcmult_le_compat_r 0 (qz 100000) (x * x) ltac:(unfold Qcle; cbn; discriminate) (sq_nn x)). rewrite Qcmult_0_l in K. auto. }
  revert P. generalize (if b then qz 100000 * (x * x) else 0)%Qc. intros q P. destruct (objective x), v; cbn; auto. intros; qlra.
Qed.
