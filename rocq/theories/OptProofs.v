(** Newton. *)
From Verif Require Import OptModel OptSpec LsProofs.
From Coq Require Import Lia ZifyBool.
Local Open Scope Z_scope.

Lemma map2_length {A B C} (f : A -> B -> C) : forall l m, length (map2 f l m) = Nat.min (length l) (length m).
Proof. induction l as [|x l IH]; intros [|y m]; cbn [map2 length]; auto. rewrite IH. auto. Qed.
Lemma map2_nth {A B C} (f : A -> B -> C) da db dc : forall l m k, (k < length l)%nat -> (k < length m)%nat -> nth k (map2 f l m) dc = f (nth k l da) (nth k m db).
Proof. induction l as [|x l IH]; intros [|y m] [|k] Hl Hm; cbn in *; try lia; auto. apply IH; lia. Qed.
Lemma sum_to_S n f : sum_to (Z.of_nat (S n)) f = (f 0%Z + sum_to (Z.of_nat n) (fun i => f (i + 1)%Z))%Qc.
Proof.
  unfold sum_to, upto. rewrite !Nat2Z.id. cbn [seq map]. rewrite qsum_cons'. f_equal. f_equal. rewrite <- seq_shift, !map_map. apply map_ext. intros k. f_equal. lia.
Qed.
Lemma vdot_inner : forall a b, length a = length b -> vdot a b = inner a b.
Proof.
  unfold inner, dim, vdot. induction a as [|x a IH]; intros [|y b] L; cbn [length] in L; try discriminate; [reflexivity|].
  cbn [map2 length]. rewrite qsum_cons', IH by lia. rewrite sum_to_S. f_equal. apply st_ext. intros i Hi. unfold at0. replace (Z.to_nat (i + 1)) with (S (Z.to_nat i)) by lia. reflexivity.
Qed.
Lemma move_map2 t d x : map2 (fun di xi => t * di + xi)%Qc d x = move t d x.
Proof. revert x. induction d as [|a d IH]; intros [|b x]; try reflexivity. cbn [map2]. unfold move. cbn [combine map fst snd]. f_equal; [ring|apply IH]. Qed.
Lemma move_length t d x : length (move t d x) = Nat.min (length d) (length x).
Proof. unfold move. rewrite map_length, combine_length. auto. Qed.

Definition is_wolfe (P : problem) (d x0 : list Qc) (v0 gd : Qc) (r : list Qc * option Qc * option (list Qc)) : Prop :=
  exists t v g, (0 < t)%Qc /\ r = (move t d x0, Some v, Some g) /\ fval P (move t d x0) = Some v /\ fgrad P (move t d x0) = Some g /\
    (v <= v0 + c1 * t * gd)%Qc /\ (c2 * gd <= vdot d g)%Qc.
Lemma half_pos a b : (0 <= a)%Qc -> (0 < b)%Qc -> (0 < half_sum a b)%Qc.
Proof.
  intros Ha Hb. unfold half_sum. assert (P : (0 < a + b)%Qc) by qlra. assert (Q : (0 < Q2Qc (1 # 2))%Qc) by reflexivity.
  assert (R := Qcmult_lt_compat_r 0 (Q2Qc (1 # 2)) (a + b)%Qc P Q). rewrite Qcmult_0_l in R. auto.
Qed.
Lemma wolfe_loop_ok P d x0 v0 gd : forall fuel alpha beta t r b k, (0 <= alpha)%Qc -> (0 < t)%Qc -> (forall x, beta = Some x -> (0 < x)%Qc) ->
  wolfe_loop P d x0 (Some v0) (Some gd) fuel alpha beta t = (Some r, b, k) -> is_wolfe P d x0 v0 gd r.
Proof.
  induction fuel as [|n IH]; intros alpha beta t r b k Ha Ht Hb; cbn [wolfe_loop]; [discriminate|]. rewrite move_map2. destruct (fval P (move t d x0)) as [v|] eqn:Ef.
  2:{ cbn [negb]. apply IH; auto; [apply half_pos; auto|]. intros x [= <-]. auto. }
  destruct (qltb_spec (v0 + c1 * t * gd)%Qc v) as [L|L]; cbn [negb].
  { apply IH; auto; [apply half_pos; auto|]. intros x [= <-]. auto. }
  destruct (fgrad P (move t d x0)) as [g|] eqn:Eg; cbn [negb].
  2:{ apply IH; auto; [qlra|]. destruct beta; [apply half_pos; [qlra|auto]|]. qlra. }
  destruct (qltb_spec (vdot d g) (c2 * gd)%Qc) as [K|K]; cbn [negb].
  { apply IH; auto; [qlra|]. destruct beta; [apply half_pos; [qlra|auto]|]. qlra. }
  intros [= <- <- <-]. exists t, v, g. split; auto. split; auto. split; auto. split; auto. split; qlra.
Qed.
Fixpoint pow2 (n : nat) : Qc := match n with O => 1%Qc | S k => ((1 + 1) * pow2 k)%Qc end.
Lemma wolfe_loop_throw P d x0 v0 gd : forall fuel alpha t k, wolfe_loop P d x0 (Some v0) (Some gd) fuel alpha None t = (None, None, k) ->
  forall i, (i < fuel)%nat -> exists v, fval P (move (pow2 i * t) d x0) = Some v /\ (v <= v0 + c1 * (pow2 i * t) * gd)%Qc.
Proof.
  induction fuel as [|n IH]; intros alpha t k; cbn [wolfe_loop]; [intros _ i Hi; lia|]. rewrite move_map2.
  assert (NB : forall fuel alpha b t k, wolfe_loop P d x0 (Some v0) (Some gd) fuel alpha (Some b) t <> (None, None, k)).
  { clear. induction fuel as [|n IH]; intros alpha b t k; cbn [wolfe_loop]; [discriminate|]. repeat match goal with |- context[if ?b then _ else _] => destruct b end; auto; try discriminate. }
  destruct (fval P (move t d x0)) as [v|] eqn:Ef; [|intros K; exfalso; exact (NB _ _ _ _ _ K)].
  destruct (qltb_spec (v0 + c1 * t * gd)%Qc v) as [L|L]; cbn [negb]; [intros K; exfalso; exact (NB _ _ _ _ _ K)|].
  assert (B : forall kk, wolfe_loop P d x0 (Some v0) (Some gd) n t None ((1 + 1) * t)%Qc = (None, None, kk) ->
    forall i, (i < S n)%nat -> exists v, fval P (move (pow2 i * t) d x0) = Some v /\ (v <= v0 + c1 * (pow2 i * t) * gd)%Qc).
  { intros kk K [|i] Hi.
    - exists v. cbn [pow2]. rewrite Qcmult_1_l. split; auto. qlra.
    - destruct (IH _ _ _ K i ltac:(lia)) as (w & E1 & E2). exists w. cbn [pow2]. replace ((1 + 1) * pow2 i * t)%Qc with (pow2 i * ((1 + 1) * t))%Qc by ring. auto. }
  destruct (fgrad P (move t d x0)) as [g|] eqn:Eg; cbn [negb]; [|apply B].
  destruct (qltb (vdot d g) (c2 * gd)); cbn [negb]; [apply B|discriminate].
Qed.

(** A direction given by dposv is a descent direction. *)
Lemma at0_map_neg g i : 0 <= i < dim g -> at0 (map (fun q => (- (1) * q)%Qc) g) i = (- at0 g i)%Qc.
Proof. intros Hi. unfold at0, dim in *. rewrite (nth_indep _ 0%Qc ((fun q => - (1) * q) 0)%Qc) by (rewrite map_length; lia). rewrite map_nth. ring. Qed.
Lemma quad_inner h v w : (forall i, 0 <= i < dim v -> sum_to (dim v) (fun j => h i j * at0 v j)%Qc = at0 w i) -> quad h v = inner v w.
Proof.
  intros H. unfold quad, inner. apply st_ext. intros i Hi. rewrite <- H by auto. rewrite <- st_mul. apply st_ext. intros j _. ring.
Qed.
Lemma quad_nonneg h v : posdef (dim v) h -> (0 <= quad h v)%Qc.
Proof.
  intros P. destruct (forallb (fun q => qeqb q 0) v) eqn:E.
  - assert (Z0 : forall i, at0 v i = 0%Qc).
    { intros i. unfold at0. destruct (Nat.ltb_spec (Z.to_nat i) (length v)); [|apply nth_overflow; lia].
      rewrite forallb_forall in E. specialize (E (nth (Z.to_nat i) v 0%Qc) ltac:(apply nth_In; auto)). destruct (qeqb_spec (nth (Z.to_nat i) v 0%Qc) 0%Qc); auto. discriminate. }
    unfold quad. rewrite (st_ext _ _ (fun _ => 0%Qc)); [rewrite st_zero; apply Qcle_refl|]. intros i _. rewrite (st_ext _ _ (fun _ => 0%Qc)); [apply st_zero|]. intros j _. rewrite !Z0. ring.
  - assert (X : exists i, at0 v i <> 0%Qc).
    { clear P. induction v as [|x v IH]; [discriminate|]. cbn [forallb] in E. destruct (qeqb_spec x 0%Qc) as [->|N]; [|exists 0; exact N].
      destruct (IH E) as (i & Hi). exists (Z.of_nat (S (Z.to_nat i))). unfold at0 in *. rewrite Nat2Z.id. exact Hi. }
    specialize (P v eq_refl X). qlra.
Qed.
Lemma newton_direction posv h g d : posv_sound posv -> posv h (map (fun q => (- (1) * q)%Qc) g) = Some d -> length d = length g /\ (vdot d g <= 0)%Qc.
Proof.
  intros Hs E. destruct (Hs _ _ _ E) as (L & Pd & Eq). rewrite map_length in L. split; auto.
  assert (D : dim (map (fun q => (- (1) * q)%Qc) g) = dim d) by (unfold dim; rewrite map_length; lia). rewrite D in *.
  rewrite vdot_inner by auto. assert (Q := quad_nonneg _ d Pd).
  rewrite (quad_inner (sym h) d (map (fun q => (- (1) * q)%Qc) g)) in Q by auto.
  replace (inner d g) with (- inner d (map (fun q => - (1) * q) g))%Qc; [qlra|].
  unfold inner. replace (- sum_to (dim d) (fun i => at0 d i * at0 (map (fun q => - (1) * q) g) i))%Qc with ((- (1)) * sum_to (dim d) (fun i => at0 d i * at0 (map (fun q => - (1) * q) g) i))%Qc by ring.
  rewrite <- st_mul. apply st_ext. intros i Hi. rewrite at0_map_neg by (unfold dim in *; lia). ring.
Qed.
Lemma wolfe_weak_ok P d x0 v0 g0 r : wolfe_weak P d x0 (Some v0) (Some g0) = Ok r -> r = (x0, Some v0, Some g0) \/ is_wolfe P d x0 v0 (vdot d g0) r.
Proof.
  unfold wolfe_weak. cbn [option_map]. destruct (wolfe_loop P d x0 (Some v0) (Some (vdot d g0)) 99 0 None 1) as [[[r'|] [b|]] k] eqn:E; intros [= <-]; auto; right; eapply wolfe_loop_ok; try apply E; try discriminate; reflexivity || apply Qcle_refl.
Qed.
(** With the line search the value does not increase. *)
Lemma wolfe_weak_sync P d x v g r : wolfe_weak P d x v g = Ok r -> v = fval P x -> g = fgrad P x -> snd (fst r) = fval P (fst (fst r)) /\ snd r = fgrad P (fst (fst r)).
Proof.
  unfold wolfe_weak. assert (L : forall fuel gd alpha beta t r b k, wolfe_loop P d x v gd fuel alpha beta t = (Some r, b, k) -> snd (fst r) = fval P (fst (fst r)) /\ snd r = fgrad P (fst (fst r))).
  { clear. induction fuel as [|n IH]; intros gd alpha beta t r b k; cbn [wolfe_loop]; [discriminate|]. destruct (negb _); [apply IH|]. destruct (negb _); [apply IH|]. intros [= <- <- <-]. auto. }
  destruct (wolfe_loop P d x v (option_map (vdot d) g) 99 0 None 1) as [[[r'|] [b|]] k] eqn:E; intros [= <-] Ev Eg; cbn [fst snd]; auto; eapply L; apply E.
Qed.
Lemma c1_le t gd : (0 < t)%Qc -> (gd <= 0)%Qc -> (c1 * t * gd <= 0)%Qc.
Proof.
  intros Ht Hg. assert (P : (0 <= c1 * t)%Qc). { apply Qcmult_le_compat_r with (z := t) (x := 0%Qc) (y := c1) in Ht || idtac. assert (H := Qcmult_le_compat_r 0 c1 t ltac:(unfold Qcle; cbn; discriminate) ltac:(qlra)). rewrite Qcmult_0_l in H. auto. }
  assert (H := Qcmult_le_compat_r gd 0 (c1 * t) Hg P). rewrite Qcmult_0_l in H. replace (c1 * t * gd)%Qc with (gd * (c1 * t))%Qc by ring. auto.
Qed.
Lemma newton_loop_ok posv P o : posv_sound posv -> n_line o = true -> forall fuel x v g it x' v' g' it',
  v = fval P x -> g = fgrad P x -> newton_loop posv P o fuel x v g it = Ok (x', v', g', it') ->
  v' = fval P x' /\ g' = fgrad P x' /\ it <= it' <= it + Z.of_nat fuel /\ (forall q, v = Some q -> exists q', v' = Some q' /\ (q' <= q)%Qc).
Proof.
  intros Hs Hl. induction fuel as [|n IH]; intros x v g it x' v' g' it' Ev Eg; cbn [newton_loop].
  - intros [= <- <- <- <-]. split; auto. split; auto. split; [lia|]. intros q ->. exists q. split; auto. apply Qcle_refl.
  - destruct g as [gv|]; [|destruct (qltb 0 (n_tolg o)); discriminate].
    destruct (qltb 0 (n_tolg o) && small_gradient o gv).
    { intros [= <- <- <- <-]. split; auto. split; auto. split; [lia|]. intros q ->. exists q. split; auto. apply Qcle_refl. }
    destruct (posv (fhess P x) (map (fun q => (- (1) * q)%Qc) gv)) as [d|] eqn:Ed; [|discriminate]. rewrite Hl.
    destruct (newton_direction posv _ _ _ Hs Ed) as (_ & Dg).
    destruct (wolfe_weak P d x v (Some gv)) as [[[x1 v1] g1]| |] eqn:Ew; cbn [bind]; try discriminate.
    destruct (wolfe_weak_sync _ _ _ _ _ _ Ew Ev Eg) as (Ev1 & Eg1). cbn [fst snd] in Ev1, Eg1.
    assert (Dn : forall q, v = Some q -> exists q', v1 = Some q' /\ (q' <= q)%Qc).
    { intros q ->. destruct (wolfe_weak_ok _ _ _ _ _ _ Ew) as [[= -> -> ->]|(t & w & gw & Ht & [= -> -> ->] & _ & _ & A & _)]; [exists q; split; auto; apply Qcle_refl|].
      exists w. split; auto. assert (C := c1_le t (vdot d gv) Ht Dg). qlra. }
    destruct (small_change o v v1).
    + intros [= <- <- <- <-]. split; auto. split; auto. split; [lia|auto].
    + intros R. destruct (IH _ _ _ _ _ _ _ _ Ev1 Eg1 R) as (A1 & A2 & A3 & A4). split; auto. split; auto. split; [lia|].
      intros q Eq. destruct (Dn q Eq) as (q1 & Eq1 & L1). destruct (A4 q1 Eq1) as (q2 & Eq2 & L2). exists q2. split; auto. qlra.
Qed.
