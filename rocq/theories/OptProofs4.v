(** Nelder-Mead: the loop performs the iterations of the specification. *)
From Verif Require Import OptModel OptSpec MatProofs LsProofs OptProofs OptProofs2 OptProofs3.
From Coq Require Import Lia ZifyBool.
Local Open Scope Z_scope.

Lemma vlt_spec a b : vltb a b = true <-> vlt a b.
Proof. destruct a, b; cbn; try (split; [discriminate|tauto]); try tauto. destruct (qltb_spec q q0); split; auto; discriminate. Qed.
Lemma vlt_not a b : vltb a b = false -> ~ vlt a b.
Proof. intros H K. apply vlt_spec in K. congruence. Qed.
Lemma toward_blend c a x : toward c a x = blend c a x.
Proof. revert x. induction c as [|u c IH]; intros [|v x]; try reflexivity. unfold toward, blend in *. cbn [map2 combine map fst snd]. f_equal. apply IH. Qed.
Lemma reflect_blend c a x : map2 (fun ci xi => (ci + a * (ci - xi))%Qc) c x = blend c (- a)%Qc x.
Proof. revert x. induction c as [|u c IH]; intros [|v x]; try reflexivity. unfold blend in *. cbn [map2 combine map fst snd]. f_equal; [ring|]. apply IH. Qed.
Lemma blend_length c a x : length (blend c a x) = Nat.min (length c) (length x).
Proof. unfold blend. rewrite map_length, combine_length. auto. Qed.
Lemma blend_self c a : blend c a c = c.
Proof. unfold blend. induction c as [|u c IH]; auto. cbn [combine map fst snd]. f_equal; [ring|auto]. Qed.
Lemma shrink_map a best b : forall Sx i, (forall k p, nth_error Sx k = Some p -> i + Z.of_nat k = best -> p = b) -> shrink_points a best b i Sx = map (blend b a) Sx.
Proof.
  induction Sx as [|p t IH]; intros i H; cbn [shrink_points map]; auto. f_equal.
  - destruct (Z.eqb_spec i best) as [E|E]; [|apply toward_blend]. rewrite (H 0%nat p eq_refl); [|cbn; lia]. symmetry. apply blend_self.
  - apply IH. intros k q Hk Hi. apply (H (S k) q Hk). lia.
Qed.
Lemma fold_sum n : forall ps acc, length acc = n -> (forall p, In p ps -> length p = n) ->
  fold_left (map2 Qcplus) ps acc = map (fun i => at0 acc i + qsum (map (fun p => at0 p i) ps))%Qc (upto (Z.of_nat n)).
Proof.
  induction ps as [|p ps IH]; intros acc La Lp; cbn [fold_left map].
  - apply (nth_ext _ _ 0%Qc 0%Qc); [unfold upto; rewrite !map_length, seq_length; lia|]. intros k Hk.
    assert (H := at0_map (fun i => at0 acc i + qsum [])%Qc (Z.of_nat n) (Z.of_nat k) ltac:(lia)). unfold at0 in *. rewrite !Nat2Z.id in H. rewrite H.
    change (qsum []) with 0%Qc. ring.
  - assert (Lpn : length p = n) by (apply Lp; left; auto). rewrite IH; [|rewrite map2_length; lia|intros q Hq; apply Lp; right; auto].
    apply map_ext_in. intros i Hi. apply in_upto in Hi. rewrite qsum_cons'. replace (at0 (map2 Qcplus acc p) i) with (at0 acc i + at0 p i)%Qc; [ring|].
    unfold at0. rewrite (map2_nth Qcplus 0%Qc 0%Qc) by lia. auto.
Qed.
Lemma centroid_mean n ps : (forall p, In p ps -> length p = n) -> centroid n ps = mean_point (Z.of_nat n) ps.
Proof.
  intros H. unfold centroid, mean_point. rewrite (fold_sum n) by (auto; apply repeat_length). rewrite map_map. apply map_ext_in. intros i Hi. f_equal.
  unfold at0. rewrite nth_repeat. ring.
Qed.
Lemma split_at {A} (l : list A) k p : nth_error l k = Some p -> l = firstn k l ++ p :: skipn (S k) l /\ length (firstn k l) = k.
Proof.
  revert k. induction l as [|a l IH]; intros [|k] E; try discriminate; cbn [nth_error] in E.
  - injection E as ->. auto.
  - destruct (IH k E) as (E1 & L1). cbn [firstn skipn app length]. split; [f_equal; auto|]. auto.
Qed.
Lemma upd_at {A} (l : list A) k p q : nth_error l k = Some p -> upd k q l = firstn k l ++ q :: skipn (S k) l.
Proof. revert k. induction l as [|a l IH]; intros [|k] E; try discriminate; cbn [upd firstn skipn app]; auto. f_equal. apply IH. auto. Qed.
Lemma mean_length n ps : 0 <= n -> length (mean_point n ps) = Z.to_nat n.
Proof. intros H. unfold mean_point, upto. rewrite !map_length, seq_length. auto. Qed.

Lemma qabs_lt q t : qltb (qabs q) t = true -> (q < t)%Qc.
Proof. destruct (qltb_spec (qabs q) t) as [H|H]; [|discriminate]. intros _. revert H. unfold qabs. destruct (qltb_spec q 0%Qc); intros; qlra. Qed.

Section Loop.
Context (f : list Qc -> val) (o : nm_opt) (n : nat).
Local Notation N := (Z.of_nat n).
Definition points (Sx : list (list Qc)) : Prop := forall p, In p Sx -> length p = n.
Lemma nm_loop_steps : forall fuel Sx it, points Sx -> (exists p, In p Sx /\ is_number (f p)) ->
  exists Sx' k, nm_loop f o n fuel Sx (map f Sx) it = Ok (Sx', map f Sx', it + k) /\ nm_steps f o N k Sx Sx' /\ points Sx' /\ (exists p, In p Sx' /\ is_number (f p)) /\
    0 <= k <= Z.of_nat fuel /\ (k < Z.of_nat fuel -> nm_converged f o Sx').
Proof using Type.
  induction fuel as [|m IH]; intros Sx it Pt G; cbn [nm_loop].
  { exists Sx, 0. rewrite Z.add_0_r. split; auto. split; [constructor|]. split; auto. split; auto. split; lia. }
  pose proof G as (v & Hv & Nv).
  destruct (min_index_ok (map f Sx)) as (kb & vb & Eb & Nb & Numb & Lb); [exists (f v); split; auto; apply in_map; auto|].
  destruct (max_index_ok (map f Sx)) as (kw & vw & Ew & Nw & Nanw & Lw); [exists (f v); split; [apply in_map; auto|]; destruct Nv; congruence|].
  rewrite Eb, Ew, (rd_at _ kw vw Nw), (rd_at _ kb vb Nb). cbn [bind].
  rewrite nth_error_map in Nw, Nb. destruct (nth_error Sx kw) as [pw|] eqn:Epw; [|discriminate]. destruct (nth_error Sx kb) as [pb|] eqn:Epb; [|discriminate].
  cbn [option_map] in Nw, Nb. injection Nw as <-. injection Nb as <-.
  assert (Wp : worst_of f Sx pw). { split; [eapply nth_error_In; eauto|]. split; auto. intros p Hp. apply Lw. apply in_map; auto. }
  assert (Bp : best_of f Sx pb). { split; [eapply nth_error_In; eauto|]. split; auto. intros p Hp. apply Lb. apply in_map; auto. }
  match goal with |- context[if ?b then Ok _ else _] => destruct b eqn:Dif end.
  { exists Sx, 0. rewrite Z.add_0_r. split; auto. split; [constructor|]. split; auto. split; auto. split; [lia|]. intros _.
    destruct (f pw) as [a| |] eqn:Fw; try discriminate. destruct (f pb) as [b| |] eqn:Fb; try discriminate. exists pw, pb, a, b. do 4 (split; [auto; fail|]).
    assert (D1 := qabs_lt _ _ Dif). exact D1. }
  rewrite (rd_at Sx kw pw Epw), (rd_at Sx kb pb Epb). cbn [bind]. unfold without. rewrite Nat2Z.id.
  destruct (split_at Sx kw pw Epw) as (ES & LS). set (l := firstn kw Sx) in *. set (r := skipn (S kw) Sx) in *.
  assert (Pt' : forall p, In p (l ++ r) -> length p = n). { intros p Hp. apply Pt. rewrite ES. apply in_app_iff in Hp. apply in_app_iff. destruct Hp; [left|right; right]; auto. }
  rewrite (centroid_mean n (l ++ r)) by auto. rewrite reflect_blend, !toward_blend. fold (reflected o N (l ++ r) pw). fold (expanded o N (l ++ r) pw). fold (contracted o N (l ++ r) pw).
  assert (Lw' : length pw = n) by (apply Pt; apply (nth_error_In _ kw); auto). assert (Lb' : length pb = n) by (apply Pt; apply (nth_error_In _ kb); auto).
  assert (Lr : length (reflected o N (l ++ r) pw) = n) by (unfold reflected; rewrite blend_length, mean_length; lia).
  assert (Le : length (expanded o N (l ++ r) pw) = n) by (unfold expanded; rewrite blend_length, mean_length; lia).
  assert (Lc : length (contracted o N (l ++ r) pw) = n) by (unfold contracted; rewrite blend_length, mean_length; lia).
  assert (Fin : forall S2, points S2 -> (exists p, In p S2 /\ is_number (f p)) -> nm_step f o N Sx S2 ->
     exists Sx' k, nm_loop f o n m S2 (map f S2) (it + 1) = Ok (Sx', map f Sx', it + k) /\ nm_steps f o N k Sx Sx' /\ points Sx' /\ (exists p, In p Sx' /\ is_number (f p)) /\
     0 <= k <= Z.of_nat (S m) /\ (k < Z.of_nat (S m) -> nm_converged f o Sx')).
  { intros S2 P2 G2 St. destruct (IH S2 (it + 1) P2 G2) as (S3 & k & E3 & St3 & P3 & G3 & B3 & C3). exists S3, (k + 1). split; [rewrite E3; do 2 f_equal; lia|].
    split; [econstructor; eauto|]. split; auto. split; auto. split; [lia|]. intros. apply C3. lia. }
  assert (Rep : forall q, length q = n -> is_number (f q) -> nm_step f o N Sx (l ++ q :: r) ->
    exists Sx' k, nm_loop f o n m (replace (Z.of_nat kw) q Sx) (replace (Z.of_nat kw) (f q) (map f Sx)) (it + 1) = Ok (Sx', map f Sx', it + k) /\ nm_steps f o N k Sx Sx' /\ points Sx' /\
     (exists p, In p Sx' /\ is_number (f p)) /\ 0 <= k <= Z.of_nat (S m) /\ (k < Z.of_nat (S m) -> nm_converged f o Sx')).
  { intros q Lq Nq St. unfold replace. rewrite Nat2Z.id, <- map_upd. rewrite (upd_at Sx kw pw q Epw). apply Fin; auto.
    - intros p Hp. apply in_app_iff in Hp. destruct Hp as [Hp|[<-|Hp]]; auto; apply Pt'; apply in_app_iff; auto.
    - exists q. split; auto. apply in_app_iff. right. left. auto. }
  assert (Ex : existsb (vltb (f (reflected o N (l ++ r) pw))) (firstn kw (map f Sx) ++ skipn (S kw) (map f Sx)) = existsb (fun p => vltb (f (reflected o N (l ++ r) pw)) (f p)) (l ++ r)).
  { rewrite firstn_map, skipn_map, <- map_app. fold l r. generalize (l ++ r) at 2 4. intros t. induction t as [|a t IHt]; auto. cbn [map existsb]. rewrite IHt. auto. }
  rewrite Ex. destruct (vltb (f (reflected o N (l ++ r) pw)) (f pb)) eqn:E1.
  { assert (V1 := proj1 (vlt_spec _ _) E1). destruct (vltb (f (expanded o N (l ++ r) pw)) (f (reflected o N (l ++ r) pw))) eqn:E2; apply Rep; auto; try (eapply vltb_num; eauto; fail).
    - rewrite ES at 1. eapply StepExpand with (b := pb); rewrite <- ?ES; auto. apply vlt_spec; auto.
    - rewrite ES at 1. eapply StepReflectBest with (b := pb); rewrite <- ?ES; auto. apply vlt_not; auto. }
  assert (V1 := vlt_not _ _ E1).
  destruct (existsb _ (l ++ r)) eqn:E2.
  { apply existsb_exists in E2. destruct E2 as (p & Hp & Lp). apply Rep; auto; [eapply vltb_num; eauto|].
    rewrite ES at 1. eapply StepReflect with (b := pb) (p := p); rewrite <- ?ES; auto. apply vlt_spec; auto. }
  assert (V2 : forall p, In p (l ++ r) -> ~ vlt (f (reflected o N (l ++ r) pw)) (f p)).
  { intros p Hp K. apply vlt_spec in K. assert (T : existsb (fun p => vltb (f (reflected o N (l ++ r) pw)) (f p)) (l ++ r) = true) by (apply existsb_exists; eauto). congruence. }
  destruct (vltb (f (contracted o N (l ++ r) pw)) (f pw)) eqn:E3.
  { apply Rep; auto; [eapply vltb_num; eauto|]. rewrite ES at 1. eapply StepContract with (b := pb); rewrite <- ?ES; auto. apply vlt_spec; auto. }
  unfold shrink. rewrite shrink_ok. rewrite shrink_map.
  2:{ intros k p Hk Hi. assert (k = kb) by lia. congruence. }
  apply Fin.
  - intros p Hp. apply in_map_iff in Hp. destruct Hp as (q & <- & Hq). rewrite blend_length, (Pt q Hq). lia.
  - exists pb. split; [|apply Bp]. apply in_map_iff. exists pb. split; [apply blend_self|]. apply (nth_error_In _ kb). auto.
  - rewrite ES. eapply StepShrink; rewrite <- ?ES; eauto. apply vlt_not; auto.
Qed.
End Loop.

Lemma simplex_first x : simplex0 x = first_simplex x.
Proof.
  unfold simplex0, first_simplex. cbn [seq map]. f_equal. unfold dim at 2. unfold upto at 2. rewrite Nat2Z.id, <- seq_shift, !map_map. apply map_ext_in. intros k Hk. apply in_seq in Hk.
  cbn [vertex]. apply (nth_ext _ _ 0%Qc 0%Qc). { rewrite upd_length. unfold upto. rewrite !map_length, seq_length. unfold dim. lia. }
  intros j Hj. rewrite upd_length in Hj.
  assert (H := at0_map (fun j => at0 x j + (if Z.of_nat k =? j then 1 else 0))%Qc (dim x) (Z.of_nat j) ltac:(unfold dim; lia)). unfold at0 in *. rewrite !Nat2Z.id in H. rewrite H.
  destruct (Nat.eq_dec k j) as [->|Ne]; [rewrite Z.eqb_refl, nth_upd_same by auto; auto|]. rewrite nth_upd_other by auto. destruct (Z.eqb_spec (Z.of_nat k) (Z.of_nat j)); [lia|]. ring.
Qed.
Lemma first_points x : points (length x) (first_simplex x).
Proof.
  rewrite <- simplex_first. unfold simplex0. intros p Hp. apply in_map_iff in Hp. destruct Hp as (k & <- & _). destruct k; cbn [vertex]; auto. apply upd_length.
Qed.
Lemma nm_ok f o max x : (exists p, In p (first_simplex x) /\ is_number (f p)) ->
  exists Sx b iter, (do r <- nm_loop f o (length x) max (simplex0 x) (map f (simplex0 x)) 0; let '(Sx, V, iter) := r in do p <- rd Sx (min_index V 0 Inf (-1)); Ok (p, f p, iter, x)) = Ok (b, f b, iter, x) /\
    nm_steps f o (dim x) iter (first_simplex x) Sx /\ best_of f Sx b /\ 0 <= iter <= Z.of_nat max /\ (iter < Z.of_nat max -> nm_converged f o Sx) /\
    (forall p, In p (first_simplex x) -> f p <> Nan -> vle (f b) (f p)).
Proof.
  intros G. rewrite simplex_first. destruct (nm_loop_steps f o (length x) max (first_simplex x) 0 (first_points x) G) as (Sx & k & E & St & _ & G2 & B & C).
  rewrite E. cbn [bind]. rewrite Z.add_0_l in *. destruct G2 as (q & Hq & Nq).
  destruct (min_index_ok (map f Sx)) as (kb & vb & Eb & Nb & Numb & Lb); [exists (f q); split; auto; apply in_map; auto|]. rewrite Eb.
  rewrite nth_error_map in Nb. destruct (nth_error Sx kb) as [b|] eqn:Epb; [|discriminate]. cbn in Nb. injection Nb as <-. rewrite (rd_at _ _ _ Epb). cbn [bind].
  exists Sx, b, k. split; auto. split; auto. split. { split; [eapply nth_error_In; eauto|]. split; auto. intros p Hp. apply Lb. apply in_map; auto. }
  split; auto. split; auto. intros p Hp Np.
  destruct G as (p0 & Hp0 & Np0).
  assert (G0 : good (f p) (map f (first_simplex x))).
  { destruct (min_index_ok (map f (first_simplex x))) as (k0 & v0 & _ & E0 & Num0 & L0); [exists (f p0); split; auto; apply in_map; auto|]. exists v0. split; [eapply nth_error_In; eauto|]. split; auto. apply L0; auto. apply in_map; auto. }
  destruct (nm_loop_ok f o (length x) (f p) max (first_simplex x) _ 0 eq_refl G0) as (S2 & i2 & E2 & (v2 & I2 & N2 & L2) & _). rewrite E in E2. injection E2 as <- _.
  apply (vle_trans _ v2); auto. apply Lb; auto. destruct N2; congruence.
Qed.
