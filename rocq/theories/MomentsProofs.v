From Verif Require Import Num MomentsModel MomentsSpec.
Local Open Scope Qc_scope.

Definition raw (k : nat) (l : list (Qc * Qc)) : Qc := qsum (map (fun p => snd p * qpow (fst p) k) l).

Lemma raw_app k a b : raw k (a ++ b) = raw k a + raw k b.
Proof. unfold raw. rewrite map_app, qsum_app. reflexivity. Qed.

Lemma total_raw l : total l = raw 0 l.
Proof. unfold total, raw. f_equal. apply map_ext. intros [x w]; simpl; ring. Qed.
Lemma sum_raw l : qsum (map (fun p => snd p * fst p) l) = raw 1 l.
Proof. unfold raw. f_equal. apply map_ext. intros [x w]; simpl; ring. Qed.

Section Central.
  Variable a : Qc.
  Lemma dev2 l : qsum (map (fun p => snd p * qpow (fst p - a) 2) l) = raw 2 l - qz 2 * a * raw 1 l + a * a * raw 0 l.
  Proof. unfold raw. change (qz 2) with (1 + 1).
    induction l as [|[x w] l IH]; simpl in *; [ring|]. rewrite IH. ring. Qed.
  Lemma dev3 l : qsum (map (fun p => snd p * qpow (fst p - a) 3) l)
    = raw 3 l - qz 3 * a * raw 2 l + qz 3 * a * a * raw 1 l - a * a * a * raw 0 l.
  Proof. unfold raw. change (qz 3) with (1 + 1 + 1).
    induction l as [|[x w] l IH]; simpl in *; [ring|]. rewrite IH. ring. Qed.
  Lemma dev4 l : qsum (map (fun p => snd p * qpow (fst p - a) 4) l)
    = raw 4 l - qz 4 * a * raw 3 l + qz 6 * a * a * raw 2 l - qz 4 * a * a * a * raw 1 l + a * a * a * a * raw 0 l.
  Proof. unfold raw. change (qz 4) with (1 + 1 + 1 + 1). change (qz 6) with (1 + 1 + 1 + 1 + 1 + 1).
    induction l as [|[x w] l IH]; simpl in *; [ring|]. rewrite IH. ring. Qed.
End Central.

Lemma wmean_raw l : wmean l = raw 1 l / raw 0 l.
Proof. unfold wmean. rewrite total_raw, sum_raw. reflexivity. Qed.

(** State of the summary of a sample (only the maintained moments). *)
Definition stat (mo : nat) (n : Z) (l : list (Qc * Qc)) : moms :=
  {| cnt := n; sw := Some (total l); mean := Some (if qeqb (total l) 0 then 0 else wmean l);
     m2 := Some (if (2 <=? mo)%nat then central 2 l else 0);
     m3 := Some (if (3 <=? mo)%nat then central 3 l else 0);
     m4 := Some (if (mo =? 4)%nat then central 4 l else 0) |}.

Definition posw (l : list (Qc * Qc)) : Prop := Forall (fun p => 0 < snd p) l.

Lemma posw_total l : posw l -> l <> [] -> 0 < total l.
Proof.
  intros H Hn. destruct H as [|[x w] l Hw H]; [congruence|]. clear Hn. unfold total; simpl in *.
  assert (0 <= qsum (map snd l)).
  { apply qsum_nonneg. rewrite Forall_map. eapply Forall_impl; [|exact H]. intros; apply Qclt_le_weak; auto. }
  qlra.
Qed.

Lemma fdiv_some x y : y <> 0 -> Some x /f Some y = Some (x / y).
Proof. intros H. simpl. destruct (qeqb_spec y 0); [contradiction|reflexivity]. Qed.

Lemma mul_ne (a b : Qc) : a <> 0 -> b <> 0 -> a * b <> 0.
Proof. intros Ha Hb H. apply Qcmult_integral in H. tauto. Qed.

(** Pure versions. *)
Section Pure.
  Variables W V A B P2 P3 P4 R2 R3 R4 : Qc.  (* weights, means, central sums *)
  Definition pmean := (W * A + V * B) / (W + V).
  Definition p2 := P2 + R2 + (B - A) * (B - A) * W * V / (W + V).
  Definition p3 := P3 + R3 + (B - A) * ((B - A) * (B - A)) * W * V * (W - V) / ((W + V) * (W + V))
     + qz 3 * (B - A) * (W * R2 - V * P2) / (W + V).
  Definition p4 := P4 + R4
     + (B - A) * (B - A) * ((B - A) * (B - A)) * W * V * (W * W - W * V + V * V) / ((W + V) * (W + V) * (W + V))
     + qz 6 * ((B - A) * (B - A)) * (W * W * R2 + V * V * P2) / ((W + V) * (W + V))
     + qz 4 * (B - A) * (W * R3 - V * P3) / (W + V).
End Pure.

Section Join.
  Variables l r : list (Qc * Qc).
  Hypothesis Hl : total l <> 0.
  Hypothesis Hr : total r <> 0.
  Hypothesis Hlr : total l + total r <> 0.

  Lemma join_total : total (l ++ r) = total l + total r.
  Proof. unfold total. rewrite map_app. apply qsum_app. Qed.

  Lemma join_mean : wmean (l ++ r) = pmean (total l) (total r) (wmean l) (wmean r).
  Proof.
    unfold pmean. rewrite !wmean_raw, !total_raw in *. rewrite !raw_app. field. auto.
  Qed.

  Lemma join2 : central 2 (l ++ r) = p2 (total l) (total r) (wmean l) (wmean r) (central 2 l) (central 2 r).
  Proof.
    unfold p2, central. rewrite !dev2, !wmean_raw, !total_raw in *. rewrite !raw_app.
    change (qz 2) with (1 + 1). field. auto.
  Qed.

  Lemma join3 : central 3 (l ++ r) = p3 (total l) (total r) (wmean l) (wmean r) (central 2 l) (central 3 l) (central 2 r) (central 3 r).
  Proof.
    unfold p3, central. rewrite !dev2, !dev3, !wmean_raw, !total_raw in *. rewrite !raw_app.
    change (qz 2) with (1 + 1). change (qz 3) with (1 + 1 + 1). field. auto.
  Qed.

  Lemma join4 : central 4 (l ++ r) = p4 (total l) (total r) (wmean l) (wmean r)
     (central 2 l) (central 3 l) (central 4 l) (central 2 r) (central 3 r) (central 4 r).
  Proof.
    unfold p4, central. rewrite !dev2, !dev3, !dev4, !wmean_raw, !total_raw in *. rewrite !raw_app.
    change (qz 2) with (1 + 1). change (qz 3) with (1 + 1 + 1). change (qz 4) with (1 + 1 + 1 + 1).
    change (qz 6) with (1 + 1 + 1 + 1 + 1 + 1). field. auto.
  Qed.
End Join.

Definition statc (mo : nat) (l : list (Qc * Qc)) : moms := stat mo (Z.of_nat (length l)) l.

Lemma total_cons x w l : total ((x, w) :: l) = w + total l.
Proof. reflexivity. Qed.

Lemma total_perm l l' : Permutation l l' -> total l = total l'.
Proof. intros H. unfold total. apply qsum_perm, Permutation_map; auto. Qed.

Lemma wmean_perm l l' : Permutation l l' -> wmean l = wmean l'.
Proof.
  intros H. unfold wmean. rewrite (total_perm _ _ H).
  rewrite (qsum_perm _ _ (Permutation_map (fun p => snd p * fst p) H)). reflexivity.
Qed.

Lemma central_perm k l l' : Permutation l l' -> central k l = central k l'.
Proof.
  intros H. unfold central. rewrite (wmean_perm _ _ H). apply qsum_perm, Permutation_map; auto.
Qed.

Lemma stat_perm mo n l l' : Permutation l l' -> stat mo n l = stat mo n l'.
Proof.
  intros H. unfold stat. rewrite !(fun k => central_perm k _ _ H), (total_perm _ _ H), (wmean_perm _ _ H).
  reflexivity.
Qed.

Lemma central_nil k : central k [] = 0. Proof. reflexivity. Qed.

Lemma combine_pass_stat mo n n' l r : 0 < total l -> 0 < total r ->
  combine_pass mo (stat mo n l) (stat mo n' r) = stat mo 0 (l ++ r).
Proof.
  intros Hl Hr.
  assert (Hl' : total l <> 0) by (apply Qc_lt_ne; auto).
  assert (Hr' : total r <> 0) by (apply Qc_lt_ne; auto).
  assert (Hs : total l + total r <> 0) by (apply Qc_lt_ne; qlra).
  unfold combine_pass, stat. cbn [cnt sw mean m2 m3 m4].
  destruct (qeqb_spec (total l) 0) as [E|_]; [contradiction|].
  destruct (qeqb_spec (total r) 0) as [E|_]; [contradiction|].
  rewrite join_total. destruct (qeqb_spec (total l + total r) 0) as [E|_]; [contradiction|].
  rewrite join_mean by auto. unfold pmean.
  assert (Hs2 := mul_ne _ _ Hs Hs). assert (Hs3 := mul_ne _ _ Hs2 Hs).
  cbn [fadd fsub fmul fl2 c3 c4 c6]. rewrite !fdiv_some by auto. cbn [fadd fsub fmul fl2].
  f_equal.
  - destruct (2 <=? mo)%nat; auto. rewrite join2 by auto. reflexivity.
  - destruct (Nat.leb_spec 3 mo) as [H3|H3]; auto.
    destruct (Nat.leb_spec 2 mo); [|lia]. rewrite join3 by auto. reflexivity.
  - destruct (Nat.eqb_spec mo 4) as [->|H4]; auto. simpl Nat.leb. cbv iota.
    rewrite join4 by auto. reflexivity.
Qed.

Lemma combine_pass_nil mo n n' l : 0 < total l ->
  combine_pass mo (stat mo n l) (stat mo n' []) = stat mo 0 l /\
  combine_pass mo (stat mo n []) (stat mo n' l) = stat mo 0 l.
Proof.
  intros Hl.
  assert (Hl' : total l <> 0) by (apply Qc_lt_ne; auto).
  assert (Hz : total l + 0 <> 0) by (replace (total l + 0) with (total l) by ring; auto).
  assert (Hz' : 0 + total l <> 0) by (replace (0 + total l) with (total l) by ring; auto).
  assert (Hz2 := mul_ne _ _ Hz Hz). assert (Hz3 := mul_ne _ _ Hz2 Hz).
  assert (Hz2' := mul_ne _ _ Hz' Hz'). assert (Hz3' := mul_ne _ _ Hz2' Hz').
  assert (Hs : 0 + total l = total l) by ring. assert (Hs' : total l + 0 = total l) by ring.
  unfold combine_pass, stat. cbn [cnt sw mean m2 m3 m4].
  change (total []) with 0. change (qeqb 0 0) with true. cbv iota.
  destruct (qeqb_spec (total l) 0) as [E|_]; [contradiction|].
  rewrite !central_nil.
  cbn [fadd fsub fmul fl2 c3 c4 c6]. rewrite !fdiv_some by auto. cbn [fadd fsub fmul fl2].
  rewrite !Hs, !Hs'.
  split; f_equal.
  all: try (f_equal; field; auto; fail).
  all: try (destruct (2 <=? mo)%nat; f_equal; field; auto; fail).
  all: try (destruct (3 <=? mo)%nat, (2 <=? mo)%nat; f_equal; field; auto; fail).
  all: try (destruct (mo =? 4)%nat, (3 <=? mo)%nat, (2 <=? mo)%nat; f_equal; field; auto; fail).
Qed.

Lemma has_nan_stat mo n l : has_nan mo (stat mo n l) = false.
Proof. unfold has_nan, stat; cbn [mean m2 m3 m4]. rewrite !andb_false_r. reflexivity. Qed.

Lemma statc_eq mo n l : {| cnt := n; sw := sw (stat mo 0 l); mean := mean (stat mo 0 l);
   m2 := m2 (stat mo 0 l); m3 := m3 (stat mo 0 l); m4 := m4 (stat mo 0 l) |} = stat mo n l.
Proof. reflexivity. Qed.

(** Combination = concatenation. *)
Theorem combine_concat mo l r : posw l -> posw r ->
  combine_moms mo (statc mo l) (statc mo r) = statc mo (l ++ r).
Proof.
  intros Hl Hr. unfold combine_moms, statc. rewrite has_nan_stat.
  destruct l as [|a l]; destruct r as [|b r].
  - (* both empty: 0/0 *) unfold combine_pass, stat, has_nan; simpl. reflexivity.
  - destruct (combine_pass_nil mo (Z.of_nat (length (b :: r))) (Z.of_nat (length (@nil (Qc*Qc)))) (b :: r) (posw_total _ Hr ltac:(discriminate))) as [E _].
    rewrite E, has_nan_stat. exact (statc_eq _ _ _).
  - destruct (combine_pass_nil mo (Z.of_nat (length (@nil (Qc*Qc)))) (Z.of_nat (length (a :: l))) (a :: l) (posw_total _ Hl ltac:(discriminate))) as [_ E].
    rewrite E, has_nan_stat. rewrite app_nil_r. reflexivity.
  - rewrite combine_pass_stat, has_nan_stat.
    + rewrite statc_eq. rewrite (stat_perm mo _ _ ((a :: l) ++ (b :: r))) by (apply Permutation_app_comm).
      rewrite (app_length (a :: l) (b :: r)), Nat2Z.inj_add. reflexivity.
    + apply posw_total; auto; discriminate.
    + apply posw_total; auto; discriminate.
Qed.

Lemma stat_single mo n x w : w <> 0 -> stat mo n [(x, w)] =
  {| cnt := n; sw := Some (w + 0); mean := Some x; m2 := Some 0; m3 := Some 0; m4 := Some 0 |}.
Proof.
  intros Hw. unfold stat. assert (Ht : total [(x, w)] = w + 0) by reflexivity. rewrite Ht.
  destruct (qeqb_spec (w + 0) 0) as [E|_]; [exfalso; apply Hw; rewrite <- E; ring|].
  assert (Em : wmean [(x, w)] = x).
  { unfold wmean. rewrite Ht. simpl. field. replace (w + 0) with w by ring; auto. }
  assert (Ec : forall k, (0 < k)%nat -> central k [(x, w)] = 0).
  { intros k Hk. unfold central. rewrite Em. destruct k as [|k]; [lia|]. simpl. ring. }
  rewrite Em, !Ec by lia.
  destruct (2 <=? mo)%nat, (3 <=? mo)%nat, (mo =? 4)%nat; reflexivity.
Qed.

(** Pushing one observation is combining with a one-element summary. *)
Lemma single_pass_combine mo n n' l x w : 0 < w -> 0 <= total l ->
  single_pass mo (Some x) (Some w) (stat mo n l)
  = {| cnt := n; sw := sw (combine_pass mo (stat mo n l) (stat mo n' [(x, w)]));
       mean := mean (combine_pass mo (stat mo n l) (stat mo n' [(x, w)]));
       m2 := if (2 <=? mo)%nat then m2 (combine_pass mo (stat mo n l) (stat mo n' [(x, w)])) else Some 0;
       m3 := if (3 <=? mo)%nat then m3 (combine_pass mo (stat mo n l) (stat mo n' [(x, w)])) else Some 0;
       m4 := if (mo =? 4)%nat then m4 (combine_pass mo (stat mo n l) (stat mo n' [(x, w)])) else Some 0 |}.
Proof.
  intros Hw Hl. assert (Hw' : w <> 0) by (apply Qc_lt_ne; auto).
  rewrite stat_single by auto. replace (w + 0) with w by ring.
  assert (Hs : total l + w <> 0) by (apply Qc_lt_ne; qlra).
  assert (Hs2 := mul_ne _ _ Hs Hs). assert (Hs3 := mul_ne _ _ Hs2 Hs).
  unfold single_pass, combine_pass, stat. cbn [cnt sw mean m2 m3 m4].
  set (mu := if qeqb (total l) 0 then 0 else wmean l).
  cbn [fadd fsub fmul fl2 c3 c4 c6 fneg]. rewrite !fdiv_some by auto. cbn [fadd fsub fmul fl2].
  f_equal.
  - destruct (2 <=? mo)%nat; auto. f_equal. field; auto.
  - destruct (3 <=? mo)%nat, (2 <=? mo)%nat; auto; f_equal; field; auto.
  - destruct (mo =? 4)%nat, (3 <=? mo)%nat, (2 <=? mo)%nat; auto; f_equal; field; auto.
Qed.

Lemma push_stat mo l x w : posw l -> 0 < w ->
  push_new mo true (statc mo l) (Some x) w = statc mo (l ++ [(x, w)]).
Proof.
  intros Hl Hw. unfold push_new, statc.
  assert (Ht : 0 <= total l).
  { destruct l as [|a l]; [apply Qcle_refl|]. apply Qclt_le_weak, posw_total; auto; discriminate. }
  rewrite (single_pass_combine mo _ 1) by auto. cbn [cnt sw mean m2 m3 m4].
  assert (E : combine_pass mo (stat mo (Z.of_nat (length l)) l) (stat mo 1 [(x, w)]) = stat mo 0 (l ++ [(x, w)])).
  { assert (Hx : 0 < total [(x, w)]) by (unfold total; simpl; replace (w + 0) with w by ring; auto).
    destruct l as [|a l].
    - apply (combine_pass_nil mo 0 1 [(x, w)]); auto.
    - apply combine_pass_stat; auto. apply posw_total; auto; discriminate. }
  rewrite E. unfold stat. cbn [cnt sw mean m2 m3 m4]. rewrite app_length. simpl length.
  f_equal; [lia| | |].
  - destruct (2 <=? mo)%nat; reflexivity.
  - destruct (3 <=? mo)%nat; reflexivity.
  - destruct (mo =? 4)%nat; reflexivity.
Qed.

Lemma known_app a b : known (a ++ b) = known a ++ known b.
Proof. unfold known. apply flat_map_app. Qed.

Theorem pushes_stat mo (l : list (option Qc * Qc)) : Forall (fun p => 0 < snd p) l ->
  fold_left (fun s p => push_new mo true s (fst p) (snd p)) l moms0 = statc mo (known l).
Proof.
  intros H. assert (G : forall l0 l, posw l0 -> Forall (fun p : option Qc * Qc => 0 < snd p) l ->
     fold_left (fun s p => push_new mo true s (fst p) (snd p)) l (statc mo l0) = statc mo (l0 ++ known l)).
  { clear. intros l0 l; revert l0; induction l as [|[[x|] w] l IH]; intros l0 H0 H; cbn [fold_left fst snd].
    - simpl. rewrite app_nil_r; auto.
    - inversion H as [|? ? Hw H']; subst. simpl in Hw.
      rewrite push_stat, IH by (auto; apply Forall_app; split; auto).
      rewrite <- app_assoc. reflexivity.
    - inversion H; subst. change (push_new mo true (statc mo l0) None w) with (statc mo l0). apply IH; auto. }
  specialize (G [] l (Forall_nil _) H). simpl in G. rewrite <- G.
  f_equal. unfold statc, stat, moms0.
  rewrite !central_nil. destruct (2 <=? mo)%nat, (3 <=? mo)%nat, (mo =? 4)%nat; reflexivity.
Qed.

(** Unweighted pushes: every weight is 1. *)
Theorem pushes_unweighted mo (l : list (option Qc * Qc)) :
  fold_left (fun s p => push_new mo false s (fst p) (snd p)) l moms0
  = fold_left (fun s p => push_new mo true s (fst p) (snd p)) (map (fun p => (fst p, 1)) l) moms0.
Proof. generalize moms0. induction l as [|[x w] l IH]; intros s; simpl; auto. Qed.
