(** Mixtures of normals; whole-search forms. *)
From Verif Require Import Num MomentsModel MomentsSpec MomentsProofs.
Local Open Scope Qc_scope.

(** A summary given by raw sums W, S1..S4. *)
Record rsum := { r0 : Qc; r1 : Qc; r2 : Qc; r3 : Qc; r4 : Qc }.
Definition rmean (s : rsum) : Qc := if qeqb (r0 s) 0 then 0 else r1 s / r0 s.
Definition rc2 (s : rsum) := r2 s - qz 2 * rmean s * r1 s + rmean s * rmean s * r0 s.
Definition rc3 (s : rsum) := r3 s - qz 3 * rmean s * r2 s + qz 3 * rmean s * rmean s * r1 s - rmean s * rmean s * rmean s * r0 s.
Definition rc4 (s : rsum) := r4 s - qz 4 * rmean s * r3 s + qz 6 * rmean s * rmean s * r2 s
   - qz 4 * rmean s * rmean s * rmean s * r1 s + rmean s * rmean s * rmean s * rmean s * r0 s.
Definition rstat (n : Z) (s : rsum) : moms :=
  {| cnt := n; sw := Some (r0 s); mean := Some (rmean s); m2 := Some (rc2 s); m3 := Some (rc3 s); m4 := Some (rc4 s) |}.
Definition radd (a b : rsum) : rsum :=
  {| r0 := r0 a + r0 b; r1 := r1 a + r1 b; r2 := r2 a + r2 b; r3 := r3 a + r3 b; r4 := r4 a + r4 b |}.
Definition rzero : rsum := {| r0 := 0; r1 := 0; r2 := 0; r3 := 0; r4 := 0 |}.

Lemma rcombine a b n n' : 0 < r0 a -> 0 < r0 b ->
  combine_pass 4 (rstat n a) (rstat n' b) = rstat 0 (radd a b).
Proof.
  intros Ha Hb.
  assert (Ha' : r0 a <> 0) by (apply Qc_lt_ne; auto).
  assert (Hb' : r0 b <> 0) by (apply Qc_lt_ne; auto).
  assert (Hs : r0 a + r0 b <> 0) by (apply Qc_lt_ne; qlra).
  assert (Hs2 := mul_ne _ _ Hs Hs). assert (Hs3 := mul_ne _ _ Hs2 Hs).
  unfold combine_pass, rstat. cbn [cnt sw mean m2 m3 m4 Nat.eqb Nat.leb].
  cbn [fadd fsub fmul fl2 c3 c4 c6]. rewrite !fdiv_some by auto. cbn [fadd fsub fmul fl2].
  unfold rc2, rc3, rc4, rmean, radd. cbn [r0 r1 r2 r3 r4].
  destruct (qeqb_spec (r0 a) 0) as [E|_]; [contradiction|].
  destruct (qeqb_spec (r0 b) 0) as [E|_]; [contradiction|].
  destruct (qeqb_spec (r0 a + r0 b) 0) as [E|_]; [contradiction|].
  change (qz 2) with (1 + 1). change (qz 3) with (1 + 1 + 1). change (qz 4) with (1 + 1 + 1 + 1).
  change (qz 6) with (1 + 1 + 1 + 1 + 1 + 1).
  f_equal; f_equal; field; auto.
Qed.

Lemma rcombine_zero a n n' : 0 < r0 a -> combine_pass 4 (rstat n a) (rstat n' rzero) = rstat 0 a.
Proof.
  intros Ha. assert (Ha' : r0 a <> 0) by (apply Qc_lt_ne; auto).
  assert (Hs : r0 a + 0 <> 0) by (apply Qc_lt_ne; qlra).
  assert (Hs2 := mul_ne _ _ Hs Hs). assert (Hs3 := mul_ne _ _ Hs2 Hs).
  unfold combine_pass, rstat. cbn [cnt sw mean m2 m3 m4 Nat.eqb Nat.leb r0 rzero].
  cbn [fadd fsub fmul fl2 c3 c4 c6]. rewrite !fdiv_some by auto. cbn [fadd fsub fmul fl2].
  unfold rc2, rc3, rc4, rmean. cbn [r0 r1 r2 r3 r4 rzero]. change (qeqb 0 0) with true. cbv iota.
  destruct (qeqb_spec (r0 a) 0) as [E|_]; [contradiction|].
  assert (Hz : r0 a + 0 = r0 a) by ring. rewrite !Hz in *.
  f_equal; f_equal; field; auto.
Qed.

(** Raw sums of a mixture. *)
Definition mraw (l : list (Qc * Qc * Qc)) : rsum :=
  let s k := qsum (map (fun c => snd c * normal_moment k (fst (fst c)) (snd (fst c))) l) in
  {| r0 := mix_total l; r1 := s 1%nat; r2 := s 2%nat; r3 := s 3%nat; r4 := s 4%nat |}.

Lemma mraw_app a b : mraw (a ++ b) = radd (mraw a) (mraw b).
Proof. unfold mraw, radd, mix_total. cbn [r0 r1 r2 r3 r4]. rewrite !map_app, !qsum_app. reflexivity. Qed.

Lemma mix_mean_raw l : mix_total l <> 0 -> mix_mean l = rmean (mraw l).
Proof.
  intros H. unfold rmean, mix_mean. cbn [r0 mraw r1]. destruct (qeqb_spec (mix_total l) 0); [contradiction|].
  reflexivity.
Qed.

Section MixDev.
  Variable a : Qc.
  Ltac go := unfold mraw, mix_total; cbn [r0 r1 r2 r3 r4 normal_moment];
    change (qz 2) with (1 + 1); change (qz 3) with (1 + 1 + 1); change (qz 4) with (1 + 1 + 1 + 1);
    change (qz 6) with (1 + 1 + 1 + 1 + 1 + 1).
  Lemma mdev2 l : qsum (map (fun c => snd c * normal_moment 2 (fst (fst c) - a) (snd (fst c))) l)
    = r2 (mraw l) - qz 2 * a * r1 (mraw l) + a * a * r0 (mraw l).
  Proof. go. induction l as [|[[m v] w] l IH]; simpl in *; [ring|]. rewrite IH. ring. Qed.
  Lemma mdev3 l : qsum (map (fun c => snd c * normal_moment 3 (fst (fst c) - a) (snd (fst c))) l)
    = r3 (mraw l) - qz 3 * a * r2 (mraw l) + qz 3 * a * a * r1 (mraw l) - a * a * a * r0 (mraw l).
  Proof. go. induction l as [|[[m v] w] l IH]; simpl in *; [ring|]. rewrite IH. ring. Qed.
  Lemma mdev4 l : qsum (map (fun c => snd c * normal_moment 4 (fst (fst c) - a) (snd (fst c))) l)
    = r4 (mraw l) - qz 4 * a * r3 (mraw l) + qz 6 * a * a * r2 (mraw l) - qz 4 * a * a * a * r1 (mraw l) + a * a * a * a * r0 (mraw l).
  Proof. go. induction l as [|[[m v] w] l IH]; simpl in *; [ring|]. rewrite IH. ring. Qed.
End MixDev.

Definition posw3 (l : list (Qc * Qc * Qc)) : Prop := Forall (fun c => 0 < snd c) l.

Lemma mix_total_pos l : posw3 l -> l <> [] -> 0 < mix_total l.
Proof.
  intros H Hn. destruct H as [|[x w] l Hw H]; [congruence|]. clear Hn. unfold mix_total; simpl in *.
  assert (0 <= qsum (map snd l)).
  { apply qsum_nonneg. rewrite Forall_map. eapply Forall_impl; [|exact H]. intros; apply Qclt_le_weak; auto. }
  qlra.
Qed.

Lemma has_nan_rstat mo n l : has_nan mo (rstat n l) = false.
Proof. unfold has_nan, rstat; cbn [mean m2 m3 m4]. rewrite !andb_false_r. reflexivity. Qed.

Lemma mraw_single m v w : mraw [(m, v, w)] =
  {| r0 := w + 0; r1 := w * m + 0; r2 := w * (v + m * m) + 0; r3 := w * (qz 3 * v * m + m * m * m) + 0;
     r4 := w * (qz 3 * v * v + qz 6 * v * (m * m) + m * m * m * m) + 0 |}.
Proof. reflexivity. Qed.

Lemma combine_normal_step l m v w : posw3 l -> 0 < w ->
  combine_normal 4 (rstat (Z.of_nat (length l)) (mraw l)) (Some m) (Some v) w 1
  = rstat (Z.of_nat (length (l ++ [(m, v, w)]))) (mraw (l ++ [(m, v, w)])).
Proof.
  intros Hl Hw. assert (Hw' : w <> 0) by (apply Qc_lt_ne; auto).
  unfold combine_normal.
  set (b := {| cnt := 1; sw := Some w; mean := Some m; m2 := _; m3 := _; m4 := _ |}).
  assert (Eb : b = rstat 1 (mraw [(m, v, w)])).
  { unfold b. destruct (qeqb_spec w 0) as [E|_]; [contradiction|].
    rewrite mraw_single. unfold rstat, rc2, rc3, rc4, rmean. cbn [r0 r1 r2 r3 r4].
    destruct (qeqb_spec (w + 0) 0) as [E|_].
    { exfalso. apply Hw'. rewrite <- E. ring. }
    cbn [fmul fl2 c3]. rewrite fdiv_some by auto. cbn [fmul fl2].
    assert (Hz : w + 0 <> 0) by (replace (w + 0) with w by ring; auto).
    change (qz 2) with (1 + 1). change (qz 3) with (1 + 1 + 1). change (qz 4) with (1 + 1 + 1 + 1).
    change (qz 6) with (1 + 1 + 1 + 1 + 1 + 1).
    f_equal; f_equal; field; auto. }
  rewrite Eb. unfold combine_moms. rewrite has_nan_rstat.
  assert (H1 : 0 < r0 (mraw [(m, v, w)])) by (cbn [r0 mraw]; unfold mix_total; simpl; replace (w + 0) with w by ring; auto).
  assert (E : combine_pass 4 (rstat 1 (mraw [(m, v, w)])) (rstat (Z.of_nat (length l)) (mraw l)) = rstat 0 (mraw (l ++ [(m, v, w)]))).
  { destruct l as [|c l].
    - change (mraw []) with rzero. apply rcombine_zero; auto.
    - rewrite rcombine; auto.
      + rewrite mraw_app. f_equal. unfold radd. f_equal; ring.
      + apply mix_total_pos; auto; discriminate. }
  rewrite E, has_nan_rstat. rewrite app_length, Nat2Z.inj_add. reflexivity.
Qed.

Theorem mixture_moments (l : list (Qc * Qc * Qc)) : posw3 l -> l <> [] ->
  fold_left (fun s c => combine_normal 4 s (Some (fst (fst c))) (Some (snd (fst c))) (snd c) 1) l moms0
  = {| cnt := Z.of_nat (length l); sw := Some (mix_total l); mean := Some (mix_mean l);
       m2 := Some (mix_central 2 l); m3 := Some (mix_central 3 l); m4 := Some (mix_central 4 l) |}.
Proof.
  intros H Hn.
  assert (G : forall l l0, posw3 l0 -> posw3 l ->
     fold_left (fun s c => combine_normal 4 s (Some (fst (fst c))) (Some (snd (fst c))) (snd c) 1) l
       (rstat (Z.of_nat (length l0)) (mraw l0)) = rstat (Z.of_nat (length (l0 ++ l))) (mraw (l0 ++ l))).
  { clear. induction l as [|[[m v] w] l IH]; intros l0 H0 H; cbn [fold_left fst snd].
    - rewrite app_nil_r. reflexivity.
    - inversion H as [|? ? Hw H']; subst. rewrite combine_normal_step by auto.
      rewrite IH by (auto; apply Forall_app; split; auto). rewrite <- app_assoc. reflexivity. }
  specialize (G l [] (Forall_nil _) H). simpl app in G.
  assert (E0 : rstat (Z.of_nat (length (@nil (Qc*Qc*Qc)))) (mraw []) = moms0) by (vm_compute; reflexivity).
  rewrite E0 in G. rewrite G.
  assert (Ht : mix_total l <> 0) by (apply Qc_lt_ne, mix_total_pos; auto).
  unfold rstat. rewrite <- (mix_mean_raw l Ht). f_equal; unfold mix_central.
  - rewrite mdev2. unfold rc2. rewrite (mix_mean_raw l Ht). reflexivity.
  - rewrite mdev3. unfold rc3. rewrite (mix_mean_raw l Ht). reflexivity.
  - rewrite mdev4. unfold rc4. rewrite (mix_mean_raw l Ht). reflexivity.
Qed.

(** Combining the summaries of several searchers. *)
Theorem combine_all mo (ls : list (list (Qc * Qc))) : Forall posw ls ->
  fold_left (combine_moms mo) (map (statc mo) ls) moms0 = statc mo (concat ls).
Proof.
  intros H. assert (G : forall l0, posw l0 ->
     fold_left (combine_moms mo) (map (statc mo) ls) (statc mo l0) = statc mo (l0 ++ concat ls)).
  { induction H as [|l ls Hl H IH]; intros l0 H0; simpl.
    - rewrite app_nil_r; auto.
    - rewrite combine_concat by auto. rewrite IH by (apply Forall_app; split; auto).
      rewrite <- app_assoc; reflexivity. }
  specialize (G [] (Forall_nil _)). simpl in G. rewrite <- G. f_equal.
  unfold statc, stat, moms0. rewrite !central_nil.
  destruct (2 <=? mo)%nat, (3 <=? mo)%nat, (mo =? 4)%nat; reflexivity.
Qed.

Lemma known_perm l l' : Permutation l l' -> Permutation (known l) (known l').
Proof.
  unfold known. intros H. induction H as [|x l l' H IH|x y l|]; simpl; auto.
  - apply Permutation_app_head; auto.
  - rewrite !app_assoc. apply Permutation_app_tail, Permutation_app_comm.
  - etransitivity; eauto.
Qed.

Theorem split_independent mo (ls ls' : list (list (option Qc * Qc))) :
  Forall (Forall (fun p => 0 < snd p)) ls -> Forall (Forall (fun p => 0 < snd p)) ls' ->
  Permutation (concat ls) (concat ls') ->
  let run l := fold_left (fun s p => push_new mo true s (fst p) (snd p)) l moms0 in
  fold_left (combine_moms mo) (map run ls) moms0 = fold_left (combine_moms mo) (map run ls') moms0.
Proof.
  intros H H' HP run.
  assert (G : forall ls, Forall (Forall (fun p => 0 < snd p)) ls ->
     fold_left (combine_moms mo) (map run ls) moms0 = statc mo (known (concat ls))).
  { clear. intros ls H. rewrite (map_ext_in _ (fun l => statc mo (known l))).
    - rewrite <- (map_map known (statc mo)). rewrite combine_all.
      + f_equal. induction ls as [|l ls IH]; simpl; auto. rewrite known_app, IH; auto. inversion H; auto.
      + rewrite Forall_map. eapply Forall_impl; [|exact H]. intros l Hl. unfold posw, known.
        apply Forall_flat_map. eapply Forall_impl; [|exact Hl]. intros [[x|] w] Hw; simpl in *; auto.
    - intros l Hl. rewrite Forall_forall in H. apply pushes_stat. apply H; auto. }
  rewrite !G by auto. unfold statc.
  pose proof (known_perm _ _ HP) as HK. apply Permutation_length in HK as HL.
  etransitivity; [apply stat_perm; exact HK|]. f_equal. f_equal. exact HL.
Qed.

Lemma known_posw l : Forall (fun p : option Qc * Qc => 0 < snd p) l -> posw (known l).
Proof.
  intros Hl. unfold posw, known. apply Forall_flat_map. eapply Forall_impl; [|exact Hl].
  intros [[x|] w] Hw; simpl in *; auto.
Qed.

Theorem array_mean_ok (data : list fl) (w : list Qc) :
  Forall (fun x => 0 < x) w ->
  let l := known (combine data w) in
  array_mean true data w = (if (length l =? 0)%nat then UB else Ok (Some (wmean l))) /\
  array_variance true data w = (if (length l =? 0)%nat then UB else Ok (Some (central 2 l / total l))).
Proof.
  intros H l.
  assert (Hp : Forall (fun p : option Qc * Qc => 0 < snd p) (combine data w)).
  { apply Forall_forall. intros [x y] Hxy. apply in_combine_r in Hxy. rewrite Forall_forall in H. apply H; auto. }
  unfold array_mean, array_variance, array_pass. rewrite !pushes_stat by auto. fold l.
  unfold statc, stat. cbn [cnt sw mean m2 Nat.leb].
  pose proof (known_posw _ Hp) as Hk. fold l in Hk.
  destruct l as [|a l'] eqn:El.
  - split; reflexivity.
  - assert (Ht : total (a :: l') <> 0) by (apply Qc_lt_ne, posw_total; auto; discriminate).
    destruct (qeqb_spec (total (a :: l')) 0); [contradiction|]. simpl length. cbn [Nat.eqb].
    rewrite fdiv_some by auto. auto.
Qed.
