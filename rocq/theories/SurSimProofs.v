(** Proofs about the simulation of systems. *)
From Verif Require Import SurSimSpec.
From Coq Require Import Lia ZifyBool Permutation.
Local Open Scope Z_scope.

Definition grd (js : list nat) (n : nat) (g : nat -> nat -> fl) : list (list fl) := map (fun j => map (fun i => g i j) (seq 0 n)) js.

Lemma list_seq {A} (d : A) l : l = map (fun i => nth i l d) (seq 0 (List.length l)).
Proof.
  induction l; [reflexivity|]. cbn [List.length seq map nth]. f_equal. rewrite IHl at 1. rewrite <- seq_shift, map_map. reflexivity.
Qed.
Lemma shape_grd m n M : shape m n M -> M = grd (seq 0 m) n (at_ M).
Proof.
  intros (L & R). rewrite (list_seq [] M) at 1. rewrite L. unfold grd. apply map_ext_in. intros j Hj. apply in_seq in Hj.
  rewrite (list_seq None (nth j M [])) at 1. rewrite R by lia. reflexivity.
Qed.
Lemma grd_ext js n g h : (forall i j, (i < n)%nat -> In j js -> g i j = h i j) -> grd js n g = grd js n h.
Proof. intros K. apply map_ext_in. intros j Hj. apply map_ext_in. intros i Hi. apply in_seq in Hi. apply K; [lia|auto]. Qed.
Lemma grd_map f js n g : map (map f) (grd js n g) = grd js n (fun i j => f (g i j)).
Proof. unfold grd. rewrite map_map. apply map_ext. intros j. rewrite map_map. reflexivity. Qed.
Lemma map2_map {A B C D} (f : B -> C -> D) (a : A -> B) (b : A -> C) l : map2 f (map a l) (map b l) = map (fun x => f (a x) (b x)) l.
Proof. induction l; cbn; congruence. Qed.
Lemma grd_map2 f js n a b : map2 (map2 f) (grd js n a) (grd js n b) = grd js n (fun i j => f (a i j) (b i j)).
Proof. unfold grd. rewrite map2_map. apply map_ext. intros j. rewrite map2_map. reflexivity. Qed.
Lemma grd_none js n g : existsb is_none (concat (grd js n g)) = negb (forallb (fun j => forallb (fun i => negb (is_none (g i j))) (seq 0 n)) js).
Proof.
  induction js as [|j js IH]; [reflexivity|]. cbn [grd map concat forallb]. rewrite existsb_app. fold (grd js n g). rewrite IH.
  rewrite Bool.negb_andb. apply (f_equal (fun z => z || _)). clear IH. induction (seq 0 n) as [|x l IHl]; [reflexivity|]. cbn [map existsb forallb]. rewrite IHl, Bool.negb_andb, Bool.negb_involutive. reflexivity.
Qed.
Lemma grd_at m n g i j : (i < n)%nat -> (j < m)%nat -> at_ (grd (seq 0 m) n g) i j = g i j.
Proof.
  intros Hi Hj. unfold at_, grd. rewrite (nth_indep _ [] (map (fun i => g i (0)%nat) (seq 0 n))) by (rewrite map_length, seq_length; lia).
  rewrite (map_nth (fun j => map (fun i => g i j) (seq 0 n))). rewrite seq_nth by lia. rewrite (nth_indep _ None (g 0%nat (0 + j)%nat)) by (rewrite map_length, seq_length; lia).
  rewrite (map_nth (fun i => g i (0 + j)%nat)). rewrite seq_nth by lia. reflexivity.
Qed.

Lemma filter_le {A} (p : A -> bool) l : (List.length (filter p l) <= List.length l)%nat.
Proof. induction l; cbn; [lia|]. destruct (p a); cbn; lia. Qed.
Section P.
Context (root : Qc -> fl) (binv : Qc -> Qc -> fl) (crps : Qc -> Qc -> fl).

Lemma box_cols_map2 ls cols : (List.length cols <= List.length ls)%nat -> box_cols binv ls cols = Ok (map2 (box_inv binv) ls cols).
Proof.
  revert ls. induction cols as [|c cols IH]; intros [|l ls] L; cbn in L; try lia; cbn; auto. rewrite IH by lia. reflexivity.
Qed.
Lemma box_inv_map l col : box_inv binv l col = map (fun v => match l, v with Some l, Some x => binv l x | _, _ => v end) col.
Proof. destruct l; cbn; [apply map_ext; intros []; reflexivity|]. rewrite <- (map_id col) at 1. apply map_ext. intros []; reflexivity. Qed.
Lemma map2_nth {A B C} (f : A -> B -> C) da db l r : (List.length r <= List.length l)%nat -> map2 f l r = map (fun j => f (nth j l da) (nth j r db)) (seq 0 (List.length r)).
Proof.
  revert r. induction l as [|a l IH]; intros [|b r] L; cbn in L; try lia; [reflexivity..|]. cbn [map2 List.length seq map nth]. f_equal.
  rewrite IH by lia. rewrite <- seq_shift, map_map. reflexivity.
Qed.
Lemma box_all_ok c n M : enough_lambdas c -> shape (ss_m c) n M -> box_all binv (ss_lambdas c) M = Ok (grd (seq 0 (ss_m c)) n (fun i j => original binv (ss_lambdas c) j (at_ M i j))).
Proof.
  intros En Sh. unfold box_all, original, enough_lambdas in *. destruct (ss_lambdas c) as [ls|].
  - rewrite box_cols_map2 by (destruct Sh as [-> _]; auto). f_equal. rewrite (map2_nth _ (None : fl) ([] : list fl)) by (destruct Sh as [-> _]; auto). destruct Sh as (L & R). rewrite L. apply map_ext_in. intros j Hj. apply in_seq in Hj.
    rewrite box_inv_map. rewrite (list_seq None (nth j M [])) at 1. rewrite R by lia. rewrite map_map. apply map_ext. intros i. fold (at_ M i j). reflexivity.
  - f_equal. apply shape_grd; auto.
Qed.

Lemma zip4_map n a e f s : zip4 (map a (seq 0 n)) (map e (seq 0 n)) (map f (seq 0 n)) (map s (seq 0 n)) = map (fun i : nat => (a i, (e i, (f i, s i)))) (seq 0 n).
Proof. unfold zip4. induction (seq 0 n); cbn; congruence. Qed.
(** The sum of the scores of one column. *)
Lemma sum_scores_ok k n a f s s0 : implemented k -> (k = SCrps -> forall i, (i < n)%nat -> s i = s0 i) ->
  sum_scores crps k (map a (seq 0 n)) (map (fun i => a i -f f i) (seq 0 n)) (map f (seq 0 n)) (map s (seq 0 n)) = Ok (fsum (map (fun i => score crps k (a i, f i, s0 i)) (seq 0 n))).
Proof.
  intros Im Es. destruct k; try (destruct Im; fail); cbn [sum_scores]; rewrite zip4_map, map_map; f_equal; f_equal; apply map_ext_in; intros i Hi; apply in_seq in Hi; cbn [score]; try reflexivity.
  - destruct (a i), (f i); cbn; reflexivity.
  - rewrite Es by (auto; lia). reflexivity.
Qed.
Lemma add_row_ok k js n F a f s s0 : implemented k -> (k = SCrps -> forall i j, (i < n)%nat -> In j js -> s i j = s0 i j) ->
  add_row crps k (map F js) (grd js n a) (grd js n (fun i j => a i j -f f i j)) (grd js n f) (grd js n s)
  = Ok (map (fun j => F j +f fsum (map (fun i => score crps k (a i j, f i j, s0 i j)) (seq 0 n))) js).
Proof.
  intros Im. induction js as [|j js IH]; intros Es; [reflexivity|]. cbn [map grd add_row].
  rewrite (sum_scores_ok k n (fun i => a i j) (fun i => f i j) (fun i => s i j) (fun i => s0 i j)); [|auto|intros; apply Es; auto; left; auto]. cbn [bind].
  fold (grd js n a). fold (grd js n f). fold (grd js n s). change (map (fun j0 => map (fun i => a i j0 -f f i j0) (seq 0 n)) js) with (grd js n (fun i j => a i j -f f i j)).
  rewrite IH; [reflexivity|]. intros; apply Es; auto; right; auto.
Qed.
Lemma add_rows_ok ks js n F a f s s0 : Forall implemented ks -> (In SCrps ks -> forall i j, (i < n)%nat -> In j js -> s i j = s0 i j) ->
  add_rows crps ks (map (fun k => map (F k) js) ks) (grd js n a) (grd js n (fun i j => a i j -f f i j)) (grd js n f) (grd js n s)
  = Ok (map (fun k => map (fun j => F k j +f fsum (map (fun i => score crps k (a i j, f i j, s0 i j)) (seq 0 n))) js) ks).
Proof.
  intros Im. induction Im as [|k ks I1 I2 IH]; intros Es; [reflexivity|]. cbn [map add_rows].
  rewrite (add_row_ok k js n (F k) a f s s0); [|auto|intros -> ; apply Es; left; auto]. cbn [bind].
  rewrite IH; [reflexivity|]. intros H. apply Es. right; auto.
Qed.

Definition acc c (F : scoring -> nat -> fl) : list (list fl) := map (fun k => map (F k) (seq 0 (ss_m c))) (ss_metrics c).
Lemma usable_why c n d : usable_b binv c n d = match why binv c n d with None => true | Some _ => false end.
Proof.
  destruct d as [|cn y f v]; [reflexivity|]. unfold why. destruct (less (ss_maxcn c) cn) eqn:E1; cbn [usable_b]; rewrite E1; [reflexivity|]. cbn [negb andb].
  match goal with |- context [negb ?p || ?q] => destruct p eqn:E2; destruct q eqn:E3 end; cbn [negb andb orb]; try reflexivity;
  match goal with |- context [if negb ?p then _ else _] => destruct p end; reflexivity.
Qed.
Lemma step_ok c n s d F : enough_lambdas c -> Forall implemented (ss_metrics c) -> well_shaped c n d -> st_res s = acc c F ->
  sim_step root binv crps c s d =
  match why binv c n d with
  | Some r => Ok (SSt (st_res s) (st_counts s) (st_iters s) (st_inv s + 1) (add_error (ss_keep c) r (st_errors s)))
  | None => if ss_maxinv c <? st_inv s then Throw else
    Ok (SSt (acc c (fun k j => F k j +f fsum (map (score crps k) (map (fun i => point root binv c j i d) (seq 0 n))))) (st_counts s + ss_n1 c) (st_iters s + 1) (st_inv s) (st_errors s))
  end.
Proof.
  intros En Im W Er. destruct d as [|cn y f v]; [reflexivity|]. destruct W as (Wy & Wf & Wv). unfold sim_step, why, do_var.
  destruct (less (ss_maxcn c) cn) eqn:E1; [reflexivity|].
  rewrite (shape_grd _ _ _ Wv) at 1. rewrite grd_none.
  set (vars := forallb (fun j => forallb (fun i => negb (is_none (at_ v i j))) (seq 0 n)) (seq 0 (ss_m c))).
  destruct (existsb requires_variance (ss_metrics c) && negb vars) eqn:E2; [reflexivity|].
  rewrite (box_all_ok c n y En Wy), (box_all_ok c n f En Wf). cbn [bind].
  assert (Ws : shape (ss_m c) n (map (map (fbind root)) v)).
  { destruct Wv as (L & R). split; [rewrite map_length; auto|]. intros j Hj. change (@nil fl) with (map (fbind root) []). rewrite map_nth, map_length. auto. }
  assert (At : forall i j, at_ (map (map (fbind root)) v) i j = fbind root (at_ v i j)).
  { intros i j. unfold at_. change (@nil fl) with (map (fbind root) []) at 1. rewrite map_nth. change (@None Qc) with (fbind root None) at 1. rewrite map_nth. reflexivity. }
  set (A := fun i j => original binv (ss_lambdas c) j (at_ y i j)). set (Fc := fun i j => original binv (ss_lambdas c) j (at_ f i j)).
  set (S0 := fun i j => original binv (ss_lambdas c) j (fbind root (at_ v i j))).
  assert (K : exists S1, (if existsb requires_variance (ss_metrics c) then box_all binv (ss_lambdas c) (map (map (fbind root)) v) else Ok (map (map (fun _ => None)) f)) = Ok (grd (seq 0 (ss_m c)) n S1)
    /\ (In SCrps (ss_metrics c) -> forall i j, (i < n)%nat -> In j (seq 0 (ss_m c)) -> S1 i j = S0 i j)).
  { destruct (existsb requires_variance (ss_metrics c)) eqn:E3.
    - exists S0. rewrite (box_all_ok c n _ En Ws). split; [|auto]. f_equal. apply grd_ext. intros i j _ _. rewrite At. reflexivity.
    - exists (fun _ _ => None). rewrite (shape_grd _ _ _ Wf) at 1. rewrite grd_map. split; [reflexivity|]. intros H. exfalso.
      assert (existsb requires_variance (ss_metrics c) = true) by (apply existsb_exists; exists SCrps; auto). congruence. }
  destruct K as (S1 & K1 & K2). unfold fl in *. rewrite K1. cbn [bind]. rewrite grd_map2. rewrite grd_none.
  cbn [usable_b]. rewrite E1. fold vars.
  set (errs := forallb (fun j => forallb (fun i => negb (is_none (original binv (ss_lambdas c) j (at_ y i j) -f original binv (ss_lambdas c) j (at_ f i j)))) (seq 0 n)) (seq 0 (ss_m c))).
  change (forallb (fun j => forallb (fun i => negb (is_none (A i j -f Fc i j))) (seq 0 n)) (seq 0 (ss_m c))) with errs.
  assert (Hv : negb (existsb requires_variance (ss_metrics c)) || vars = true) by (destruct (existsb requires_variance (ss_metrics c)), vars; auto).
  rewrite Hv. cbn [negb andb]. destruct errs; cbn [negb]; [|reflexivity].
  replace (st_inv s + 1 - 1) with (st_inv s) by lia. destruct (ss_maxinv c <? st_inv s); [reflexivity|].
  rewrite Er. unfold acc at 1. change (fun i j : nat => fsub (A i j) (Fc i j)) with (fun i j : nat => A i j -f Fc i j). rewrite (add_rows_ok (ss_metrics c) (seq 0 (ss_m c)) n F A Fc S1 S0 Im K2). cbn [bind]. f_equal. f_equal.
  unfold acc. apply map_ext. intros k. apply map_ext. intros j. rewrite map_map. reflexivity.
Qed.

Definition usable_count c n ds := count_b (usable_b binv c n) ds.
Definition reasons c n ds : list reason := flat_map (fun d => match why binv c n d with Some r => [r] | None => [] end) ds.
Definition add_all c n ds (l : list (reason * Z)) := fold_left (fun l r => add_error (ss_keep c) r l) (reasons c n ds) l.
Lemma fadd_0_l a : Some 0%Qc +f a = a. Proof. destruct a; cbn; [f_equal; ring|reflexivity]. Qed.
Lemma fadd_0_r a : a +f Some 0%Qc = a. Proof. destruct a; cbn; [f_equal; ring|reflexivity]. Qed.
Lemma fadd_assoc a b c : a +f (b +f c) = a +f b +f c. Proof. destruct a, b, c; cbn; auto. f_equal; ring. Qed.
Lemma fadd_comm a b : a +f b = b +f a. Proof. destruct a, b; cbn; auto. f_equal; ring. Qed.
Lemma fsum_from l a : fold_left fadd l a = a +f fsum l.
Proof. unfold fsum. revert a. induction l; intros b; cbn [fold_left]; [rewrite fadd_0_r; auto|]. rewrite IHl, (IHl (Some 0%Qc +f a)). rewrite fadd_0_l. rewrite fadd_assoc. reflexivity. Qed.
Lemma fsum_cons a l : fsum (a :: l) = a +f fsum l. Proof. unfold fsum at 1. cbn [fold_left]. rewrite fsum_from, fadd_0_l. reflexivity. Qed.
Lemma fsum_app l r : fsum (l ++ r) = fsum l +f fsum r.
Proof. induction l; cbn [app]; [symmetry; apply fadd_0_l|]. rewrite !fsum_cons, IHl, fadd_assoc. reflexivity. Qed.
Lemma fsum_perm l r : Permutation l r -> fsum l = fsum r.
Proof. induction 1; auto; rewrite ?fsum_cons; try congruence. rewrite !fadd_assoc, (fadd_comm y x). reflexivity. Qed.

Lemma loop_ok c n ds : enough_lambdas c -> Forall implemented (ss_metrics c) -> Forall (well_shaped c n) ds -> forall s F, st_res s = acc c F ->
  let bad := Z.of_nat (List.length ds) - usable_count c n ds in
  (exists r, sim_loop root binv crps c s ds = Ok r /\
    r = SSt (acc c (fun k j => F k j +f fsum (map (score crps k) (points root binv c n j ds)))) (st_counts s + ss_n1 c * usable_count c n ds) (st_iters s + usable_count c n ds) (st_inv s + bad) (add_all c n ds (st_errors s)))
  \/ sim_loop root binv crps c s ds = Throw /\ ss_maxinv c < st_inv s + bad.
Proof.
  intros En Im W. induction W as [|d ds W1 W2 IH]; intros s F Er; cbn zeta.
  - left. eexists. split; [reflexivity|]. destruct s; cbn in *. subst. unfold usable_count, count_b, add_all, points. cbn. f_equal; try lia. unfold acc. apply map_ext. intros k. apply map_ext. intros j. rewrite fadd_0_r. reflexivity.
  - cbn [sim_loop]. rewrite (step_ok c n s d F En Im W1 Er). assert (U := usable_why c n d). unfold usable_count, count_b, points, add_all, reasons in *. cbn [filter flat_map List.length].
    destruct (why binv c n d) as [r|] eqn:Ew.
    + cbn [bind]. specialize (IH (SSt (st_res s) (st_counts s) (st_iters s) (st_inv s + 1) (add_error (ss_keep c) r (st_errors s))) F Er). cbn [st_res st_counts st_iters st_inv st_errors] in IH. rewrite U. cbn [app fold_left].
      destruct IH as [(r' & E & ->)|(E & B)].
      * left. eexists. split; [exact E|]. f_equal. lia.
      * right. split; [exact E|]. lia.
    + assert (Pos : st_inv s <= st_inv s + (Z.of_nat (List.length ds) - Z.of_nat (List.length (filter (usable_b binv c n) ds)))).
      { assert (L := filter_le (usable_b binv c n) ds). lia. }
      rewrite U. cbn [List.length map flat_map]. destruct (Z.ltb_spec (ss_maxinv c) (st_inv s)) as [Lt|Ge].
      * right. split; [reflexivity|]. lia.
      * cbn [bind].
        match goal with |- context [sim_loop _ _ _ c ?s' ds] => specialize (IH s' _ eq_refl) end. cbn [st_res st_counts st_iters st_inv st_errors] in IH.
        destruct IH as [(r' & E & ->)|(E & B)].
        -- left. eexists. split; [exact E|]. f_equal; try lia. unfold acc. apply map_ext. intros k. apply map_ext. intros j. rewrite map_app, fsum_app, fadd_assoc. reflexivity.
        -- right. split; [exact E|]. lia.
Qed.

Lemma points_length c n j ds : Z.of_nat (List.length (points root binv c n j ds)) = Z.of_nat n * usable_count c n ds.
Proof.
  unfold points, usable_count, count_b. induction (filter (usable_b binv c n) ds); cbn [flat_map List.length]; [lia|]. rewrite app_length, map_length, seq_length. lia.
Qed.
Definition unusable_count c n ds := Z.of_nat (List.length ds) - usable_count c n ds.
(** What the whole calculation gives. *)
Lemma calc_ok c n ds : enough_lambdas c -> Forall implemented (ss_metrics c) -> Forall (well_shaped c n) ds -> ss_n1 c = Z.of_nat n ->
  sim_calculate root binv crps c ds =
  if (Z.of_nat (List.length ds) <=? 0) || (ss_maxinv c <? unusable_count c n ds) then Throw else
  Ok (SSt (acc c (fun k j => summary root k (mean_score crps k (points root binv c n j ds)))) (Z.of_nat n * usable_count c n ds) (usable_count c n ds) (unusable_count c n ds) (add_all c n ds [])).
Proof.
  intros En Im W Hn. unfold sim_calculate. destruct (Z.of_nat (List.length ds) <=? 0) eqn:E0; [reflexivity|]. cbn [orb].
  assert (R0 : repeat (repeat (Some 0%Qc : fl) (ss_m c)) (List.length (ss_metrics c)) = acc c (fun _ _ => Some 0%Qc)).
  { unfold acc. assert (Rp : forall A (x : fl) (l : list A), repeat x (List.length l) = map (fun _ => x) l) by (induction l; cbn; congruence).
    assert (Rp2 : forall A (x : list fl) (l : list A), repeat x (List.length l) = map (fun _ => x) l) by (induction l; cbn; congruence).
    rewrite Rp2. apply map_ext. intros _. rewrite <- (seq_length (ss_m c) 0) at 1. apply Rp. }
  unfold fl in *. rewrite R0.
  set (s0 := SSt (acc c (fun _ _ => Some 0%Qc)) 0 0 0 []). destruct (loop_ok c n ds En Im W s0 (fun _ _ => Some 0%Qc) eq_refl) as [(r & E & ->)|(E & B)]; unfold fl in *; rewrite E; cbn [bind].
  - cbn [st_inv st_counts st_iters st_errors st_res s0]. change (0 + (Z.of_nat (List.length ds) - usable_count c n ds)) with (unusable_count c n ds).
    destruct (ss_maxinv c <? unusable_count c n ds); [reflexivity|]. f_equal. rewrite Hn. f_equal.
    unfold acc. rewrite <- (map_id (ss_metrics c)) at 1. rewrite map2_map. apply map_ext. intros k. rewrite map_map. apply map_ext. intros j.
    unfold finish, mean_score. rewrite fadd_0_l, points_length. replace (0 + Z.of_nat n * usable_count c n ds) with (Z.of_nat n * usable_count c n ds) by lia. destruct k; reflexivity.
  - cbn [st_inv s0] in B. unfold unusable_count. replace (ss_maxinv c <? _) with true by lia. reflexivity.
Qed.
End P.
