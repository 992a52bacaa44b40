(** Property C56 (optimizers). *)
From Verif Require Import Num OptModel OptSpec MatProofs LsProofs OptProofs OptProofs2 OptProofs3 OptProofs4 OptProofs5.
From Coq Require Import Lia ZifyBool.
Local Open Scope Z_scope.

Ltac qeq := vm_compute; repeat first [apply Qc_is_canon; reflexivity | f_equal].

(** ** Newton *)
(** A successful line search returns a point on the half line that satisfies the Wolfe conditions, with its value and
    gradient, or (after 99 trials) the starting point. *)
Theorem c56_line_search (P : problem) (d x0 : list Qc) (v0 : Qc) (g0 : list Qc) r : length d = length x0 -> length g0 = length x0 ->
  (forall x g, fgrad P x = Some g -> length g = length x) ->
  wolfe_weak P d x0 (Some v0) (Some g0) = Ok r ->
  r = (x0, Some v0, Some g0) \/
  exists t v g, (0 < t)%Qc /\ r = (move t d x0, Some v, Some g) /\ fval P (move t d x0) = Some v /\ fgrad P (move t d x0) = Some g /\
    (v <= v0 + c1 * t * inner d g0)%Qc /\ (c2 * inner d g0 <= inner d g)%Qc.
Proof.
  intros Ld Lg Hg H. destruct (wolfe_weak_ok _ _ _ _ _ _ H) as [E|(t & v & g & Ht & E & Ev & Eg & A & B)]; auto. right. exists t, v, g.
  rewrite vdot_inner in A, B by lia. do 4 (split; [auto; fail|]). rewrite vdot_inner in B; auto. rewrite (Hg _ _ Eg), move_length. lia.
Qed.
Print Assumptions c56_line_search.

(** It fails only if the function goes on decreasing (along 1, 2, 4, ... 2^98 times the direction). *)
Theorem c56_line_search_throws (P : problem) (d x0 : list Qc) (v0 : Qc) (g0 : list Qc) : length d = length g0 ->
  wolfe_weak P d x0 (Some v0) (Some g0) = Throw ->
  forall i, (i < 99)%nat -> exists v, fval P (move (pow2 i) d x0) = Some v /\ (v <= v0 + c1 * pow2 i * inner d g0)%Qc.
Proof.
  intros L. unfold wolfe_weak. generalize (eq_refl : option_map (vdot d) (Some g0) = Some (vdot d g0)). generalize (option_map (vdot d) (Some g0)) as gd. generalize 99%nat as n. intros n gd ->.
  destruct (wolfe_loop P d x0 (Some v0) (Some (vdot d g0)) n 0 None 1) as [[[r'|] [b|]] k] eqn:E; try discriminate. intros _ i Hi.
  destruct (wolfe_loop_throw _ _ _ _ _ _ _ _ _ E i Hi) as (v & Ev & Lv). rewrite Qcmult_1_r in Ev, Lv. exists v. rewrite <- vdot_inner by auto. auto.
Qed.
Print Assumptions c56_line_search_throws.

(** With the line search: the result is a point, its value and its gradient; the value is not larger than at the start. *)
Theorem c56_newton posv (P : problem) (o : newton_opt) (max : nat) (x0 x : list Qc) (v0 : Qc) v g it : posv_sound posv -> n_line o = true -> fval P x0 = Some v0 ->
  newton posv P o max x0 = Ok (x, v, g, it) ->
  v = fval P x /\ g = fgrad P x /\ 0 <= it <= Z.of_nat max /\ exists q, v = Some q /\ (q <= v0)%Qc.
Proof.
  intros Hs Hl E0 E. unfold newton in E. destruct (newton_loop_ok posv P o Hs Hl _ _ _ _ _ _ _ _ _ eq_refl eq_refl E) as (A & B & C & D). split; [exact A|]. split; [exact B|]. split; [exact C|]. exact (D _ E0).
Qed.
Print Assumptions c56_newton.

(** A quadratic function with a positive definite matrix: the minimum is found (unless the gradient at the start is below
    its tolerance). *)
Theorem c56_newton_quadratic posv (P : problem) (a : Z -> Z -> Qc) (b : list Qc) (c : Qc) (o : newton_opt) (max : nat) (x0 : list Qc) :
  posv_sound posv -> posv_complete (dim b) posv -> symmetric (dim b) a -> posdef (dim b) a ->
  (forall x, dim x = dim b -> fval P x = Some (quadratic a b c x)) -> (forall x, dim x = dim b -> fgrad P x = Some (quadratic_gradient a b x)) ->
  (forall x i j, dim x = dim b -> 0 <= i < dim b -> 0 <= j < dim b -> fhess P x i j = a i j) ->
  n_line o = true -> dim x0 = dim b -> (n_tolg o * n_tolg o <= inner (quadratic_gradient a b x0) (quadratic_gradient a b x0))%Qc ->
  exists x v g it, newton posv P o (S max) x0 = Ok (x, v, g, it) /\ dim x = dim b /\ forall y, dim y = dim b -> (quadratic a b c x <= quadratic a b c y)%Qc.
Proof.
  intros Hs Hc Sy Pd Pf Pg Ph Hl Dx T. destruct (newton_quadratic0 a b c Sy posv P Hs Hc Pd Pf Pg Ph o max x0 Hl Dx) as (x & v & g & it & E & H). exists x, v, g, it. split; auto.
  destruct H as [(D & Sol)|(_ & _ & L)]; [|exfalso; qlra]. split; auto. intros y Dy. apply (minimum a b c Sy x Pd D Sol y Dy).
Qed.
Print Assumptions c56_newton_quadratic.

(** An oracle for one dimension. *)
Definition posv1 (h : Z -> Z -> Qc) (b : list Qc) : option (list Qc) :=
  match b with [q] => if qltb 0 (h 0%Z 0%Z) then Some [(q / h 0%Z 0%Z)%Qc] else None | _ => None end.
Lemma sum1 f : sum_to 1 f = f 0.
Proof. change (sum_to 1 f) with (qsum [f 0]). rewrite qsum_cons'. change (qsum []) with 0%Qc. ring. Qed.
Lemma posdef1 h : posdef 1 h <-> (0 < h 0%Z 0%Z)%Qc.
Proof.
  split.
  - intros P. assert (H := P [1%Qc] eq_refl ltac:(exists 0; discriminate)). unfold quad, dim in H. cbn [length] in H. change (Z.of_nat 1) with 1 in H. rewrite !sum1 in H. unfold at0 in H. cbn [Z.to_nat nth] in H.
    replace (h 0%Z 0%Z) with (1 * h 0%Z 0%Z * 1)%Qc by ring. auto.
  - intros P v Dv (i & Hi). destruct v as [|q [|q' v]]; unfold dim in Dv; cbn [length] in Dv; try lia. unfold quad, dim. cbn [length]. change (Z.of_nat 1) with 1. rewrite !sum1. unfold at0 at 1 2. cbn [Z.to_nat nth].
    assert (Nq : q <> 0%Qc). { intros ->. apply Hi. unfold at0. destruct (Z.to_nat i) as [|[|n]]; auto. }
    assert (Q0 : (0 < q * q)%Qc). { destruct (Qcle_lt_or_eq _ _ (sq_nn q)) as [L|E]; auto. symmetry in E. destruct (Qcmult_integral _ _ E); contradiction. }
    assert (K := Qcmult_lt_compat_r 0 (h 0%Z 0%Z) (q * q) Q0 P). rewrite Qcmult_0_l in K. replace (q * h 0%Z 0%Z * q)%Qc with (h 0%Z 0%Z * (q * q))%Qc by ring. auto.
Qed.
Lemma posv1_sound : posv_sound posv1.
Proof.
  intros h b d. unfold posv1. destruct b as [|q [|q' b]]; try discriminate. destruct (qltb_spec 0%Qc (h 0%Z 0%Z)) as [L|L]; [|discriminate]. intros [= <-]. split; auto. unfold dim. cbn [length]. change (Z.of_nat 1) with 1. split.
  - apply posdef1. exact L.
  - intros i Hi. replace i with 0 by lia. rewrite sum1. unfold at0, sym. cbn. field. intros E. rewrite E in L. discriminate.
Qed.
Lemma posv1_complete : posv_complete 1 posv1.
Proof.
  intros h b Db P. unfold posv1. destruct b as [|q [|q' b]]; unfold dim in Db; cbn [length] in Db; try lia. apply posdef1 in P. unfold sym in P. cbn in P.
  destruct (qltb_spec 0%Qc (h 0%Z 0%Z)); [discriminate|contradiction].
Qed.
(** The function x^2 - 2 x + 3 *)
Definition sq_a : Z -> Z -> Qc := fun _ _ => (1 + 1)%Qc.
Definition sq_problem : problem := Prob (fun x => Some (quadratic sq_a [(1 + 1)%Qc] (qz 3) x)) (fun x => Some (quadratic_gradient sq_a [(1 + 1)%Qc] x)) (fun _ => sq_a).
Definition default_opt : newton_opt := NOpt (Q2Qc (1 # 1000000)) 0 true.
Example c56_newton_example : exists x v g it, newton posv1 sq_problem default_opt 100 [qz 7] = Ok (x, v, g, it) /\ x = [1%Qc] /\ v = Some (1 + 1)%Qc.
Proof. do 4 eexists. split; [vm_compute; reflexivity|]. split; qeq. Qed.
Example c56_newton_example_hypotheses : posv_sound posv1 /\ posv_complete 1 posv1 /\ symmetric 1 sq_a /\ posdef 1 sq_a.
Proof. split; [apply posv1_sound|]. split; [apply posv1_complete|]. split; [intros i j _ _; reflexivity|]. apply posdef1. reflexivity. Qed.
Example c56_line_search_example : exists r, wolfe_weak sq_problem [- (1)]%Qc [qz 7] (Some (qz 38)) (Some [qz 12]) = Ok r /\ fst (fst r) <> [qz 7].
Proof. eexists. split; [vm_compute; reflexivity|]. discriminate. Qed.
Example c56_line_search_throws_example : wolfe_weak (Prob (fun x => Some (- at0 x 0%Z)%Qc) (fun x => Some [- (1)]%Qc) (fun _ _ _ => 1%Qc)) [1%Qc] [0%Qc] (Some 0%Qc) (Some [- (1)]%Qc) = Throw.
Proof. vm_compute. reflexivity. Qed.

(** Without the line search (option useLineSearch = false) the gradient is not evaluated again: every step is the first
    gradient over the current Hessian, and the result can be worse than the start. *)
Theorem c56_newton_plain_refuted : exists (P : problem) x v g it, fval P [qz 1] = Some (qz 1) /\
  newton posv1 P (NOpt (Q2Qc (1 # 1000000)) 0 false) 100 [qz 1] = Ok (x, Some v, Some g, it) /\ v = qz 9801 /\ fgrad P x <> Some g.
Proof.
  exists (Prob (fun x => Some (at0 x 0%Z * at0 x 0%Z)%Qc) (fun x => Some [(1 + 1) * at0 x 0%Z]%Qc) (fun _ _ _ => (1 + 1)%Qc)).
  do 4 eexists. split; [qeq|]. split; [vm_compute; reflexivity|]. split; [qeq|]. vm_compute. discriminate.
Qed.
Print Assumptions c56_newton_plain_refuted.

(** ** Nelder-Mead *)
(** If the lower bounds are not above the upper ones and the function is a number at the (adjusted) starting point or a
    neighbour: the result is the best point of a simplex which [Iter] iterations of the algorithm give from the first
    simplex, the value is that of the (penalized) function; it is not larger than at the starting point; the
    iterations end because of the tolerance or the maximum. *)
Theorem c56_nelder_mead objective (o : nm_opt) (max : nat) (start : list Qc) lower upper (mult : Qc) :
  bounds_for (dim start) lower -> bounds_for (dim start) upper ->
  (forall i l u, 0 <= i < dim start -> bound lower i = Some l -> bound upper i = Some u -> (l <= u)%Qc) ->
  exists x, dim x = dim start /\ (forall i, 0 <= i < dim start -> nearest (at0 start i) (at0 x i) (bound lower i) (bound upper i)) /\
  let f := penalized objective lower upper mult in
  ((exists p, In p (first_simplex x) /\ is_number (f p)) ->
   exists Sx b iter, nm_minimize objective o max start lower upper mult = Ok (b, f b, iter, x) /\
    nm_steps f o (dim x) iter (first_simplex x) Sx /\ best_of f Sx b /\ (forall p, In p (first_simplex x) -> f p <> Nan -> vle (f b) (f p)) /\
    0 <= iter <= Z.of_nat max /\ (iter < Z.of_nat max -> nm_converged f o Sx)).
Proof.
  intros Bl Bu Hb. assert (C := clamp_ok start lower upper Bl Bu). destruct (clamp start lower upper) as [x| |] eqn:Ec.
  - destruct C as (L & Near). exists x. split; [unfold dim; lia|]. split; auto. intros f G. destruct (nm_ok f o max x G) as (Sx & b & iter & E & St & Be & B & Cv & Le).
    exists Sx, b, iter. unfold nm_minimize. rewrite Ec. cbn [bind]. fold f. split; [apply E|]. split; auto.
  - exfalso. destruct C as (i & l & u & Hi & E1 & E2 & L). specialize (Hb i l u Hi E1 E2). qlra.
  - contradiction.
Qed.
Print Assumptions c56_nelder_mead.

(** The penalty is zero exactly inside the bounds; there the function is the objective. *)
Theorem c56_penalty objective lower upper (mult : Qc) (x : list Qc) : bounds_for (dim x) lower -> bounds_for (dim x) upper ->
  (inside_bounds x lower upper -> forall q, objective x = Some (Num q) -> penalized objective lower upper mult x = Num q) /\
  (~ inside_bounds x lower upper -> (0 < mult)%Qc -> forall q, objective x = Some (Num q) -> exists p, penalized objective lower upper mult x = Num (q + p)%Qc /\ (0 < p)%Qc) /\
  (objective x = None -> penalized objective lower upper mult x = Inf).
Proof.
  intros Bl Bu. destruct (penalty_ok x lower upper Bl Bu) as (P0 & P1). split; [|split; [|intros E; unfold penalized; rewrite E; reflexivity]].
  - intros H q E. unfold penalized. rewrite E. apply P1 in H. rewrite H. cbn [vadd]. f_equal. ring.
  - intros H Hm q E. unfold penalized. rewrite E. exists (mult * penalty x lower upper)%Qc. split; auto.
    assert (Pp : (0 < penalty x lower upper)%Qc). { destruct (Qcle_lt_or_eq _ _ P0) as [L|L]; auto. exfalso. apply H. apply P1. auto. }
    assert (K := Qcmult_lt_compat_r 0 mult _ Pp Hm). rewrite Qcmult_0_l in K. auto.
Qed.
Print Assumptions c56_penalty.

(** A lower bound above the upper bound is refused. *)
Theorem c56_bounds_checked objective (o : nm_opt) (max : nat) (start : list Qc) lower upper (mult : Qc) i l u :
  bounds_for (dim start) lower -> bounds_for (dim start) upper -> 0 <= i < dim start -> bound lower i = Some l -> bound upper i = Some u -> (u < l)%Qc ->
  nm_minimize objective o max start lower upper mult = Throw.
Proof.
  intros Bl Bu Hi E1 E2 L. unfold nm_minimize. assert (C := clamp_ok start lower upper Bl Bu). destruct (clamp start lower upper) as [x| |]; auto; [|contradiction].
  exfalso. destruct C as (_ & Near). destruct (Near i Hi) as ((W1 & W2) & _). rewrite E1 in W1. rewrite E2 in W2. specialize (W1 _ eq_refl). specialize (W2 _ eq_refl). qlra.
Qed.
Print Assumptions c56_bounds_checked.

(** The work array is large enough. *)
Theorem c56_work (n : Z) : 1 <= n -> nm_used n <= nm_work n.
Proof. intros H. unfold nm_used, nm_work. nia. Qed.
Print Assumptions c56_work.

(** If the function is not a number at the starting point and its neighbours (it throws, or returns NaN or infinity),
    the arrays are accessed at index -1. *)
Theorem c56_no_number_refuted objective (o : nm_opt) (max : nat) (start : list Qc) (mult : Qc) :
  (forall p v, objective p = Some v -> v = Nan \/ v = Inf) -> nm_minimize objective o max start None None mult = UB.
Proof.
  intros H. unfold nm_minimize. assert (E : clamp start None None = Ok start). { induction start as [|a t IH]; auto. cbn [clamp option_map]. rewrite IH. auto. }
  rewrite E. cbn [bind]. set (f := penalized objective None None mult).
  assert (N := nm_none f o (length start) max (simplex0 start) (map f (simplex0 start)) 0). 
  assert (K : forall v, In v (map f (simplex0 start)) -> ~ is_number v).
  { intros v Hv (q & ->). apply in_map_iff in Hv. destruct Hv as (p & Ep & _). unfold f, penalized in Ep. destruct (objective p) as [v|] eqn:Eo; [|discriminate]. destruct (H p v Eo) as [-> | ->]; discriminate. }
  specialize (N K). destruct (nm_loop f o (length start) max (simplex0 start) (map f (simplex0 start)) 0) as [[[Sx V] it]| |]; cbn [bind] in *; auto; try discriminate.
  destruct (rd Sx (min_index V 0 Inf (-1))); cbn [bind] in *; auto; discriminate.
Qed.
Print Assumptions c56_no_number_refuted.
Example c56_no_number_example : nm_minimize (fun _ => None) nm_default 10 [0%Qc] None None (qz 10) = UB.
Proof. vm_compute. reflexivity. Qed.

(** The bounds do not restrict the result: the objective -100 x with upper bound 0 (default options). *)
Theorem c56_bounds_refuted : exists b v iter x, nm_minimize (fun x => Some (Num (- (qz 100) * at0 x 0%Z)%Qc)) nm_default 1000 [0%Qc] None (Some [0%Qc]) (qz 10) = Ok (b, v, iter, x) /\ (qz 4 < at0 b 0%Z)%Qc.
Proof. do 4 eexists. split; [vm_compute; reflexivity|]. vm_compute. reflexivity. Qed.
Print Assumptions c56_bounds_refuted.
Definition bowl (x : list Qc) : option val := Some (Num ((at0 x 0%Z - 1) * (at0 x 0%Z - 1) + (at0 x 1%Z - (1 + 1)) * (at0 x 1%Z - (1 + 1)))%Qc).
Example c56_nelder_mead_example : exists b v iter x, nm_minimize bowl nm_default 20 [0%Qc; qz 5] None (Some [qz 3; qz 4]) (qz 10) = Ok (b, Num v, iter, x) /\ x = [0%Qc; qz 4] /\ (v < Q2Qc (1 # 10))%Qc.
Proof. do 4 eexists. split; [vm_compute; reflexivity|]. split; [qeq|]. vm_compute. reflexivity. Qed.

(** ** Minimize1 *)
(** The value is not larger than at the (adjusted) starting point. *)
Theorem c56_minimize1 objective (x0 step : Qc) (max : nat) (tol : Qc) lo up x it : (forall l u, lo = Some l -> up = Some u -> (l <= u)%Qc) ->
  minimize1 objective x0 step max tol lo up = (x, it) ->
  exists y, nearest x0 y lo up /\ 0 <= it <= Z.of_nat max /\ (x = y \/ vle (objective x) (objective y)).
Proof.
  intros Hb E. unfold minimize1 in E. exists (clamp1 x0 lo up). split; [apply clamp1_ok; auto|]. apply min1_loop_ok in E. destruct E as (B & W). split; [lia|].
  destruct W as [->|W]; auto. right. rewrite (penalized1_inside objective lo up (clamp1 x0 lo up)) in W; [|apply clamp1_ok; auto]. eapply vle_penalized1; eauto.
Qed.
Print Assumptions c56_minimize1.

(** If it stops before the maximum number of iterations, an unbounded function with one minimum has it within the
    tolerance of the result. *)
Theorem c56_minimize1_converged (h : Qc -> Qc) (m x0 step : Qc) (max : nat) (tol : Qc) x it : unimodal h m -> (0 < step)%Qc ->
  minimize1 (fun q => Num (h q)) x0 step max tol None None = (x, it) -> it < Z.of_nat max -> (x - tol < m)%Qc /\ (m < x + tol)%Qc.
Proof.
  intros U Hs E L. unfold minimize1 in E. cbn [clamp1] in E. apply min1_stop in E; auto; [|unfold penalized1; cbn; discriminate]. destruct E as (t & Ht & Lt & A & B).
  rewrite !penalized1_inside in A, B by (split; intros ? [=]). cbn [vlt] in A, B. destruct (bracket h m x t U Ht A B). split; qlra.
Qed.
Print Assumptions c56_minimize1_converged.
Definition parabola (m x : Qc) : Qc := ((x - m) * (x - m))%Qc.
Lemma parabola_unimodal m : unimodal (parabola m) m.
Proof.
  unfold unimodal, parabola. split; intros x y A B.
  - assert (K : (0 < (y - x) * ((m - x) + (m - y)))%Qc). { assert (K := Qcmult_lt_compat_r 0 (y - x) ((m - x) + (m - y)) ltac:(qlra) ltac:(qlra)). rewrite Qcmult_0_l in K. auto. }
    replace ((x - m) * (x - m))%Qc with ((y - m) * (y - m) + (y - x) * ((m - x) + (m - y)))%Qc by ring. qlra.
  - assert (K : (0 < (y - x) * ((x - m) + (y - m)))%Qc). { assert (K := Qcmult_lt_compat_r 0 (y - x) ((x - m) + (y - m)) ltac:(qlra) ltac:(qlra)). rewrite Qcmult_0_l in K. auto. }
    replace ((y - m) * (y - m))%Qc with ((x - m) * (x - m) + (y - x) * ((x - m) + (y - m)))%Qc by ring. qlra.
Qed.
Example c56_minimize1_example : exists x it, minimize1 (fun q => Num (parabola (Q2Qc (1 # 3)) q)) 0 1 100 (Q2Qc (1 # 100)) None None = (x, it) /\ it < 100 /\ (x < Q2Qc (35 # 100))%Qc.
Proof. do 2 eexists. split; [vm_compute; reflexivity|]. split; [lia|]. vm_compute. reflexivity. Qed.

(** Two equal values: the search alternates between the two points and never halves the step. *)
Theorem c56_minimize1_cycles_refuted (max : nat) (tol : Qc) : exists x, minimize1 (fun q => Num (parabola (Q2Qc (1 # 2)) q)) 0 1 max tol None None = (x, Z.of_nat max) /\ (x = 0%Qc \/ x = 1%Qc).
Proof.
  unfold minimize1. cbn [clamp1]. set (f := penalized1 _ None None).
  assert (F : forall q, f q = Num (parabola (Q2Qc (1 # 2)) q)) by (intros q; apply (penalized1_inside (fun q => Num (parabola (Q2Qc (1 # 2)) q))); split; intros ? [=]).
  assert (G : forall it, (exists x, min1_loop f tol max 0 (0 + 1) (0 - 1) 1 it = (x, it + Z.of_nat max) /\ (x = 0%Qc \/ x = 1%Qc)) /\
                         (exists x, min1_loop f tol max (0 + 1) (0 + 1 + 1) (0 + 1 - 1) 1 it = (x, it + Z.of_nat max) /\ (x = 0%Qc \/ x = 1%Qc))).
  { induction max as [|n IH]; intros it.
    - split; [exists 0%Qc|exists (0 + 1)%Qc]; (split; [cbn; f_equal; lia|]); auto. 
    - split.
      + cbn [min1_loop]. rewrite !F. replace (vleb (Num (parabola (Q2Qc (1 # 2)) (0 + 1))) (Num (parabola (Q2Qc (1 # 2)) (0 - 1))) && vleb (Num (parabola (Q2Qc (1 # 2)) (0 + 1))) (Num (parabola (Q2Qc (1 # 2)) 0))) with true by reflexivity.
        destruct (proj2 (IH (it + 1))) as (x & E & H). exists x. split; auto. rewrite E. f_equal. lia.
      + cbn [min1_loop]. rewrite !F. replace (vleb (Num (parabola (Q2Qc (1 # 2)) (0 + 1 + 1))) (Num (parabola (Q2Qc (1 # 2)) (0 + 1 - 1))) && vleb (Num (parabola (Q2Qc (1 # 2)) (0 + 1 + 1))) (Num (parabola (Q2Qc (1 # 2)) (0 + 1)))) with false by reflexivity.
        replace (vleb (Num (parabola (Q2Qc (1 # 2)) (0 + 1 - 1))) (Num (parabola (Q2Qc (1 # 2)) (0 + 1 + 1))) && vleb (Num (parabola (Q2Qc (1 # 2)) (0 + 1 - 1))) (Num (parabola (Q2Qc (1 # 2)) (0 + 1)))) with true by reflexivity.
        replace (0 + 1 - 1)%Qc with 0%Qc by ring. destruct (proj1 (IH (it + 1))) as (x & E & H). exists x. split; auto. rewrite E. f_equal. lia. }
  destruct (proj1 (G 0)) as (x & E & H). exists x. split; auto.
Qed.
Print Assumptions c56_minimize1_cycles_refuted.

(** The penalty 1e5 x^2 outside the bounds is zero at zero: the objective x^2 for x not below 1. *)
Theorem c56_minimize1_bounds_refuted : exists it, minimize1 (fun q => Num (q * q)%Qc) 1 1 500 (Q2Qc (1 # 100000000)) (Some 1%Qc) None = (0%Qc, it) /\ it < 500.
Proof. eexists. split; [|shelve]. vm_compute. f_equal. Unshelve. all: lia. Qed.
Print Assumptions c56_minimize1_bounds_refuted.
