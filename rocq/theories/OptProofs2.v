(** Newton for quadratic functions. *)
From Verif Require Import OptModel OptSpec LsProofs OptProofs.
From Coq Require Import Lia ZifyBool.
Local Open Scope Z_scope.

Lemma hf2 : (Q2Qc (1 # 2) + Q2Qc (1 # 2) = 1)%Qc. Proof. apply Qc_is_canon. reflexivity. Qed.
Lemma at0_map f n i : 0 <= i < n -> at0 (map f (upto n)) i = f i.
Proof.
  intros H. unfold at0, upto. rewrite map_map. rewrite (nth_indep _ 0%Qc (f (Z.of_nat 0))) by (rewrite map_length, seq_length; lia).
  rewrite (map_nth (fun x => f (Z.of_nat x))). rewrite seq_nth by lia. f_equal. lia.
Qed.
Lemma dim_map f n : 0 <= n -> dim (map f (upto n)) = n.
Proof. intros H. unfold dim, upto. rewrite !map_length, seq_length. lia. Qed.
Lemma at0_move t d x i : dim d = dim x -> 0 <= i < dim x -> at0 (move t d x) i = (at0 x i + t * at0 d i)%Qc.
Proof.
  intros L H. unfold at0, move, dim in *. rewrite (nth_indep _ 0%Qc ((fun p => snd p + t * fst p) (0, 0))%Qc) by (rewrite map_length, combine_length; lia).
  rewrite (map_nth (fun p => snd p + t * fst p)%Qc). rewrite combine_nth by lia. reflexivity.
Qed.
Lemma dim_move t d x : dim d = dim x -> dim (move t d x) = dim x.
Proof. unfold dim. intros L. rewrite move_length. lia. Qed.

Section Quadratic.
Context (a : Z -> Z -> Qc) (b : list Qc) (c : Qc).
Local Notation n := (dim b).
Hypothesis Sy : symmetric n a.
Local Notation f := (quadratic a b c).
Local Notation g := (quadratic_gradient a b).
Lemma dim_g x : dim (g x) = n.
Proof using Type. unfold quadratic_gradient. apply dim_map. unfold dim. lia. Qed.
Lemma at_g x i : 0 <= i < n -> at0 (g x) i = (sum_to n (fun j => a i j * at0 x j) - at0 b i)%Qc.
Proof using Type. intros H. unfold quadratic_gradient. rewrite at0_map by auto. reflexivity. Qed.
Lemma taylor x d : dim x = n -> dim d = n -> f (move 1 d x) = (f x + inner d (g x) + Q2Qc (1 # 2) * quad a d)%Qc.
Proof using Sy.
  intros Dx Dd. set (y := move 1 d x). assert (Dy : dim y = n) by (unfold y; rewrite dim_move; lia).
  assert (Ay : forall i, 0 <= i < n -> at0 y i = (at0 x i + at0 d i)%Qc) by (intros i Hi; unfold y; rewrite at0_move by lia; ring).
  set (cross := sum_to n (fun i => sum_to n (fun j => at0 d i * a i j * at0 x j))%Qc).
  assert (Q : quad a y = (quad a x + cross + cross + quad a d)%Qc).
  { unfold quad. rewrite Dy, Dx, Dd. assert (C2 : cross = sum_to n (fun i => sum_to n (fun j => at0 x i * a i j * at0 d j))%Qc).
    { unfold cross. rewrite st_swap. apply st_ext. intros i Hi. apply st_ext. intros j Hj. rewrite (Sy i j) by auto. ring. }
    rewrite C2 at 1. unfold cross. rewrite <- !st_add. apply st_ext. intros i Hi. rewrite <- !st_add. apply st_ext. intros j Hj. rewrite !Ay by auto. ring. }
  assert (I1 : inner b y = (inner b x + inner b d)%Qc).
  { unfold inner. rewrite <- st_add. apply st_ext. intros i Hi. rewrite Ay by auto. ring. }
  assert (I2 : inner d (g x) = (cross - inner b d)%Qc).
  { unfold inner, cross. rewrite Dd, <- st_sub. apply st_ext. intros i Hi. rewrite at_g by auto. rewrite (st_ext n (fun j => at0 d i * a i j * at0 x j)%Qc (fun j => at0 d i * (a i j * at0 x j))%Qc) by (intros; ring). rewrite st_mul. ring. }
  unfold quadratic. rewrite Q, I1, I2. transitivity (Q2Qc (1 # 2) * quad a x + (Q2Qc (1 # 2) + Q2Qc (1 # 2)) * cross + Q2Qc (1 # 2) * quad a d - inner b x - inner b d + c)%Qc; [ring|]. rewrite hf2. ring.
Qed.
Lemma minimum x : posdef n a -> dim x = n -> (forall i, 0 <= i < n -> sum_to n (fun j => a i j * at0 x j)%Qc = at0 b i) -> forall y, dim y = n -> (f x <= f y)%Qc.
Proof using Sy.
  intros Pd Dx E y Dy. set (d := map (fun i => at0 y i - at0 x i)%Qc (upto n)). assert (Dd : dim d = n) by (apply dim_map; unfold dim; lia).
  assert (My : forall i, 0 <= i < n -> at0 (move 1 d x) i = at0 y i).
  { intros i Hi. rewrite at0_move by lia. unfold d. rewrite at0_map by auto. ring. }
  assert (Ey : move 1 d x = y).
  { apply (nth_ext _ _ 0%Qc 0%Qc). - assert (H := dim_move 1 d x ltac:(lia)). unfold dim in *. lia.
    - intros k Hk. assert (H := dim_move 1 d x ltac:(lia)). specialize (My (Z.of_nat k)). unfold at0 in My. rewrite Nat2Z.id in My. apply My. unfold dim in *. lia. }
  rewrite <- Ey, taylor by auto.
  replace (inner d (g x)) with 0%Qc. 2:{ unfold inner. rewrite (st_ext _ _ (fun _ => 0%Qc)); [rewrite st_zero; auto|]. intros i Hi. rewrite at_g by lia. rewrite E by lia. ring. }
  assert (Q : (0 <= quad a d)%Qc) by (apply quad_nonneg; rewrite Dd; auto).
  assert (H := Qcmult_le_compat_r 0 (quad a d) (Q2Qc (1 # 2)) Q ltac:(unfold Qcle; cbn; discriminate)). rewrite Qcmult_0_l, Qcmult_comm in H. qlra.
Qed.

Context (posv : (Z -> Z -> Qc) -> list Qc -> option (list Qc)) (P : problem).
Hypothesis Hs : posv_sound posv.
Hypothesis Hc : posv_complete n posv.
Hypothesis Pd : posdef n a.
Hypothesis Pf : forall x, dim x = n -> fval P x = Some (f x).
Hypothesis Pg : forall x, dim x = n -> fgrad P x = Some (g x).
Hypothesis Ph : forall x i j, dim x = n -> 0 <= i < n -> 0 <= j < n -> fhess P x i j = a i j.
Definition solves (x : list Qc) : Prop := dim x = n /\ forall i, 0 <= i < n -> sum_to n (fun j => a i j * at0 x j)%Qc = at0 b i.
Lemma newton_step x : dim x = n -> exists d x', posv (fhess P x) (map (fun q => (- (1) * q)%Qc) (g x)) = Some d /\
  wolfe_weak P d x (Some (f x)) (Some (g x)) = Ok (x', Some (f x'), Some (g x')) /\ solves x'.
Proof using Sy Hs Hc Pd Pf Pg Ph.
  intros Dx. set (r := map (fun q => (- (1) * q)%Qc) (g x)). assert (Dr : dim r = n) by (unfold r, dim; rewrite map_length; apply (dim_g x)).
  assert (Hsym : forall i j, 0 <= i < n -> 0 <= j < n -> sym (fhess P x) i j = a i j).
  { intros i j Hi Hj. unfold sym. destruct (Z.leb_spec j i); rewrite Ph by auto; auto. }
  assert (Pd' : posdef n (sym (fhess P x))).
  { intros v Dv E. replace (quad (sym (fhess P x)) v) with (quad a v); [apply Pd; auto|]. unfold quad. rewrite Dv. apply st_ext. intros i Hi. apply st_ext. intros j Hj. rewrite Hsym by auto. auto. }
  destruct (posv (fhess P x) r) as [d|] eqn:Ed; [|exfalso; revert Ed; apply Hc; auto].
  destruct (Hs _ _ _ Ed) as (Ld & _ & Eq). rewrite Dr in Eq. assert (Dd : dim d = n) by (unfold dim in *; lia).
  assert (Eqa : forall i, 0 <= i < n -> sum_to n (fun j => a i j * at0 d j)%Qc = (- at0 (g x) i)%Qc).
  { intros i Hi. rewrite <- (at0_map_neg (g x) i) by (rewrite dim_g; auto). fold r. rewrite <- Eq by auto. apply st_ext. intros j Hj. rewrite Hsym by auto. auto. }
  set (x' := move 1 d x). assert (Dx' : dim x' = n) by (unfold x'; rewrite dim_move; lia).
  assert (So : solves x').
  { split; auto. intros i Hi. rewrite (st_ext n _ (fun j => a i j * at0 x j + a i j * at0 d j)%Qc).
    - rewrite st_add, Eqa, at_g by auto. ring.
    - intros j Hj. unfold x'. rewrite at0_move by lia. ring. }
  exists d, x'. split; auto. split; auto.
  set (q := quad a d). assert (Qn : (0 <= q)%Qc) by (apply quad_nonneg; rewrite Dd; auto).
  assert (Gd : vdot d (g x) = (- q)%Qc).
  { rewrite vdot_inner by (assert (H := dim_g x); unfold dim in *; lia). unfold q. rewrite (quad_inner a d (map (fun z => (- (1) * z)%Qc) (g x))).
    - unfold inner. replace (- sum_to (dim d) (fun i => at0 d i * at0 (map (fun z => - (1) * z) (g x)) i))%Qc with (- (1) * sum_to (dim d) (fun i => at0 d i * at0 (map (fun z => - (1) * z) (g x)) i))%Qc by ring.
      rewrite <- st_mul. apply st_ext. intros i Hi. rewrite at0_map_neg by (rewrite dim_g; lia). ring.
    - intros i Hi. rewrite Dd in *. rewrite Eqa by auto. rewrite at0_map_neg by (rewrite dim_g; lia). auto. }
  assert (F1 : f x' = (f x - Q2Qc (1 # 2) * q)%Qc).
  { unfold x'. rewrite taylor by auto. rewrite <- vdot_inner by (assert (H := dim_g x); unfold dim in *; lia). rewrite Gd. fold q. transitivity (f x - (Q2Qc (1 # 2) + Q2Qc (1 # 2)) * q + Q2Qc (1 # 2) * q)%Qc; [rewrite hf2; ring|ring]. }
  assert (G1 : vdot d (g x') = 0%Qc).
  { rewrite vdot_inner by (assert (H := dim_g x'); unfold dim in *; lia). unfold inner. rewrite (st_ext _ _ (fun _ => 0%Qc)); [apply st_zero|]. intros i Hi. rewrite at_g by lia. rewrite (proj2 So) by lia. ring. }
  assert (Small : (c1 * q <= Q2Qc (1 # 2) * q)%Qc) by (apply Qcmult_le_compat_r; auto; unfold Qcle; cbn; discriminate).
  assert (Big : (0 <= c2 * q)%Qc) by (assert (H := Qcmult_le_compat_r 0 c2 q ltac:(unfold Qcle; cbn; discriminate) Qn); rewrite Qcmult_0_l in H; auto).
  unfold wolfe_weak. change 99%nat with (S 98). generalize 98%nat. intros k98. cbn [wolfe_loop option_map]. rewrite move_map2. fold x'. rewrite Pf, Pg, F1, G1, Gd by auto.
  destruct (qltb_spec (f x + c1 * 1 * - q)%Qc (f x - Q2Qc (1 # 2) * q)%Qc) as [L|L]; cbn [negb].
  { exfalso. replace (c1 * 1 * - q)%Qc with (- (c1 * q))%Qc in L by ring. qlra. }
  destruct (qltb_spec 0%Qc (c2 * - q)%Qc) as [K|K]; cbn [negb].
  { exfalso. replace (c2 * - q)%Qc with (- (c2 * q))%Qc in K by ring. qlra. }
  reflexivity.
Qed.
Lemma newton_quadratic o : n_line o = true -> forall fuel x it, solves x -> exists x' v' g' it', newton_loop posv P o fuel x (Some (f x)) (Some (g x)) it = Ok (x', v', g', it') /\ solves x'.
Proof using Sy Hs Hc Pd Pf Pg Ph.
  intros Hl. induction fuel as [|k IH]; intros x it Hx; cbn [newton_loop]; [do 4 eexists; split; eauto|].
  destruct (qltb 0 (n_tolg o) && small_gradient o (g x)); [do 4 eexists; split; eauto|].
  destruct (newton_step x (proj1 Hx)) as (d & x1 & Ed & Ew & Hx1). rewrite Ed, Hl, Ew. cbn [bind].
  destruct (small_change o (Some (f x)) (Some (f x1))); [do 4 eexists; split; eauto|]. apply IH; auto.
Qed.
Lemma newton_quadratic0 o max x : n_line o = true -> dim x = n -> exists x' v' g' it', newton posv P o (S max) x = Ok (x', v', g', it') /\
  (solves x' \/ (x' = x /\ (0 < n_tolg o)%Qc /\ (inner (g x) (g x) < n_tolg o * n_tolg o)%Qc)).
Proof using Sy Hs Hc Pd Pf Pg Ph.
  intros Hl Dx. unfold newton. cbn [newton_loop]. rewrite Pg, Pf by auto. destruct (qltb_spec 0%Qc (n_tolg o)) as [T|T]; cbn [andb].
  - unfold small_gradient. destruct (qltb_spec (vdot (g x) (g x)) (n_tolg o * n_tolg o)%Qc) as [L|L].
    + do 4 eexists. split; [reflexivity|]. right. split; auto. split; auto. rewrite <- vdot_inner by auto. auto.
    + destruct (newton_step x Dx) as (d & x1 & Ed & Ew & Hx1). rewrite Ed, Hl, Ew. cbn [bind].
      destruct (small_change o (Some (f x)) (Some (f x1))); [do 4 eexists; split; [reflexivity|auto]|]. destruct (newton_quadratic o Hl max x1 (0 + 1) Hx1) as (x2 & v2 & g2 & i2 & E & H). do 4 eexists. split; [apply E|auto].
  - destruct (newton_step x Dx) as (d & x1 & Ed & Ew & Hx1). rewrite Ed, Hl, Ew. cbn [bind].
    destruct (small_change o (Some (f x)) (Some (f x1))); [do 4 eexists; split; [reflexivity|auto]|]. destruct (newton_quadratic o Hl max x1 (0 + 1) Hx1) as (x2 & v2 & g2 & i2 & E & H). do 4 eexists. split; [apply E|auto].
Qed.
End Quadratic.
