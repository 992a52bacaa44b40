(** Proofs about Distance: the laws of a metric. *)
From Verif Require Import DistModel DistSpec MatProofs MatDotProofs MatProofs5 DataProofs DescProofs ColProofs ColProofs2 ColProofs3 CorProofs CorProofs2 CorProofs3 CorRealProofs CorRealProofs2 CorRealProofs3 CorRealProofs4 DistProofs DistProofs2 DistProofs3.
From Coq Require Import Lra.
Local Open Scope R_scope.

Section Duo.
Context {A : Type}.
Implicit Types (u v w : A -> Qc) (l : list A).
Definition duo u v l : list (Qc * Qc) := map (fun a => (u a, v a)) l.
Lemma xs_duo u v l : xs (duo u v l) = map u l.
Proof. unfold xs, duo. rewrite map_map. reflexivity. Qed.
Lemma ys_duo u v l : ys (duo u v l) = map v l.
Proof. unfold ys, duo. rewrite map_map. reflexivity. Qed.
Lemma real_sum (f : A -> Qc) l : real (qsum (map f l)) = RS (fun a => real (f a)) l.
Proof. rewrite real_qsum, map_map. reflexivity. Qed.
Lemma euclid_norm u v l : euclid (duo u v l) = norm (fun a => real (u a) - real (v a)) l.
Proof. unfold euclid, norm, duo. rewrite map_map, real_sum. cbn [fst snd]. f_equal. apply RS_ext. intros. rewrite real_mult, real_minus. reflexivity. Qed.
Lemma real_abs x : real (qabs x) = Rabs (real x).
Proof.
  unfold qabs. destruct (qltb_spec x 0) as [H|H].
  - rewrite real_opp. apply real_lt in H. rewrite real_0 in H. rewrite Rabs_left; auto.
  - apply Qcnot_lt_le, real_le in H. rewrite real_0 in H. rewrite Rabs_right; auto. apply Rle_ge. auto.
Qed.
Lemma manhattan_sum u v l : manhattan (duo u v l) = RS (fun a => Rabs (real (u a) - real (v a))) l.
Proof. unfold manhattan, duo. rewrite map_map, real_sum. cbn [fst snd]. apply RS_ext. intros. rewrite real_abs, real_minus. reflexivity. Qed.
Lemma euclid_triangle u v w l : euclid (duo u w l) <= euclid (duo u v l) + euclid (duo v w l).
Proof. rewrite !euclid_norm. eapply Rle_trans; [|apply minkowski]. right. unfold norm. f_equal. apply RS_ext. intros. ring. Qed.
Lemma manhattan_triangle u v w l : manhattan (duo u w l) <= manhattan (duo u v l) + manhattan (duo v w l).
Proof. rewrite !manhattan_sum, <- RS_add. apply RS_le. intros a _. replace (real (u a) - real (w a)) with ((real (u a) - real (v a)) + (real (v a) - real (w a))) by ring. apply Rabs_triang. Qed.
Lemma maximum_triangle u v w l a b c : largest (duo u w l) a -> largest (duo u v l) b -> largest (duo v w l) c -> real a <= real b + real c.
Proof.
  intros ((p & Hp & ->) & _) (_ & HB) (_ & HC). unfold duo in *. apply in_map_iff in Hp. destruct Hp as (k & <- & Hk). cbn [fst snd].
  specialize (HB _ (in_map _ _ k Hk)). specialize (HC _ (in_map _ _ k Hk)). cbn [fst snd] in *. apply real_le in HB, HC. rewrite !real_abs, !real_minus in *.
  pose proof (Rabs_triang (real (u k) - real (v k)) (real (v k) - real (w k))) as T. replace (real (u k) - real (v k) + (real (v k) - real (w k))) with (real (u k) - real (w k)) in T by ring. lra.
Qed.
Lemma euclid_zero u v l : euclid (duo u v l) = 0 <-> forall a, In a l -> u a = v a.
Proof. rewrite euclid_norm, norm_zero. split; intros H a Ha; specialize (H a Ha); [apply real_inj; lra|rewrite H; lra]. Qed.
Lemma manhattan_zero u v l : manhattan (duo u v l) = 0 <-> forall a, In a l -> u a = v a.
Proof.
  rewrite manhattan_sum. split.
  - intros E a Ha. assert (F := RS_zero _ l (fun a _ => Rabs_pos _) E a Ha). cbv beta in F. apply real_inj. destruct (Req_dec (real (u a) - real (v a)) 0) as [|N]; [lra|]. apply Rabs_no_R0 in N. contradiction.
  - intros H. rewrite (RS_ext _ (fun _ => 0 * 0)); [rewrite RS_scale; ring|]. intros a Ha. rewrite (H a Ha), Rminus_diag_eq by auto. rewrite Rabs_R0. ring.
Qed.
Lemma maximum_zero u v l d : largest (duo u v l) d -> (0 <= d)%Qc /\ (d = 0%Qc <-> forall a, In a l -> u a = v a).
Proof.
  intros ((p & Hp & E) & H). assert (N : forall x, (0 <= qabs x)%Qc) by (intros x; apply real_le; rewrite real_abs, real_0; apply Rabs_pos). assert (Z : forall x, qabs x = 0%Qc -> x = 0%Qc).
  { intros x E0. apply real_inj. rewrite real_0. apply (f_equal real) in E0. rewrite real_abs, real_0 in E0. destruct (Req_dec (real x) 0) as [|NN]; auto. apply Rabs_no_R0 in NN. contradiction. }
  split; [rewrite E; apply N|]. split.
  - intros -> a Ha. specialize (H (u a, v a) (in_map _ _ a Ha)). cbn [fst snd] in H. specialize (Z _ (Qcle_antisym _ _ H (N _))). rewrite <- (Qcplus_0_r (v a)), <- Z. ring.
  - intros Q. unfold duo in Hp. apply in_map_iff in Hp. destruct Hp as (k & <- & Hk). cbn [fst snd] in E. rewrite E, (Q k Hk). replace (v k - v k)%Qc with 0%Qc by ring. reflexivity.
Qed.
(** The standardized columns. *)
Definition unit u l : A -> R := fun a => (real (u a) - real (avg (map u l))) / sqrt (real (dev 2 (map u l))).
Lemma unit_dot u v l : varies (map u l) -> varies (map v l) -> RS (fun a => unit u l a * unit v l a) l = rho (duo u v l).
Proof.
  intros VU VV. apply varies_b in VU, VV. assert (DU := sqrt_lt_R0 _ (real_pos _ (dev_pos _ VU))). assert (DV := sqrt_lt_R0 _ (real_pos _ (dev_pos _ VV))). unfold rho, codev. rewrite !xs_duo, !ys_duo. unfold duo. rewrite map_map. cbn [fst snd]. rewrite real_sum.
  unfold Rdiv. rewrite Rmult_comm, <- RS_scale. apply RS_ext. intros a _. unfold unit. rewrite real_mult, !real_minus. field. split; apply not_eq_sym, Rlt_not_eq; auto.
Qed.
Lemma unit_one u l : varies (map u l) -> RS (fun a => unit u l a * unit u l a) l = 1.
Proof.
  intros V. rewrite unit_dot by auto. rewrite <- (rho_self (map u l)) by auto. unfold duo. rewrite map_map. reflexivity.
Qed.
Lemma cor_dist_norm u v l : varies (map u l) -> varies (map v l) -> sqrt ((1 - rho (duo u v l)) / 2) = norm (fun a => unit u l a + - (1) * unit v l a) l / 2.
Proof.
  intros VU VV. unfold norm. rewrite (RS_ext _ (fun a => (unit u l a - 1 * unit v l a) * (unit u l a - 1 * unit v l a))) by (intros; ring). rewrite RS_quad, !unit_one, unit_dot by auto.
  pose proof (rho_range (duo u v l)) as R. rewrite xs_duo, ys_duo in R. specialize (R VU VV). set (r := rho _) in *. clearbody r. replace (1 - 2 * 1 * r + 1 * 1 * 1) with (2 * 2 * ((1 - r) / 2)) by field. rewrite sqrt_mult by lra. rewrite sqrt_square by lra. field.
Qed.
Lemma cor_triangle u v w l : varies (map u l) -> varies (map v l) -> varies (map w l) -> sqrt ((1 - rho (duo u w l)) / 2) <= sqrt ((1 - rho (duo u v l)) / 2) + sqrt ((1 - rho (duo v w l)) / 2).
Proof.
  intros VU VV VW. rewrite !cor_dist_norm by auto. pose proof (minkowski (fun a => unit u l a + - (1) * unit v l a) (fun a => unit v l a + - (1) * unit w l a) l) as M.
  replace (norm (fun a => unit u l a + - (1) * unit w l a) l) with (norm (fun a => unit u l a + - (1) * unit v l a + (unit v l a + - (1) * unit w l a)) l); [lra|]. unfold norm. f_equal. apply RS_ext. intros. ring.
Qed.
Lemma abs_cor_triangle u v w l : varies (map u l) -> varies (map v l) -> varies (map w l) ->
  sqrt (1 - rho (duo u w l) * rho (duo u w l)) <= sqrt (1 - rho (duo u v l) * rho (duo u v l)) + sqrt (1 - rho (duo v w l) * rho (duo v w l)).
Proof. intros VU VV VW. rewrite <- !unit_dot by auto. apply (sine_triangle (unit u l) (unit v l) (unit w l) l); apply unit_one; auto. Qed.
End Duo.

(** Ranks of lists. *)
Lemma rank_strict x y l : In y l -> (x < y)%Qc -> (rank_of false y l < rank_of false x l)%Z.
Proof.
  intros Hy L. unfold rank_of, larger.
  assert (G : forall l, (length (filter (fun z => qltb y z) l) <= length (filter (fun z => qltb x z) l))%nat).
  { intros l0. induction l0 as [|z t IH]; auto. cbn [filter]. destruct (qltb_spec y z) as [H1|H1], (qltb_spec x z) as [H2|H2]; cbn [length]; try lia. exfalso. apply Qcnot_lt_le in H2. qlra. }
  assert (K : (length (filter (fun z => qltb y z) l) < length (filter (fun z => qltb x z) l))%nat).
  { induction l as [|z t IH]; [contradiction|]. cbn [filter]. destruct Hy as [->|Hy].
    - destruct (qltb_spec y y) as [H1|H1]; [exfalso; qlra|]. destruct (qltb_spec x y) as [H2|H2]; [|contradiction]. cbn [length]. pose proof (G t). lia.
    - specialize (IH Hy). destruct (qltb_spec y z) as [H1|H1], (qltb_spec x z) as [H2|H2]; cbn [length]; try lia. exfalso. apply Qcnot_lt_le in H2. qlra. }
  lia.
Qed.
Lemma varies_ranks l : varies l -> varies (ranks l).
Proof.
  intros (x & y & Hx & Hy & N). exists (qz (rank_of false x l)), (qz (rank_of false y l)). unfold ranks. split; [apply (in_map (fun x => qz (rank_of false x l))); auto|]. split; [apply (in_map (fun x => qz (rank_of false x l))); auto|].
  intros E. apply qz_inj in E. destruct (Qc_dec x y) as [[L|L]|]; [pose proof (rank_strict x y l Hy L); lia|pose proof (rank_strict y x l Hx L); lia|contradiction].
Qed.

(** Columns without NaN. *)
Definition cval (M : mat (option Qc)) (j k : Z) : Qc := match opel M k j with Some q => q | None => 0%Qc end.
Lemma complete_duo M i j : no_nan M -> (0 <= i < ncols M)%Z -> (0 <= j < ncols M)%Z -> complete_pairs M i j = duo (cval M i) (cval M j) (upto (nrows M)).
Proof.
  intros N Hi Hj. unfold complete_pairs, duo. assert (F : forall k, In k (upto (nrows M)) -> (0 <= k < nrows M)%Z) by (intros k Hk; apply upto_in; auto).
  induction (upto (nrows M)) as [|k t IH]; auto. cbn [flat_map map]. rewrite IH by (intros; apply F; right; auto). assert (K : (0 <= k < nrows M)%Z) by (apply F; left; auto). pose proof (N k i (conj K Hi)). pose proof (N k j (conj K Hj)).
  unfold cval at 3 4. destruct (opel M k i); [|contradiction]. destruct (opel M k j); [|contradiction]. reflexivity.
Qed.
Definition rval_of (sp : bool) (M : mat (option Qc)) (j k : Z) : Qc := if sp then qz (rank_of false (cval M j k) (map (cval M j) (upto (nrows M)))) else cval M j k.
Lemma rank_duo M i j : rank_pairs (duo (cval M i) (cval M j) (upto (nrows M))) = duo (rval_of true M i) (rval_of true M j) (upto (nrows M)).
Proof.
  unfold rank_pairs. rewrite xs_duo, ys_duo. unfold ranks. rewrite !map_map. unfold duo, rval_of. generalize (map (cval M i) (upto (nrows M))) as A. generalize (map (cval M j) (upto (nrows M))) as B. intros B A.
  induction (upto (nrows M)) as [|k t IH]; auto. cbn [map combine]. rewrite IH. reflexivity.
Qed.
Definition col_varies (M : mat (option Qc)) (j : Z) : Prop := varies (present (col_values M j)).
Lemma present_cval M j : no_nan M -> (0 <= j < ncols M)%Z -> present (col_values M j) = map (cval M j) (upto (nrows M)).
Proof.
  intros N Hj. unfold present, col_values. assert (F : forall k, In k (upto (nrows M)) -> (0 <= k < nrows M)%Z) by (intros k Hk; apply upto_in; auto).
  induction (upto (nrows M)) as [|k t IH]; auto. cbn [flat_map map]. rewrite IH by (intros; apply F; right; auto). assert (K : (0 <= k < nrows M)%Z) by (apply F; left; auto). pose proof (N k j (conj K Hj)). unfold cval at 2. destruct (opel M k j); [|contradiction]. reflexivity.
Qed.
Lemma col_nan M j : no_nan M -> (0 <= j < ncols M)%Z -> existsb is_nan (col_values M j) = false.
Proof.
  intros N Hj. destruct (existsb is_nan (col_values M j)) eqn:E; auto. apply nan_b in E. unfold has_nan, col_values in E. apply in_map_iff in E. destruct E as (k & E & Hk). apply upto_in in Hk. exfalso. apply (N k j (conj Hk Hj) E).
Qed.
Lemma correlation_rho check sp M i j : no_nan M -> (0 <= i < ncols M)%Z -> (0 <= j < ncols M)%Z -> col_varies M i -> col_varies M j ->
  correlation_of check sp M i j = Some (rho (duo (rval_of sp M i) (rval_of sp M j) (upto (nrows M)))) /\ varies (map (rval_of sp M i) (upto (nrows M))) /\ varies (map (rval_of sp M j) (upto (nrows M))).
Proof.
  intros N Hi Hj VI VJ. unfold col_varies in *. rewrite present_cval in VI, VJ by auto.
  assert (V : forall j, varies (map (cval M j) (upto (nrows M))) -> varies (map (rval_of sp M j) (upto (nrows M)))).
  { intros j' H. unfold rval_of. destruct sp; auto. apply varies_ranks in H. unfold ranks in H. rewrite map_map in H. exact H. }
  split; [|auto]. apply V in VI as VI', VJ as VJ'. unfold correlation_of, cor_no_nan, cor_or_one. rewrite !col_nan by auto. cbn [orb]. rewrite complete_duo by auto.
  assert (CS : forall P, varies (xs P) -> varies (ys P) -> cor_spec P = Some (rho P)) by (intros P H1 H2; apply varies_b in H1, H2; unfold cor_spec; rewrite H1, H2; reflexivity).
  destruct sp.
  - rewrite rank_duo. destruct check; apply CS; rewrite ?xs_duo, ?ys_duo; auto.
  - change (rval_of false M i) with (cval M i). change (rval_of false M j) with (cval M j). assert (B : variesb (xs (duo (cval M i) (cval M j) (upto (nrows M)))) = true) by (apply varies_b; rewrite xs_duo; auto). rewrite B. cbn [orb]. destruct check; apply CS; rewrite ?xs_duo, ?ys_duo; auto.
Qed.
