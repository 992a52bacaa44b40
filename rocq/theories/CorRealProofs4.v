(** Laws of the correlation coefficient. *)
From Verif Require Import CorRealModel CorRealSpec DescProofs DescProofs2 ColProofs ColProofs2 CorRealProofs CorRealProofs2.
From Coq Require Import Lra.

Section Rational.
Local Open Scope Qc_scope.
Lemma avg_affine a b l : l <> [] -> avg (map (fun x => a + b * x) l) = a + b * avg l.
Proof.
  intros N. assert (E : qsum (map (fun x => a + b * x) l) = qn (length l) * a + b * qsum l).
  { clear N. induction l as [|x l IH]; [cbn [map length]; change (qsum []) with 0; change (qn 0) with 0; ring|]. cbn [map length]. change (qsum (?u :: ?w)) with (u + qsum w). rewrite IH, qn_S. ring. }
  unfold avg. rewrite E, map_length. field. assert (0 < qn (length l)) by (apply qn_pos; destruct l; [contradiction|cbn; lia]). apply Qc_lt_ne; auto.
Qed.
Lemma dev_affine a b l : dev 2 (map (fun x => a + b * x) l) = b * b * dev 2 l.
Proof.
  destruct l as [|y t]; [cbn; ring|]. set (l := y :: t). assert (N : l <> []) by discriminate. clearbody l. rewrite !dev2_sum, avg_affine by auto. rewrite map_map, <- qsum_map_mul. f_equal. apply map_ext. intros. ring.
Qed.
Definition moved (a b c d : Qc) (P : list (Qc * Qc)) : list (Qc * Qc) := map (fun p => (a + b * fst p, c + d * snd p)) P.
Lemma codev_affine a b c d P : codev (moved a b c d P) = b * d * codev P.
Proof.
  destruct P as [|p t]; [cbn; ring|]. set (P := p :: t). assert (N1 : xs P <> []) by discriminate. assert (N2 : ys P <> []) by discriminate. clearbody P.
  unfold codev, moved. assert (E1 : xs (map (fun p => (a + b * fst p, c + d * snd p)) P) = map (fun x => a + b * x) (xs P)) by (unfold xs; rewrite !map_map; reflexivity).
  assert (E2 : ys (map (fun p => (a + b * fst p, c + d * snd p)) P) = map (fun x => c + d * x) (ys P)) by (unfold ys; rewrite !map_map; reflexivity).
  rewrite E1, E2, !avg_affine, map_map, <- qsum_map_mul by auto. f_equal. apply map_ext. intros. cbn [fst snd]. ring.
Qed.
Lemma codev_self l : codev (map (fun x => (x, x)) l) = dev 2 l.
Proof. rewrite dev2_sum. unfold codev, xs, ys. rewrite !map_map. cbn [fst snd]. rewrite !map_id. reflexivity. Qed.
Lemma sum_sq_zero {A} (f : A -> Qc) l : qsum (map (fun x => f x * f x) l) = 0 -> forall x, In x l -> f x = 0.
Proof.
  induction l as [|y t IH]; [contradiction|]. cbn [map]. change (qsum (?u :: ?w)) with (u + qsum w). intros D x Hx.
  assert (N1 := sq_nonneg (f y)). assert (N2 : 0 <= qsum (map (fun x => f x * f x) t)) by (apply qsum_nonneg, Forall_forall; intros z Hz; apply in_map_iff in Hz; destruct Hz as (w & <- & _); apply sq_nonneg).
  destruct Hx as [<-|Hx]; [apply sq_zero; qlra|apply IH; auto; qlra].
Qed.
(** Equality in Cauchy-Schwarz: the points are on a line. *)
Lemma collinear P : dev 2 (xs P) <> 0 -> codev P * codev P = dev 2 (xs P) * dev 2 (ys P) ->
  forall p, In p P -> snd p = avg (ys P) - codev P / dev 2 (xs P) * avg (xs P) + codev P / dev 2 (xs P) * fst p.
Proof.
  intros N E. set (b := codev P / dev 2 (xs P)). assert (Z0 : qsum (map (fun p => ((snd p - avg (ys P)) - b * (fst p - avg (xs P))) * ((snd p - avg (ys P)) - b * (fst p - avg (xs P)))) P) = 0).
  { assert (X : forall u v, qsum (map (fun p => ((snd p - v) - b * (fst p - u)) * ((snd p - v) - b * (fst p - u))) P) =
      qsum (map (fun p => (snd p - v) * (snd p - v)) P) - (1 + 1) * b * qsum (map (fun p => (fst p - u) * (snd p - v)) P) + b * b * qsum (map (fun p => (fst p - u) * (fst p - u)) P)).
    { intros u v. clearbody b. clear. induction P as [|p t IH]; [cbn; ring|]. cbn [map]. change (qsum (?u :: ?w)) with (u + qsum w). rewrite IH. ring. }
    rewrite X. fold (codev P). assert (D1 : dev 2 (xs P) = qsum (map (fun p => (fst p - avg (xs P)) * (fst p - avg (xs P))) P)) by (rewrite dev2_sum; unfold xs at 3; rewrite map_map; reflexivity).
    assert (D2 : dev 2 (ys P) = qsum (map (fun p => (snd p - avg (ys P)) * (snd p - avg (ys P))) P)) by (rewrite dev2_sum; unfold ys at 3; rewrite map_map; reflexivity).
    rewrite <- D1, <- D2. assert (Y : dev 2 (ys P) = codev P * codev P / dev 2 (xs P)) by (rewrite E; field; auto). rewrite Y. unfold b. field. auto. }
  intros p Hp. assert (F := sum_sq_zero (fun p => (snd p - avg (ys P)) - b * (fst p - avg (xs P))) P Z0 p Hp). cbv beta in F.
  rewrite <- (Qcplus_0_r (snd p)), <- F at 1. clearbody b. clear - F. replace (snd p) with ((snd p - avg (ys P) - b * (fst p - avg (xs P))) + (avg (ys P) - b * avg (xs P) + b * fst p)) by ring. rewrite F. ring.
Qed.
End Rational.

Local Open Scope R_scope.
Lemma varies_affine a b l : (b <> 0)%Qc -> varies l -> varies (map (fun x => a + b * x)%Qc l).
Proof.
  intros N (x & y & Hx & Hy & D). exists (a + b * x)%Qc, (a + b * y)%Qc. repeat split; try (apply in_map_iff; eauto). intros E. apply D.
  assert (Z0 : (b * (x - y) = 0)%Qc) by (transitivity ((a + b * x) - (a + b * y))%Qc; [ring|rewrite E; ring]). destruct (Qcmult_integral _ _ Z0) as [F|F]; [contradiction|]. rewrite <- (Qcplus_0_r y), <- F. ring.
Qed.
Lemma rho_facts P : varies (xs P) -> varies (ys P) -> exists X Y, 0 < X /\ 0 < Y /\ X * X = real (dev 2 (xs P)) /\ Y * Y = real (dev 2 (ys P)) /\ rho P = real (codev P) / (X * Y) /\ real (codev P) * real (codev P) <= (X * Y) * (X * Y).
Proof.
  intros VX VY. apply varies_b in VX, VY. assert (DX := real_pos _ (dev_pos _ VX)). assert (DY := real_pos _ (dev_pos _ VY)).
  exists (sqrt (real (dev 2 (xs P)))), (sqrt (real (dev 2 (ys P)))). assert (SX : sqrt (real (dev 2 (xs P))) * sqrt (real (dev 2 (xs P))) = real (dev 2 (xs P))) by (apply sqrt_sqrt, Rlt_le, DX).
  assert (SY : sqrt (real (dev 2 (ys P))) * sqrt (real (dev 2 (ys P))) = real (dev 2 (ys P))) by (apply sqrt_sqrt, Rlt_le, DY).
  split; [apply sqrt_lt_R0; auto|]. split; [apply sqrt_lt_R0; auto|]. split; auto. split; auto. split; [reflexivity|]. replace (sqrt (real (dev 2 (xs P))) * sqrt (real (dev 2 (ys P))) * (sqrt (real (dev 2 (xs P))) * sqrt (real (dev 2 (ys P))))) with ((sqrt (real (dev 2 (xs P))) * sqrt (real (dev 2 (xs P)))) * (sqrt (real (dev 2 (ys P))) * sqrt (real (dev 2 (ys P))))) by ring.
  rewrite SX, SY, <- !real_mult. apply real_le, codev_cs.
Qed.
Lemma rho_range P : varies (xs P) -> varies (ys P) -> -1 <= rho P <= 1.
Proof.
  intros VX VY. destruct (rho_facts P VX VY) as (X & Y & HX & HY & _ & _ & -> & H). assert (HZ : 0 < X * Y) by (apply Rmult_lt_0_compat; auto). revert H HZ. generalize (real (codev P)) as c. generalize (X * Y) as z. clear. intros z c H HZ.
  assert (A : Rabs c <= Rabs z) by (apply Rsqr_le_abs_0; unfold Rsqr; auto). rewrite (Rabs_right z) in A by lra. assert (A1 := Rle_abs c). assert (A2 := Rle_abs (- c)). rewrite Rabs_Ropp in A2. split.
  - apply Rmult_le_reg_r with z; auto. unfold Rdiv. rewrite Rmult_assoc, Rinv_l by lra. lra.
  - apply Rmult_le_reg_r with z; auto. unfold Rdiv. rewrite Rmult_assoc, Rinv_l by lra. lra.
Qed.
Lemma rho_affine a b c d P : varies (xs P) -> varies (ys P) -> (0 < b)%Qc -> (d <> 0)%Qc -> rho (moved a b c d P) = if qltb 0 d then rho P else - rho P.
Proof.
  intros VX VY HB HD. destruct (rho_facts P VX VY) as (X & Y & HX & HY & EX & EY & ER & _). unfold rho in *. rewrite codev_affine.
  assert (E1 : xs (moved a b c d P) = map (fun x => a + b * x)%Qc (xs P)) by (unfold xs, moved; rewrite !map_map; reflexivity).
  assert (E2 : ys (moved a b c d P) = map (fun x => c + d * x)%Qc (ys P)) by (unfold ys, moved; rewrite !map_map; reflexivity).
  rewrite E1, E2, !dev_affine, !real_mult, <- EX, <- EY in *. rewrite ER. assert (B := real_pos _ HB).
  assert (D0 : real d <> 0) by (rewrite <- real_0; intros Q; apply HD, real_inj; auto).
  replace (real b * real b * (X * X)) with ((real b * X) * (real b * X)) by ring. rewrite sqrt_square by (apply Rlt_le, Rmult_lt_0_compat; auto).
  assert (SX : sqrt (X * X) = X) by (apply sqrt_square; lra). assert (SY : sqrt (Y * Y) = Y) by (apply sqrt_square; lra). destruct (qltb_spec 0 d) as [P1|P1].
  - assert (D := real_pos _ P1). replace (real d * real d * (Y * Y)) with ((real d * Y) * (real d * Y)) by ring. rewrite sqrt_square by (apply Rlt_le, Rmult_lt_0_compat; auto). field. repeat split; apply not_eq_sym, Rlt_not_eq; auto.
  - apply Qcnot_lt_le, real_le in P1. rewrite real_0 in P1. assert (D : 0 < - real d) by (assert (real d < 0 \/ real d = 0) by lra; destruct H; [lra|contradiction]).
    replace (real d * real d * (Y * Y)) with ((- real d * Y) * (- real d * Y)) by ring. rewrite sqrt_square by (apply Rlt_le, Rmult_lt_0_compat; auto). field. repeat split; auto; apply not_eq_sym, Rlt_not_eq; auto.
Qed.
Lemma rho_self l : varies l -> rho (map (fun x => (x, x)) l) = 1.
Proof.
  intros V. assert (E : xs (map (fun x => (x, x)) l) = l) by (unfold xs; rewrite map_map; apply map_id). assert (E2 : ys (map (fun x => (x, x)) l) = l) by (unfold ys; rewrite map_map; apply map_id).
  unfold rho. rewrite codev_self, E, E2. apply varies_b in V. assert (D := real_pos _ (dev_pos _ V)). rewrite sqrt_sqrt by (apply Rlt_le; auto). field. apply not_eq_sym, Rlt_not_eq; auto.
Qed.
Definition on_line (b_ok : Qc -> Prop) (P : list (Qc * Qc)) : Prop := exists a b, b_ok b /\ forall p, In p P -> snd p = (a + b * fst p)%Qc.
Lemma line_rho a b P : varies (xs P) -> (b <> 0)%Qc -> (forall p, In p P -> snd p = (a + b * fst p)%Qc) -> rho P = if qltb 0 b then 1 else -1.
Proof.
  intros V N H. assert (E : P = moved 0 1 a b (map (fun x => (x, x)) (xs P))).
  { unfold moved, xs. rewrite !map_map. rewrite <- (map_id P) at 1. apply map_ext_in. intros [x y] Hp. specialize (H _ Hp). cbn [fst snd] in *. f_equal; [ring|auto]. }
  rewrite E. assert (X1 : xs (map (fun x => (x, x)) (xs P)) = xs P) by (unfold xs at 1; rewrite map_map; apply map_id). assert (X2 : ys (map (fun x => (x, x)) (xs P)) = xs P) by (unfold ys; rewrite map_map; apply map_id).
  rewrite rho_affine; auto; try (rewrite X1 || rewrite X2; auto; fail); [|reflexivity]. rewrite rho_self by auto. reflexivity.
Qed.
Lemma rho_one_line P (e : R) : varies (xs P) -> varies (ys P) -> e * e = 1 -> rho P = e -> on_line (fun b => 0 < e * real b) P.
Proof.
  intros VX VY HE HR. destruct (rho_facts P VX VY) as (X & Y & HX & HY & EX & EY & ER & _). assert (HZ : 0 < X * Y) by (apply Rmult_lt_0_compat; auto).
  assert (C : real (codev P) = e * (X * Y)) by (rewrite HR in ER; rewrite ER; field; split; apply not_eq_sym, Rlt_not_eq; auto).
  assert (D0 : (0 < dev 2 (xs P))%Qc) by (apply dev_pos, varies_b; auto). assert (N := Qc_lt_ne _ _ D0).
  assert (CE : (codev P * codev P = dev 2 (xs P) * dev 2 (ys P))%Qc).
  { apply real_inj. rewrite !real_mult, C, <- EX, <- EY. transitivity (e * e * ((X * Y) * (X * Y))); [ring|]. rewrite HE. ring. }
  exists (avg (ys P) - codev P / dev 2 (xs P) * avg (xs P))%Qc, (codev P / dev 2 (xs P))%Qc. split; [|apply collinear; auto].
  rewrite real_div by auto. rewrite C, <- EX. replace (e * (e * (X * Y) / (X * X))) with (e * e * (Y / X)) by (field; apply not_eq_sym, Rlt_not_eq; auto). rewrite HE, Rmult_1_l. apply Rdiv_lt_0_compat; auto.
Qed.
Lemma rho_extreme P : varies (xs P) -> varies (ys P) -> (rho P = 1 <-> on_line (fun b => 0 < b)%Qc P) /\ (rho P = -1 <-> on_line (fun b => b < 0)%Qc P).
Proof.
  intros VX VY. assert (L : forall a b, (forall p, In p P -> snd p = (a + b * fst p)%Qc) -> b <> 0%Qc -> rho P = if qltb 0 b then 1 else -1) by (intros; eapply line_rho; eauto). split; split.
  - intros E. destruct (rho_one_line P 1 VX VY ltac:(ring) E) as (a & b & B & H). exists a, b. split; auto. apply real_lt. rewrite real_0. lra.
  - intros (a & b & B & H). rewrite (L a b H (Qc_lt_ne _ _ B)). destruct (qltb_spec 0 b); auto. exfalso. qlra.
  - intros E. destruct (rho_one_line P (-1) VX VY ltac:(ring) E) as (a & b & B & H). exists a, b. split; auto. apply real_lt. rewrite real_0. lra.
  - intros (a & b & B & H). rewrite (L a b H). + destruct (qltb_spec 0 b); auto. exfalso. qlra. + intros ->. qlra.
Qed.
