(** Proofs about Distance: inequalities for sums of reals. *)
From Verif Require Import DistModel DistSpec CorRealProofs CorRealProofs2.
From Coq Require Import Lra.
Local Open Scope R_scope.

Section Sums.
Context {A : Type}.
Implicit Types (f g h : A -> R) (l : list A).
Definition RS f l : R := Rsum (map f l).
Lemma RS_cons f a l : RS f (a :: l) = f a + RS f l.
Proof. reflexivity. Qed.
Lemma RS_ext f g l : (forall a, In a l -> f a = g a) -> RS f l = RS g l.
Proof. intros H. unfold RS. f_equal. apply map_ext_in. auto. Qed.
Lemma RS_add f g l : RS (fun a => f a + g a) l = RS f l + RS g l.
Proof. induction l as [|a t IH]; [unfold RS; cbn; ring|]. rewrite !RS_cons, IH. ring. Qed.
Lemma RS_scale k f l : RS (fun a => k * f a) l = k * RS f l.
Proof. induction l as [|a t IH]; [unfold RS; cbn; ring|]. rewrite !RS_cons, IH. ring. Qed.
Lemma RS_nonneg f l : (forall a, In a l -> 0 <= f a) -> 0 <= RS f l.
Proof. induction l as [|a t IH]; intros H; [unfold RS; cbn; lra|]. rewrite RS_cons. assert (0 <= f a) by (apply H; left; auto). assert (0 <= RS f t) by (apply IH; intros; apply H; right; auto). lra. Qed.
Lemma RS_le f g l : (forall a, In a l -> f a <= g a) -> RS f l <= RS g l.
Proof. induction l as [|a t IH]; intros H; [unfold RS; cbn; lra|]. rewrite !RS_cons. assert (f a <= g a) by (apply H; left; auto). assert (RS f t <= RS g t) by (apply IH; intros; apply H; right; auto). lra. Qed.
Lemma RS_zero f l : (forall a, In a l -> 0 <= f a) -> RS f l = 0 -> forall a, In a l -> f a = 0.
Proof.
  induction l as [|b t IH]; intros H E a Ha; [contradiction|]. rewrite RS_cons in E. assert (0 <= f b) by (apply H; left; auto). assert (N : 0 <= RS f t) by (apply RS_nonneg; intros; apply H; right; auto).
  destruct Ha as [<-|Ha]; [lra|]. apply IH; auto; [intros; apply H; right; auto|lra].
Qed.
Lemma sq_pos x : 0 <= x * x.
Proof. apply Rle_0_sqr. Qed.
Lemma RS_quad f g l (t : R) : RS (fun a => (f a - t * g a) * (f a - t * g a)) l = RS (fun a => f a * f a) l - 2 * t * RS (fun a => f a * g a) l + t * t * RS (fun a => g a * g a) l.
Proof. induction l as [|a r IH]; [unfold RS; cbn; ring|]. rewrite !RS_cons, IH. ring. Qed.
Lemma RS_cauchy f g l : RS (fun a => f a * g a) l * RS (fun a => f a * g a) l <= RS (fun a => f a * f a) l * RS (fun a => g a * g a) l.
Proof.
  set (x := RS (fun a => f a * f a) l). set (y := RS (fun a => g a * g a) l). set (z := RS (fun a => f a * g a) l).
  assert (X : 0 <= x) by (apply RS_nonneg; intros; apply sq_pos). assert (Y : 0 <= y) by (apply RS_nonneg; intros; apply sq_pos).
  assert (Q : forall t, 0 <= x - 2 * t * z + t * t * y) by (intros t; unfold x, y, z; rewrite <- RS_quad; apply RS_nonneg; intros; apply sq_pos).
  clearbody x y z. destruct (Req_dec y 0) as [->|N].
  - destruct (Req_dec z 0) as [->|NZ]; [lra|]. exfalso. specialize (Q ((x + 1) / (2 * z))). replace (x - 2 * ((x + 1) / (2 * z)) * z + (x + 1) / (2 * z) * ((x + 1) / (2 * z)) * 0) with (-1) in Q by (field; auto). lra.
  - specialize (Q (z / y)). assert (HY : 0 < y) by lra. replace (x - 2 * (z / y) * z + z / y * (z / y) * y) with ((x * y - z * z) / y) in Q by (field; auto).
    assert (R := Rmult_le_compat_r y _ _ (Rlt_le _ _ HY) Q). replace ((x * y - z * z) / y * y) with (x * y - z * z) in R by (field; auto). lra.
Qed.
Definition norm f l : R := sqrt (RS (fun a => f a * f a) l).
Lemma norm_sq f l : norm f l * norm f l = RS (fun a => f a * f a) l.
Proof. apply sqrt_sqrt, RS_nonneg. intros. apply sq_pos. Qed.
Lemma norm_nonneg f l : 0 <= norm f l.
Proof. apply sqrt_pos. Qed.
Lemma dot_norm f g l : RS (fun a => f a * g a) l <= norm f l * norm g l.
Proof.
  assert (C := RS_cauchy f g l). rewrite <- !norm_sq in C. assert (NF := norm_nonneg f l). assert (NG := norm_nonneg g l). set (z := RS _ l) in *.
  apply Rsqr_incr_0_var; [unfold Rsqr; lra|apply Rmult_le_pos; auto].
Qed.
Lemma minkowski f g l : norm (fun a => f a + g a) l <= norm f l + norm g l.
Proof.
  assert (D := dot_norm f g l). assert (NF := norm_nonneg f l). assert (NG := norm_nonneg g l). apply Rsqr_incr_0_var; [|lra]. unfold Rsqr. rewrite norm_sq.
  replace (RS (fun a => (f a + g a) * (f a + g a)) l) with (RS (fun a => f a * f a) l + 2 * RS (fun a => f a * g a) l + RS (fun a => g a * g a) l).
  - rewrite <- !norm_sq. lra.
  - rewrite <- RS_scale, <- !RS_add. apply RS_ext. intros. ring.
Qed.
Lemma norm_zero f l : norm f l = 0 <-> forall a, In a l -> f a = 0.
Proof.
  split.
  - intros E a Ha. assert (Z : RS (fun a => f a * f a) l = 0) by (rewrite <- norm_sq, E; ring). assert (F := RS_zero _ l (fun a _ => sq_pos (f a)) Z a Ha). cbv beta in F. apply Rsqr_0_uniq. auto.
  - intros H. unfold norm. rewrite (RS_ext _ (fun _ => 0 * 0)); [|intros; rewrite H; auto]. rewrite RS_scale, Rmult_0_l. apply sqrt_0.
Qed.
Lemma norm_scale (k : R) f l : norm (fun a => k * f a) l = Rabs k * norm f l.
Proof.
  unfold norm. rewrite (RS_ext _ (fun a => (k * k) * (f a * f a))) by (intros; ring). rewrite RS_scale. rewrite sqrt_mult; [|apply sq_pos|apply RS_nonneg; intros; apply sq_pos]. f_equal. apply sqrt_Rsqr_abs.
Qed.
(** The distance of a unit vector to a line through another one. *)
Lemma sine_triangle f g h l : RS (fun a => f a * f a) l = 1 -> RS (fun a => g a * g a) l = 1 -> RS (fun a => h a * h a) l = 1 ->
  let p := RS (fun a => f a * g a) l in let q := RS (fun a => g a * h a) l in let r := RS (fun a => f a * h a) l in
  sqrt (1 - r * r) <= sqrt (1 - p * p) + sqrt (1 - q * q).
Proof.
  intros F G H p q r.
  assert (U : forall f g, RS (fun a => f a * f a) l = 1 -> RS (fun a => g a * g a) l = 1 -> norm (fun a => f a - RS (fun a => f a * g a) l * g a) l = sqrt (1 - RS (fun a => f a * g a) l * RS (fun a => f a * g a) l)).
  { intros f' g' F' G'. unfold norm. f_equal. rewrite RS_quad, F', G'. ring. }
  assert (K : forall f g h, RS (fun a => f a * f a) l = 1 -> RS (fun a => g a * g a) l = 1 -> RS (fun a => h a * h a) l = 1 ->
    Rabs (RS (fun a => f a * g a) l) <= Rabs (RS (fun a => h a * g a) l) ->
    sqrt (1 - RS (fun a => f a * h a) l * RS (fun a => f a * h a) l) <= sqrt (1 - RS (fun a => f a * g a) l * RS (fun a => f a * g a) l) + sqrt (1 - RS (fun a => h a * g a) l * RS (fun a => h a * g a) l)).
  { clear f g h F G H p q r. intros f g h F G H L. rewrite <- (U f g), <- (U h g) by auto. set (p := RS (fun a => f a * g a) l) in *. set (q := RS (fun a => h a * g a) l) in *. set (r := RS (fun a => f a * h a) l).
    destruct (Req_dec q 0) as [Q0|Q0].
    - assert (P0 : p = 0) by (rewrite Q0, Rabs_R0 in L; destruct (Req_dec p 0) as [|P1]; auto; assert (B := Rabs_pos_lt p P1); lra).
      assert (N1 : norm (fun a => f a - p * g a) l = 1). { unfold norm. rewrite (RS_ext _ (fun a => f a * f a)); [rewrite F; apply sqrt_1|]. intros. rewrite P0. ring. }
      rewrite N1. assert (N2 := norm_nonneg (fun a => h a - q * g a) l). apply Rle_trans with 1; [|lra]. rewrite <- sqrt_1 at 2. apply sqrt_le_1_alt. assert (S := sq_pos r). lra.
    - set (t := p / q). assert (T : Rabs t <= 1). { unfold t, Rdiv. rewrite Rabs_mult, Rabs_inv. apply Rmult_le_reg_r with (Rabs q); [apply Rabs_pos_lt; auto|]. rewrite Rmult_assoc, Rinv_l by (apply Rabs_no_R0; auto). lra. }
      assert (M : norm (fun a => f a - t * h a) l <= norm (fun a => f a - p * g a) l + norm (fun a => - t * (h a - q * g a)) l).
      { eapply Rle_trans; [|apply minkowski]. right. unfold norm. f_equal. apply RS_ext. intros a _. unfold t. field. auto. }
      rewrite norm_scale, Rabs_Ropp in M. assert (N2 := norm_nonneg (fun a => h a - q * g a) l).
      assert (B : Rabs t * norm (fun a => h a - q * g a) l <= 1 * norm (fun a => h a - q * g a) l) by (apply Rmult_le_compat_r; auto).
      assert (C : sqrt (1 - r * r) <= norm (fun a => f a - t * h a) l). { unfold norm. apply sqrt_le_1_alt. rewrite RS_quad, F, H. fold r. assert (S := sq_pos (t - r)). lra. }
      lra. }
  assert (SW : forall f g, RS (fun a => f a * g a) l = RS (fun a => g a * f a) l) by (intros; apply RS_ext; intros; ring).
  destruct (Rle_dec (Rabs (RS (fun a => f a * g a) l)) (Rabs (RS (fun a => h a * g a) l))) as [L|L].
  - assert (X := K f g h F G H L). unfold p, q, r. rewrite (SW g h). exact X.
  - assert (X := K h g f H G F (Rlt_le _ _ (Rnot_le_lt _ _ L))). unfold p, q, r. rewrite (SW g h), (SW f h). lra.
Qed.
End Sums.
