(** Exact numbers: Tv (double) is modelled by canonical rationals [Qc]; [option Qc] adds NaN. *)
From Coq Require Export QArith Qcanon Qfield Lqa.
From Verif Require Export Base.
Local Open Scope Qc_scope.

Definition qltb (a b : Qc) : bool := negb (Qle_bool b a).
Definition qleb (a b : Qc) : bool := Qle_bool a b.
Definition qeqb (a b : Qc) : bool := Qeq_bool a b.

Lemma qltb_lt a b : qltb a b = true <-> a < b.
Proof.
  unfold qltb, Qclt. rewrite negb_true_iff. split; intros H.
  - destruct (Qlt_le_dec a b) as [L|L]; auto. apply Qle_bool_iff in L. congruence.
  - destruct (Qle_bool b a) eqn:E; auto. apply Qle_bool_iff in E. exfalso. apply (Qlt_not_le _ _ H E).
Qed.
Lemma qleb_le a b : qleb a b = true <-> a <= b.
Proof. unfold qleb, Qcle. apply Qle_bool_iff. Qed.
Lemma qeqb_eq a b : qeqb a b = true <-> a = b.
Proof.
  unfold qeqb. rewrite Qeq_bool_iff. split; [apply Qc_is_canon|intros ->; reflexivity].
Qed.

Lemma qltb_spec a b : reflect (a < b) (qltb a b).
Proof. apply iff_reflect. symmetry; apply qltb_lt. Qed.
Lemma qleb_spec a b : reflect (a <= b) (qleb a b).
Proof. apply iff_reflect. symmetry; apply qleb_le. Qed.
Lemma qeqb_spec a b : reflect (a = b) (qeqb a b).
Proof. apply iff_reflect. symmetry; apply qeqb_eq. Qed.

(** Linear arithmetic on [Qc]: move to [Q] and call [lra]. *)
Lemma this_add a b : (this (a + b) == this a + this b)%Q.
Proof. exact (Qred_correct _). Qed.
Lemma this_mul a b : (this (a * b) == this a * this b)%Q.
Proof. exact (Qred_correct _). Qed.
Lemma this_opp a : (this (- a) == - this a)%Q.
Proof. exact (Qred_correct _). Qed.
Lemma this_sub a b : (this (a - b) == this a - this b)%Q.
Proof. unfold Qcminus. rewrite this_add, this_opp. reflexivity. Qed.
Lemma Qc_eq_iff (a b : Qc) : a = b <-> (this a == this b)%Q.
Proof. split; [intros ->; reflexivity|apply Qc_is_canon]. Qed.
Lemma this_0 : (this 0 == 0)%Q. Proof. reflexivity. Qed.
Lemma this_1 : (this 1 == 1)%Q. Proof. reflexivity. Qed.

Ltac qc2q :=
  unfold Qcle, Qclt in *;
  repeat match goal with
  | H : context [@eq Qc _ _] |- _ => rewrite Qc_eq_iff in H
  end;
  try rewrite !Qc_eq_iff;
  repeat first [ setoid_rewrite this_add | setoid_rewrite this_mul | setoid_rewrite this_sub
               | setoid_rewrite this_opp ];
  repeat match goal with
  | H : context [this (_ + _)] |- _ => rewrite this_add in H
  | H : context [this (_ * _)] |- _ => rewrite this_mul in H
  | H : context [this (_ - _)] |- _ => rewrite this_sub in H
  | H : context [this (- _)] |- _ => rewrite this_opp in H
  end;
  change (this 0) with 0%Q in *; change (this 1) with 1%Q in *.
Ltac qlra := qc2q; lra.

Goal forall a b c : Qc, a < b -> b <= c -> a + 1 < c + 1.
Proof. intros. qlra. Qed.
Goal forall a b : Qc, ~ a < b -> a <> b -> b < a.
Proof. intros a b H H0. destruct (Qclt_le_dec b a) as [L|L]; auto. exfalso.
  apply Qcle_lt_or_eq in L. tauto. Qed.
Goal forall a b : Qc, a <= b -> b <= a -> a = b.
Proof. intros. qlra. Qed.

Definition qsum (l : list Qc) : Qc := fold_right Qcplus 0 l.

Lemma qsum_app a b : qsum (a ++ b) = qsum a + qsum b.
Proof. induction a as [|x a IH]; simpl; [ring|]. rewrite IH; ring. Qed.

Lemma qsum_map_mul {A} (f : A -> Qc) k l : qsum (map (fun x => k * f x) l) = k * qsum (map f l).
Proof. induction l as [|x l IH]; simpl; [ring|]. rewrite IH; ring. Qed.

Lemma qsum_map_add {A} (f g : A -> Qc) l :
  qsum (map (fun x => f x + g x) l) = qsum (map f l) + qsum (map g l).
Proof. induction l as [|x l IH]; simpl; [ring|]. rewrite IH; ring. Qed.

Lemma qsum_perm l l' : Permutation l l' -> qsum l = qsum l'.
Proof. induction 1; simpl; try congruence; ring. Qed.

Lemma qsum_nonneg l : Forall (fun x => 0 <= x) l -> 0 <= qsum l.
Proof. induction 1 as [|x l Hx _ IH]; simpl; [apply Qcle_refl|]. qlra. Qed.

Lemma Qc_lt_ne a b : a < b -> b <> a.
Proof. intros H ->. exact (Qclt_not_eq _ _ H eq_refl). Qed.

(** Injection of integers. *)
Definition qz (z : Z) : Qc := Q2Qc (inject_Z z).

Lemma this_qz z : (this (qz z) == inject_Z z)%Q.
Proof. exact (Qred_correct _). Qed.
Lemma qz_add a b : qz (a + b) = qz a + qz b.
Proof. apply Qc_is_canon. rewrite this_add, !this_qz. rewrite inject_Z_plus; reflexivity. Qed.
Lemma qz_mul a b : qz (a * b) = qz a * qz b.
Proof. apply Qc_is_canon. rewrite this_mul, !this_qz. rewrite inject_Z_mult; reflexivity. Qed.
Lemma qz_le a b : qz a <= qz b <-> (a <= b)%Z.
Proof. unfold Qcle. rewrite !this_qz, <- Zle_Qle; tauto. Qed.
Lemma qz_lt a b : qz a < qz b <-> (a < b)%Z.
Proof. unfold Qclt. rewrite !this_qz, <- Zlt_Qlt; tauto. Qed.
Lemma qz_inj a b : qz a = qz b <-> a = b.
Proof.
  split; [|intros ->; auto]. intros H. apply Qc_eq_iff in H. rewrite !this_qz in H.
  apply inject_Z_injective; auto.
Qed.
Definition qn (n : nat) : Qc := qz (Z.of_nat n).
Lemma qn_S n : qn (S n) = qn n + 1.
Proof. unfold qn. rewrite Nat2Z.inj_succ. unfold Z.succ. rewrite qz_add. reflexivity. Qed.
Lemma qn_pos n : (0 < n)%nat -> 0 < qn n.
Proof. intros H. change 0 with (qz 0). apply qz_lt. lia. Qed.
