From Verif Require Import DcSpec DcProofs DcProofs2 DcProofs3.
From Coquelicot Require Import Coquelicot.
From Coq Require Import Lia Lra FunctionalExtensionality Permutation Bool.
Local Open Scope R_scope.

(** ** Predicted probabilities *)
Section Rows.
Context (Fun : R -> R -> R) (mu : vec) (xib : R).
Definition step_cut (mui : R) (j i : nat) : R := match i with O => mui | S i' => mu (j + i')%nat end.
Lemma loop_length n : forall j mui preF, (0 < n)%nat -> List.length (ord_loop Fun mu xib n j mui preF) = S n.
Proof.
  induction n as [|n IH]; intros j mui preF H; [lia|]. destruct n as [|n]; [reflexivity|]. change (S (List.length (ord_loop Fun mu xib (S n) (S j) (mu j) (Fun mui xib))) = S (S (S n))). f_equal.
  apply IH. lia.
Qed.
Lemma loop_nth n : forall j mui preF i, (i <= n)%nat -> (0 < n)%nat ->
  nth i (ord_loop Fun mu xib n j mui preF) 0 =
  (if (i <? n)%nat then Fun (step_cut mui j i) xib else 1) - (match i with O => preF | S i' => Fun (step_cut mui j i') xib end).
Proof.
  induction n as [|n IH]; intros j mui preF i Hi Hn; [lia|].
  destruct i as [|i]; [reflexivity|]. destruct n as [|n].
  - destruct i as [|i]; [|lia]. reflexivity.
  - change (nth i (ord_loop Fun mu xib (S n) (S j) (mu j) (Fun mui xib)) 0 = (if (S i <? S (S n))%nat then Fun (step_cut mui j (S i)) xib else 1) - Fun (step_cut mui j i) xib).
    rewrite IH by lia. f_equal.
    + destruct (Nat.ltb_spec i (S n)); destruct (Nat.ltb_spec (S i) (S (S n))); try lia; [|reflexivity]. f_equal.
      destruct i as [|i]; cbn [step_cut]; f_equal; lia.
    + destruct i as [|i]; [reflexivity|]. cbn [step_cut]. f_equal. f_equal. destruct i as [|i]; cbn [step_cut]; f_equal; lia.
Qed.
Lemma loop_total n : forall j mui preF, (0 < n)%nat -> total (ord_loop Fun mu xib n j mui preF) = 1 - preF.
Proof.
  induction n as [|n IH]; intros j mui preF H; [lia|]. destruct n as [|n]; [cbn; lra|].
  change (Fun mui xib - preF + total (ord_loop Fun mu xib (S n) (S j) (mu j) (Fun mui xib)) = 1 - preF).
  rewrite IH by lia. lra.
Qed.
End Rows.
Definition with_y (o : obs) (y : Z) : obs := Obs y (o_w o) (o_x o).
Section Form.
Context (Fun : R -> R -> R) (F : R -> R) (HF : forall m v, Fun m v = F (m - v)).
Lemma row_prob k0 J o b m : (0 < J)%nat -> (m <= J)%nat ->
  nth m (ord_row Fun k0 J o b) 0 = ordered_prob F k0 (Z.of_nat J) (with_y o (Z.of_nat m)) b.
Proof.
  intros HJ Hm. unfold ord_row. rewrite loop_nth by lia. unfold ordered_prob, at_most, with_y. cbn [o_y].
  change (index k0 (Obs (Z.of_nat m) (o_w o) (o_x o)) b) with (xb k0 o b).
  assert (C : forall i, step_cut (ordermu k0 b) 0 0 i = cutoff k0 b (Z.of_nat i)).
  { intros i. unfold cutoff. destruct i as [|i]; [reflexivity|]. destruct (Z.eqb_spec (Z.of_nat (S i)) 0); [lia|]. cbn [step_cut]. unfold ordermu. f_equal. lia. }
  f_equal.
  - destruct (Nat.ltb_spec m J); destruct (Z.ltb_spec (Z.of_nat m) 0); destruct (Z.ltb_spec (Z.of_nat m) (Z.of_nat J)); try lia; [|reflexivity].
    rewrite HF, C. reflexivity.
  - destruct m as [|m]; [reflexivity|]. destruct (Z.ltb_spec (Z.of_nat (S m) - 1) 0); [lia|]. destruct (Z.ltb_spec (Z.of_nat (S m) - 1) (Z.of_nat J)); [|lia].
    rewrite HF, C. replace (Z.of_nat (S m) - 1)%Z with (Z.of_nat m) by lia. reflexivity.
Qed.
Context (R01 : forall z, 0 < F z < 1) (Inc : forall u v, u < v -> F u < F v).
Lemma inc_le u v : u <= v -> F u <= F v.
Proof. intros [H| ->]; [left; apply Inc, H|lra]. Qed.
Lemma at_most_between k0 J o b m : 0 <= at_most F k0 J o b m <= 1.
Proof. unfold at_most. assert (K := R01 (cutoff k0 b m - index k0 o b)). zb; lra. Qed.
Lemma prob_nonneg k0 J o b : (0 <= o_y o <= J)%Z -> (forall m, (0 <= m)%Z -> (m + 1 < J)%Z -> cutoff k0 b m <= cutoff k0 b (m + 1)) ->
  0 <= ordered_prob F k0 J o b.
Proof.
  intros Y C. unfold ordered_prob, at_most. zb; try lra.
  - assert (K := R01 (cutoff k0 b (o_y o) - index k0 o b)). lra.
  - assert (K := C (o_y o - 1)%Z ltac:(lia) ltac:(lia)). replace (o_y o - 1 + 1)%Z with (o_y o) in K by lia.
    assert (L := inc_le (cutoff k0 b (o_y o - 1) - index k0 o b) (cutoff k0 b (o_y o) - index k0 o b)). lra.
  - assert (K := R01 (cutoff k0 b (o_y o - 1) - index k0 o b)). lra.
Qed.
Lemma prob_pos k0 J o b : (0 < J)%Z -> (0 <= o_y o <= J)%Z -> (forall m, (0 <= m)%Z -> (m + 1 < J)%Z -> cutoff k0 b m < cutoff k0 b (m + 1)) ->
  0 < ordered_prob F k0 J o b.
Proof.
  intros HJ Y C. unfold ordered_prob, at_most. zb; try lra.
  - assert (K := R01 (cutoff k0 b (o_y o) - index k0 o b)). lra.
  - assert (K := C (o_y o - 1)%Z ltac:(lia) ltac:(lia)). replace (o_y o - 1 + 1)%Z with (o_y o) in K by lia.
    assert (L := Inc (cutoff k0 b (o_y o - 1) - index k0 o b) (cutoff k0 b (o_y o) - index k0 o b)). lra.
  - assert (K := R01 (cutoff k0 b (o_y o - 1) - index k0 o b)). lra.
Qed.
Lemma prob_negative k0 J o b : (1 <= o_y o)%Z -> (o_y o < J)%Z -> (ordered_prob F k0 J o b < 0 <-> cutoff k0 b (o_y o) < cutoff k0 b (o_y o - 1)).
Proof.
  intros Y Y'. unfold ordered_prob, at_most. zb. split; intros K.
  - destruct (Rlt_le_dec (cutoff k0 b (o_y o)) (cutoff k0 b (o_y o - 1))) as [L|L]; [exact L|].
    assert (M := inc_le (cutoff k0 b (o_y o - 1) - index k0 o b) (cutoff k0 b (o_y o) - index k0 o b)). lra.
  - assert (M := Inc (cutoff k0 b (o_y o) - index k0 o b) (cutoff k0 b (o_y o - 1) - index k0 o b)). lra.
Qed.
End Form.
Lemma logistic_inc u v : u < v -> logistic u < logistic v.
Proof.
  intros H. unfold logistic. apply Rinv_lt_contravar; [apply Rmult_lt_0_compat; apply exp_1|]. apply Rplus_lt_compat_l, exp_increasing. lra.
Qed.
Lemma cdf_inc cdf pdf (H : normal_like cdf pdf) u v : u < v -> cdf u < cdf v.
Proof.
  intros L. destruct (MVT_gen cdf u v pdf) as [c [_ E]].
  - intros t _. eapply cdf_derive, H.
  - intros t _. apply continuity_pt_filterlim. apply (ex_derive_continuous cdf). eexists. eapply cdf_derive, H.
  - assert (P := pdf_pos cdf pdf H c). nra.
Qed.
Lemma logit_F_form m v : logit_F m v = logistic (m - v). Proof. apply logistic_at. Qed.
Lemma lg_derive z : is_derive logistic z (lg_f z). Proof. apply logistic_derive. Qed.
Lemma lgf_derive z : is_derive lg_f z (lg_ff z).
Proof.
  assert (D := logistic_derive z). unfold lg_f, lg_ff, lg_f.
  apply (derive_eq _ _ ((logistic z * (1 - logistic z)) * (1 - logistic z) + logistic z * (0 - (logistic z * (1 - logistic z))))); [ring|].
  apply (is_derive_mult (K := R_AbsRing) logistic (fun z => 1 - logistic z) z); [exact D| |intros; apply Rmult_comm].
  apply (is_derive_minus (K := R_AbsRing) (V := R_NormedModule) (fun _ => 1) logistic); [apply const_derive|exact D].
Qed.
Lemma total_repeat {A} (h : A -> R) o m : total (map h (repeat o m)) = INR m * h o.
Proof. induction m as [|m IH]; [cbn; lra|]. cbn [repeat map total]. rewrite IH, S_INR. lra. Qed.
Lemma copies (h : Z -> vec -> R) y x m l :
  total (map (fun o => o_w o * h (o_y o) (o_x o)) (Obs y (INR m) x :: l)) = total (map (fun o => o_w o * h (o_y o) (o_x o)) (repeat (Obs y 1 x) m ++ l)).
Proof. rewrite map_app, total_app, total_repeat. cbn. ring. Qed.
Lemma pdf_derive' cdf pdf (N : normal_like cdf pdf) (z : R) : is_derive pdf z (- pdf z * z).
Proof. apply (derive_eq _ _ (- z * pdf z)); [ring|]. eapply pdf_derive, N. Qed.
