(** Proofs about the moments of the generalized lambda distribution: the formulas of GetMk and GetMs, GetFromMoments. *)
From Coq Require Import Reals Lra Lia ZArith.
From Coquelicot Require Import Coquelicot.
From Verif Require Import UdModel GldModel GldSpec GldProofs GldProofs2.
Import Lra.
Local Open Scope R_scope.

Lemma rp2 u a : Rpower u a ^ 2 = Rpower u (2 * a).
Proof. replace (2 * a) with (a + a) by ring. rewrite Rpower_plus. ring. Qed.
Lemma rp3 u a : Rpower u a ^ 3 = Rpower u (3 * a).
Proof. replace (3 * a) with (a + a + a) by ring. rewrite !Rpower_plus. ring. Qed.
Lemma rp4 u a : Rpower u a ^ 4 = Rpower u (4 * a).
Proof. replace (4 * a) with (a + a + a + a) by ring. rewrite !Rpower_plus. ring. Qed.
Lemma core_1 a b p : a <> 0 -> b <> 0 -> core a b p ^ 1 = 1 / a * Rpower p a + - (1 / b) * Rpower (1 - p) b.
Proof. intros. unfold core. field. auto. Qed.
Lemma core_2 a b p : a <> 0 -> b <> 0 ->
  core a b p ^ 2 = 1 / a ^ 2 * Rpower p (2 * a) + (1 / b ^ 2 * Rpower (1 - p) (2 * b) + - (2 / (a * b)) * (Rpower p a * Rpower (1 - p) b)).
Proof. intros. rewrite <- !rp2. unfold core. field. auto. Qed.
Lemma core_3 a b p : a <> 0 -> b <> 0 ->
  core a b p ^ 3 = 1 / a ^ 3 * Rpower p (3 * a) + (- (1 / b ^ 3) * Rpower (1 - p) (3 * b)
                   + (- (3 / (a ^ 2 * b)) * (Rpower p (2 * a) * Rpower (1 - p) b) + 3 / (a * b ^ 2) * (Rpower p a * Rpower (1 - p) (2 * b)))).
Proof. intros. rewrite <- !rp2, <- !rp3. unfold core. field. auto. Qed.
Lemma core_4 a b p : a <> 0 -> b <> 0 ->
  core a b p ^ 4 = 1 / a ^ 4 * Rpower p (4 * a) + (1 / b ^ 4 * Rpower (1 - p) (4 * b)
                   + (6 / (a * b) ^ 2 * (Rpower p (2 * a) * Rpower (1 - p) (2 * b))
                   + (- (4 / (a ^ 3 * b)) * (Rpower p (3 * a) * Rpower (1 - p) b) + - (4 / (a * b ^ 3)) * (Rpower p a * Rpower (1 - p) (3 * b))))).
Proof. intros. rewrite <- !rp2, <- !rp3, <- !rp4. unfold core. field. auto. Qed.

Section Beta.
Context (s : gspecial) (B : beta_ok s).
Definition mk1 (a b : R) : R := 1 / (a * (a + 1)) - 1 / (b * (b + 1)).
Definition mk2 (a b : R) : R := 1 / (a ^ 2 * (2 * a + 1)) + 1 / (b ^ 2 * (2 * b + 1)) - 2 / (a * b) * g_beta s (a + 1) (b + 1).
Definition mk3 (a b : R) : R := 1 / (a ^ 3 * (3 * a + 1)) - 1 / (b ^ 3 * (3 * b + 1)) - 3 / (a ^ 2 * b) * g_beta s (2 * a + 1) (b + 1) + 3 / (a * b ^ 2) * g_beta s (a + 1) (2 * b + 1).
Definition mk4 (a b : R) : R := 1 / (a ^ 4 * (4 * a + 1)) + 1 / (b ^ 4 * (4 * b + 1)) + 6 / ((a * b) ^ 2) * g_beta s (2 * a + 1) (2 * b + 1)
                    - 4 / (a ^ 3 * b) * g_beta s (3 * a + 1) (b + 1) - 4 / (a * b ^ 3) * g_beta s (a + 1) (3 * b + 1).
Lemma int_mk1 a b : a <> 0 -> b <> 0 -> -1 < a -> -1 < b -> integral01 (fun p => core a b p ^ 1) (mk1 a b).
Proof using.
  intros Na Nb Ha Hb. replace (mk1 a b) with (1 / a * (1 / (a + 1)) + - (1 / b) * (1 / (b + 1))) by (unfold mk1; field; repeat split; lra).
  apply (int_ext (fun p => 1 / a * Rpower p a + - (1 / b) * Rpower (1 - p) b)); [intros; symmetry; apply core_1; assumption|].
  apply int_plus; apply int_scal; [apply int_power|apply int_power']; assumption.
Qed.
Lemma int_mk2 a b : a <> 0 -> b <> 0 -> - (1 / 2) < a -> - (1 / 2) < b -> integral01 (fun p => core a b p ^ 2) (mk2 a b).
Proof using B.
  intros Na Nb Ha Hb. replace (mk2 a b) with (1 / a ^ 2 * (1 / (2 * a + 1)) + (1 / b ^ 2 * (1 / (2 * b + 1)) + - (2 / (a * b)) * g_beta s (a + 1) (b + 1))) by (unfold mk2; field; repeat split; lra).
  eapply int_ext; [intros; symmetry; apply core_2; assumption|].
  apply int_plus; [|apply int_plus]; apply int_scal; [apply int_power|apply int_power'|apply B]; lra.
Qed.
Lemma int_mk3 a b : a <> 0 -> b <> 0 -> - (1 / 3) < a -> - (1 / 3) < b -> integral01 (fun p => core a b p ^ 3) (mk3 a b).
Proof using B.
  intros Na Nb Ha Hb.
  replace (mk3 a b) with (1 / a ^ 3 * (1 / (3 * a + 1)) + (- (1 / b ^ 3) * (1 / (3 * b + 1)) + (- (3 / (a ^ 2 * b)) * g_beta s (2 * a + 1) (b + 1) + 3 / (a * b ^ 2) * g_beta s (a + 1) (2 * b + 1))))
    by (unfold mk3; field; repeat split; lra).
  eapply int_ext; [intros; symmetry; apply core_3; assumption|].
  apply int_plus; [|apply int_plus; [|apply int_plus]]; apply int_scal; [apply int_power|apply int_power'|apply B|apply B]; lra.
Qed.
Lemma int_mk4 a b : a <> 0 -> b <> 0 -> - (1 / 4) < a -> - (1 / 4) < b -> integral01 (fun p => core a b p ^ 4) (mk4 a b).
Proof using B.
  intros Na Nb Ha Hb.
  replace (mk4 a b) with (1 / a ^ 4 * (1 / (4 * a + 1)) + (1 / b ^ 4 * (1 / (4 * b + 1)) + (6 / (a * b) ^ 2 * g_beta s (2 * a + 1) (2 * b + 1)
      + (- (4 / (a ^ 3 * b)) * g_beta s (3 * a + 1) (b + 1) + - (4 / (a * b ^ 3)) * g_beta s (a + 1) (3 * b + 1)))))
    by (unfold mk4; field; repeat split; lra).
  eapply int_ext; [intros; symmetry; apply core_4; assumption|].
  apply int_plus; [|apply int_plus; [|apply int_plus; [|apply int_plus]]]; apply int_scal; [apply int_power|apply int_power'|apply B|apply B|apply B]; lra.
Qed.
Lemma is0_n x : x <> 0 -> is0 x = false.
Proof using. intros N. unfold is0. destruct (Req_EM_T x 0); [contradiction|reflexivity]. Qed.
Lemma is0_0 : is0 0 = true.
Proof using. unfold is0. destruct (Req_EM_T 0 0); [reflexivity|contradiction]. Qed.
Lemma get_mk_1 a b : a <> 0 -> b <> 0 -> get_mk s 1 a b = Ok (mk1 a b).
Proof using. intros Na Nb. unfold get_mk. rewrite !is0_n by assumption. cbn [andb negb]. destruct (Req_EM_T a b) as [->|]; [f_equal; unfold mk1; ring|reflexivity]. Qed.
Lemma get_mk_2 a b : a <> 0 -> b <> 0 -> get_mk s 2 a b = Ok (mk2 a b).
Proof using. intros Na Nb. unfold get_mk. rewrite !is0_n by assumption. reflexivity. Qed.
Lemma get_mk_3 a b : a <> 0 -> b <> 0 -> get_mk s 3 a b = Ok (mk3 a b).
Proof using B.
  intros Na Nb. unfold get_mk. rewrite !is0_n by assumption. cbn [andb negb]. destruct (Req_EM_T a b) as [->|]; [|reflexivity]. f_equal. unfold mk3. destruct B as [_ Y]. rewrite (Y (2 * b + 1) (b + 1)). replace (b ^ 2 * b) with (b * b ^ 2) by ring. ring.
Qed.
Lemma get_mk_4 a b : a <> 0 -> b <> 0 -> get_mk s 4 a b = Ok (mk4 a b).
Proof using. intros Na Nb. unfold get_mk. rewrite !is0_n by assumption. reflexivity. Qed.
Lemma get_ms_n a b : a <> 0 -> b <> 0 -> get_ms s a b = (mk1 a b, mk2 a b, mk3 a b, mk4 a b).
Proof using. intros Na Nb. unfold get_ms. rewrite !is0_n by assumption. reflexivity. Qed.
Lemma ms_zero_ok L sign m1 : ms_zero s L sign m1 = (m1, vk_M2_zero s L, vk_M3_zero s L sign, vk_M4_zero s L).
Proof using. reflexivity. Qed.
(** GetMs is GetMk for the four orders. *)
Lemma get_ms_mk a b : let '(m1, m2, m3, m4) := get_ms s a b in get_mk s 1 a b = Ok m1 /\ get_mk s 2 a b = Ok m2 /\ get_mk s 3 a b = Ok m3 /\ get_mk s 4 a b = Ok m4.
Proof using B.
  destruct (Req_EM_T a 0) as [->|Na], (Req_EM_T b 0) as [->|Nb].
  - unfold get_ms, get_mk. rewrite is0_0. cbn [andb negb]. destruct (Req_EM_T 0 0); [auto|contradiction].
  - unfold get_ms, get_mk. rewrite is0_0, is0_n by assumption. cbn [andb negb]. rewrite ms_zero_ok. destruct (Req_EM_T 0 b) as [E|]; [symmetry in E; contradiction|auto].
  - unfold get_ms, get_mk. rewrite is0_0, is0_n by assumption. cbn [andb negb]. rewrite ms_zero_ok. destruct (Req_EM_T a 0) as [E|]; [contradiction|auto].
  - rewrite get_ms_n, get_mk_1, get_mk_2, get_mk_3, get_mk_4 by assumption. auto.
Qed.
End Beta.
