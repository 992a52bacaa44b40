(** Property C79: the skewness. *)
From Verif Require Import Num DescRealModel DescSpec DescProofs.
From Coq Require Import Reals Lra Lia.
Local Open Scope R_scope.

(** Skewness: (m3/n) / (m2/n)^(3/2) of the population, n / ((n-1)(n-2)) * m3 / s^3 with the sample deviation s. *)
Definition skew_pop (n m2 m3 : R) : R := m3 / n / (sqrt (m2 / n)) ^ 3.
Definition skew_sample (n m2 m3 : R) : R := n / ((n - 1) * (n - 2)) * (m3 / (sqrt (m2 / (n - 1))) ^ 3).

Lemma sqrt_cube x : 0 < x -> Rpower x (15 / 10) = sqrt x ^ 3.
Proof.
  intros H. replace (15 / 10) with (1 + / 2) by lra. rewrite Rpower_plus, Rpower_1, Rpower_sqrt by auto.
  rewrite <- (sqrt_sqrt x) at 1 by lra. ring.
Qed.
Theorem c79_skewness (sample : bool) (l : list Qc) : (3 <= length l)%nat -> (Z.of_nat (length l) <= 46340)%Z -> 0 < real (dev 2 l) ->
  skewness sample l = Ok (Some ((if sample then skew_sample else skew_pop) (IZR (Z.of_nat (length l))) (real (dev 2 l)) (real (dev 3 l)))).
Proof.
  intros H L D. unfold skewness. pose proof (mvks_ok l [] L) as E. cbn [app length] in E.
  change (sums_of []) with (Sums 0%Qc 0%Qc 0%Qc 0%Qc) in E. change (Z.of_nat 0) with 0%Z in E.
  destruct l as [|x t]; [cbn in H; lia|]. set (l := x :: t) in *. rewrite E. cbn [bind sums_of d_m2 d_m3].
  destruct (Z.ltb_spec 2 (Z.of_nat (length l))); [|lia]. do 2 f_equal.
  set (n := Z.of_nat (length l)) in *. set (a := real (dev 2 l)) in *. set (b := real (dev 3 l)).
  assert (N : 3 <= IZR n) by (apply IZR_le; lia). unfold skew_formula. rewrite !minus_IZR. remember (IZR n) as k. clearbody a b. clear - N D.
  destruct sample.
  - unfold skew_sample. assert (P : 0 < a / (k - 1)) by (apply Rdiv_lt_0_compat; lra). remember (sqrt (a / (k - 1))) as s.
    assert (Hs : 0 < s) by (subst s; apply sqrt_lt_R0; auto). assert (Ea : a = s * s * (k - 1)).
    { subst s. rewrite sqrt_sqrt by lra. field. lra. }
    rewrite Ea. field. repeat split; lra.
  - unfold skew_pop. rewrite sqrt_cube by auto. rewrite sqrt_div_alt by lra.
    remember (sqrt a) as s. remember (sqrt k) as r. assert (Hs : 0 < s) by (subst s; apply sqrt_lt_R0; auto). assert (Hr : 0 < r) by (subst r; apply sqrt_lt_R0; lra).
    assert (Ek : k = r * r) by (subst r; rewrite sqrt_sqrt; lra). rewrite Ek. field. split; lra.
Qed.
Print Assumptions c79_skewness.
(** Hypotheses: 1, 2, 3, 6. *)
Example c79_skewness_case : 0 < real (dev 2 (map qz [1; 2; 3; 6]%Z)).
Proof. replace (dev 2 (map qz [1; 2; 3; 6]%Z)) with (qz 14) by (apply Qc_is_canon; reflexivity). unfold real, Q2R. cbn. lra. Qed.
