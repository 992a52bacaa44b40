(** The range of a column of a table of variables. *)
From Verif Require Import VarSpec ArrProofs ArrProofs2.
From Coq Require Import Lia ZifyBool.
Local Open Scope Z_scope.

Lemma nth_error_firstn' {A} (l : list A) : forall n i, (i < n)%nat -> nth_error (firstn n l) i = nth_error l i.
Proof. induction l as [|x l IH]; intros [|n] [|i] H; cbn; auto; try lia. apply IH. lia. Qed.
Lemma nth_error_skipn' {A} (l : list A) : forall n i, nth_error (skipn n l) i = nth_error l (n + i).
Proof. induction l as [|x l IH]; intros [|n] i; cbn; auto. destruct i; reflexivity. Qed.

Lemma slice_column {A} (d : list A) (n j k : nat) : (List.length d = n * k)%nat -> (j < k)%nat ->
  List.length (slice d (Z.of_nat n * Z.of_nat j) (Z.of_nat n * (Z.of_nat j + 1))) = n /\
  forall r, (r < n)%nat -> nth_error (slice d (Z.of_nat n * Z.of_nat j) (Z.of_nat n * (Z.of_nat j + 1))) r = nth_error d (j * n + r).
Proof.
  intros L H. unfold slice. replace (Z.to_nat (Z.of_nat n * (Z.of_nat j + 1) - Z.of_nat n * Z.of_nat j)) with n by lia.
  replace (Z.to_nat (Z.of_nat n * Z.of_nat j)) with (j * n)%nat by lia.
  assert (n * k - j * n >= n)%nat by nia.
  split; [rewrite firstn_length, skipn_length; lia|]. intros r Hr. rewrite nth_error_firstn' by auto. rewrite nth_error_skipn'. reflexivity.
Qed.

Theorem vs_range_exact V k (j : nat) : 0 < vs_nobs V -> Z.of_nat (List.length (vs_data V)) = vs_nobs V * Z.of_nat k -> (j < k)%nat ->
  exists s e m, vs_range V (Z.of_nat j) = Ok (s, e, m) /\
   ((s <= e /\ (exists x y, cell V j s = Some (Some x) /\ cell V j e = Some (Some y)) /\
      (forall r x, cell V j r = Some (Some x) -> s <= r <= e) /\
      (m = true <-> exists r, s < r < e /\ cell V j r = Some None)) \/
    (e < s /\ m = false /\ forall r x, cell V j r <> Some (Some x))).
Proof.
  intros Hn L Hj. unfold vs_range. set (n := Z.to_nat (vs_nobs V)). assert (EN : vs_nobs V = Z.of_nat n) by lia. rewrite EN in *.
  destruct (slice_column (vs_data V) n j k ltac:(lia) Hj) as (CL & CN). set (col := slice _ _ _) in *.
  replace (len col <? Z.of_nat n) with false by (unfold len; lia).
  assert (NE : col <> []) by (intros ->; cbn in CL; lia).
  assert (CELL : forall r x, cell V j r = Some x <-> 0 <= r /\ nth_error col (Z.to_nat r) = Some x).
  { intros r x. unfold cell. rewrite EN. destruct ((0 <=? r) && (r <? Z.of_nat n)) eqn:B.
    - rewrite Nat2Z.id, <- CN by lia. intuition lia.
    - split; [discriminate|]. intros (H1 & H2). assert (Z.to_nat r < List.length col)%nat by (apply nth_error_Some; congruence). lia. }
  destruct (range_exact col NE) as (r & m & E1 & E2 & H). unfold get_range, get_range_m in *.
  set (s := start_loop col) in *. set (e := end_loop col (List.length col)) in *.
  destruct (e <? s)%nat eqn:ES.
  - exists (Z.of_nat s), (Z.of_nat e), false. split; [reflexivity|]. right. split; [lia|]. split; auto.
    destruct H as [(a & b & _ & _ & V1 & _)|(H & _)].
    { rewrite <- E1 in V1. unfold is_not_valid, irange_make in V1. replace (Z.of_nat e <? Z.of_nat s) with true in V1 by lia. discriminate. }
    intros q x C. apply CELL in C. destruct C as (_ & C). apply (H (Z.to_nat q)). exists x. exact C.
  - destruct (missing_loop col s (e - s + 1)) as [m'| |]; try discriminate. cbn [bind] in E2 |- *.
    exists (Z.of_nat s), (Z.of_nat e), m'. split; [reflexivity|]. injection E2 as E2 ->.
    assert (ER : r = {| i_start := Z.of_nat s; i_end := Z.of_nat e |}).
    { rewrite <- E2. unfold irange_make. replace (_ || _) with false by lia. reflexivity. }
    rewrite ER in *. cbn [i_start i_end is_not_valid] in H. unfold is_not_valid in H. cbn [i_start i_end] in H.
    destruct H as [(a & b & ((x & F1) & F2) & ((y & L1) & L2) & _ & EA & EB & HM)|(_ & H & _)]; [|lia].
    assert (a = s) by lia. assert (b = e) by lia. subst a b. left. split; [lia|]. split.
    { exists x, y. rewrite !CELL, !Nat2Z.id. split; (split; [lia|]); auto. }
    split.
    { intros q z C. apply CELL in C. destruct C as (C1 & C2). assert (K : known col (Z.to_nat q)) by (exists z; exact C2).
      apply F2 in K as K1. apply L2 in K. lia. }
    rewrite HM. split.
    + intros (q & Hq & M). exists (Z.of_nat q). split; [lia|]. apply CELL. rewrite Nat2Z.id. split; [lia|exact M].
    + intros (q & Hq & C). apply CELL in C. destruct C as (C1 & C2). exists (Z.to_nat q). split; [lia|exact C2].
Qed.
