(** C105: standardization of the columns of a matrix. *)
From Coq Require Import Lia Sorted.
From Verif Require Import PcaProofs2.
From Verif Require Import DcProofs.
From Coq Require Import Lra.
Local Open Scope R_scope.

(** The columns that are kept, in their order, and those that are removed. *)
Theorem c105_kept rz center scale n k X z : (2 <= n)%nat -> standardize rz center scale None None n k X = Ok z ->
  StronglySorted lt (z_kept z) /\ StronglySorted lt (z_removed z) /\
  (forall j, In j (z_kept z) <-> (j < k)%nat /\ ~ (rz = true /\ scale = true /\ constant n (col X j))) /\
  (forall j, In j (z_removed z) <-> (j < k)%nat /\ rz = true /\ scale = true /\ constant n (col X j)).
Proof.
  intros N H. unfold standardize in H. destruct ((k =? 0) || (n =? 0))%nat%bool; [discriminate|].
  apply (f_equal (fun o => match o with Ok z => z | _ => z end)) in H; cbv beta iota zeta in H. subst z. cbn [z_kept z_removed].
  split; [apply filter_ascending|]. split; [apply filter_ascending|].
  assert (Q : forall j, (match (if scale then Some (cvar n X) else None) with Some v => (scale && rz && is_zero (v j))%bool | None => false end) = true
      <-> rz = true /\ scale = true /\ constant n (col X j)).
  { intros j. destruct scale, rz; cbn [andb]; try (split; [discriminate|intros (?&?&?); discriminate]).
    rewrite (is_zero_spec n X j N). intuition. }
  split; intros j; rewrite filter_In, in_seq.
  - rewrite Bool.negb_true_iff, <- Bool.not_true_iff_false, Q. intuition lia.
  - rewrite Q. intuition lia.
Qed.
Print Assumptions c105_kept.

(** Centered and scaled columns: an increasing linear function of the column with mean 0 and variance 1; NaN if the column is constant (and kept). *)
Theorem c105_standard rz n k X z j : (2 <= n)%nat -> standardize rz true true None None n k X = Ok z -> (j < length (z_kept z))%nat ->
  let x := col X (nth j (z_kept z) 0%nat) in
  (~ constant n x -> exists y, (forall i, z_val z i j = Some (y i)) /\ mean n y = 0 /\ variance n y = 1 /\ exists a b, 0 < a /\ forall i, y i = a * x i + b) /\
  (constant n x -> forall i, z_val z i j = None).
Proof.
  intros N H Hj x. unfold standardize in H. destruct ((k =? 0) || (n =? 0))%nat%bool; [discriminate|].
  apply (f_equal (fun o => match o with Ok z => z | _ => z end)) in H; cbv beta iota zeta in H.
  assert (V : forall i, z_val z i j = std_cell (Some (mean n x)) (Some (Some (variance n x))) (x i)).
  { intros i. subst z. cbn [z_val z_kept] in *. rewrite (cvar_variance n X _ N). reflexivity. }
  clearbody x. clear H. unfold std_cell in V. split; intros C.
  - destruct (Req_EM_T (variance n x) 0) as [E|E]. { apply (variance_zero n x N) in E. contradiction. }
    destruct (std_affine n x N C) as (A & B & P). exists (fun i => (x i - mean n x) / sqrt (variance n x)).
    split; [exact V|]. split; [exact A|]. split; [exact B|]. exists (/ sqrt (variance n x)), (- mean n x * / sqrt (variance n x)). split; [exact P|].
    intros i. unfold Rdiv. ring.
  - apply (variance_zero n x N) in C. destruct (Req_EM_T (variance n x) 0) as [E|E]; [exact V|contradiction].
Qed.
Print Assumptions c105_standard.

(** Only centered, only scaled, neither. *)
Theorem c105_parts rz center scale n k X z j : (2 <= n)%nat -> standardize rz center scale None None n k X = Ok z -> (j < length (z_kept z))%nat ->
  let x := col X (nth j (z_kept z) 0%nat) in
  (scale = false -> nth j (z_kept z) 0%nat = j /\ length (z_kept z) = k) /\
  ((scale = true -> ~ constant n x) -> forall i, z_val z i j = Some ((x i - (if center then mean n x else 0)) / (if scale then sqrt (variance n x) else 1))).
Proof.
  intros N H Hj x. pose proof (c105_kept _ _ _ _ _ _ _ N H) as K. unfold standardize in H. destruct ((k =? 0) || (n =? 0))%nat%bool; [discriminate|].
  apply (f_equal (fun o => match o with Ok z => z | _ => z end)) in H; cbv beta iota zeta in H. split.
  - intros ->. assert (E : z_kept z = seq 0 k). { subst z. cbn [z_kept]. apply filter_all. reflexivity. } rewrite E in *. rewrite seq_length in *. rewrite seq_nth by easy. auto.
  - intros C i. assert (V : z_val z i j = std_cell (if center then Some (mean n x) else None) (if scale then Some (Some (variance n x)) else None) (x i)).
    { subst z. cbn [z_val z_kept] in *. destruct center, scale; try rewrite (cvar_variance n X _ N); reflexivity. }
    rewrite V. unfold std_cell. destruct center, scale; try (f_equal; field).
    all: destruct (Req_EM_T (variance n x) 0) as [E|E]; [exfalso; apply (C eq_refl), (variance_zero n x N), E|].
    + reflexivity.
    + f_equal. rewrite Rminus_0_r. reflexivity.
Qed.
Print Assumptions c105_parts.

(** Units do not matter: the result for a_j x_j + b_j with a_j > 0 is the result for x_j. *)
Theorem c105_units rz n k X X' z z' (a b : vec) : (2 <= n)%nat -> (forall j, (j < k)%nat -> 0 < a j) ->
  (forall i j, (i < n)%nat -> (j < k)%nat -> X' i j = a j * X i j + b j) ->
  standardize rz true true None None n k X = Ok z -> standardize rz true true None None n k X' = Ok z' ->
  z_kept z' = z_kept z /\ z_removed z' = z_removed z /\ forall i j, (i < n)%nat -> (j < length (z_kept z))%nat -> z_val z' i j = z_val z i j.
Proof.
  intros N Pa HX H H'.
  assert (CV : forall j, (j < k)%nat -> variance n (col X' j) = a j * a j * variance n (col X j) /\ mean n (col X' j) = a j * mean n (col X j) + b j).
  { intros j Hj. rewrite <- (variance_affine n (col X j) (a j) (b j)), <- (mean_affine n (col X j) (a j) (b j)) by lia. split.
    - apply cov_ext; intros i Hi; apply HX; easy.
    - apply mean_ext; intros i Hi; apply HX; easy. }
  assert (Z : forall j, (j < k)%nat -> is_zero (cvar n X' j) = is_zero (cvar n X j)).
  { intros j Hj. rewrite !(cvar_variance n _ _ N). destruct (CV j Hj) as [E _]. cbn. rewrite E. pose proof (Pa j Hj).
    destruct (Req_EM_T (variance n (col X j)) 0) as [E0|E0], (Req_EM_T (a j * a j * variance n (col X j)) 0) as [E1|E1]; try reflexivity; exfalso.
    - apply E1. rewrite E0. ring. - apply Rmult_integral in E1. destruct E1 as [E1|E1]; [apply Rmult_integral in E1; lra|contradiction]. }
  unfold standardize in H, H'. destruct ((k =? 0) || (n =? 0))%nat%bool; [discriminate|].
  apply (f_equal (fun o => match o with Ok z => z | _ => z end)) in H, H'; cbv beta iota zeta in H, H'.
  assert (KE : z_kept z' = z_kept z). { subst z z'. cbn [z_kept]. apply filter_same. intros j Hj. apply in_seq in Hj. cbn. rewrite Z by lia. reflexivity. }
  split; [exact KE|]. split. { subst z z'. cbn [z_removed]. apply filter_same. intros j Hj. apply in_seq in Hj. cbn. rewrite Z by lia. reflexivity. }
  intros i j Hi Hj. assert (Hc : (nth j (z_kept z) 0 < k)%nat).
  { pose proof (nth_In (z_kept z) 0%nat Hj) as I. subst z. cbn [z_kept] in I. apply filter_In in I. destruct I as [I _]. apply in_seq in I. destruct I as [_ I]. exact I. }
  assert (V : z_val z i j = std_cell (Some (cmean n X (nth j (z_kept z) 0%nat))) (Some (cvar n X (nth j (z_kept z) 0%nat))) (X i (nth j (z_kept z) 0%nat))).
  { subst z. reflexivity. }
  assert (V' : z_val z' i j = std_cell (Some (cmean n X' (nth j (z_kept z') 0%nat))) (Some (cvar n X' (nth j (z_kept z') 0%nat))) (X' i (nth j (z_kept z') 0%nat))).
  { subst z'. reflexivity. }
  rewrite V, V', KE. set (c := nth j (z_kept z) 0%nat) in *. clearbody c. clear - N Pa HX CV Hi Hc.
  destruct (CV c Hc) as [Ev Em]. rewrite !(cvar_variance n _ _ N). unfold std_cell. change (cmean n X' c) with (mean n (col X' c)). change (cmean n X c) with (mean n (col X c)).
  rewrite Ev, Em, (HX i c Hi Hc). pose proof (Pa c Hc) as P.
  destruct (Req_EM_T (variance n (col X c)) 0) as [E0|E0], (Req_EM_T (a c * a c * variance n (col X c)) 0) as [E1|E1]; try reflexivity.
  - exfalso; apply E1; rewrite E0; ring.
  - exfalso; apply Rmult_integral in E1; destruct E1 as [E1|E1]; [apply Rmult_integral in E1; lra|contradiction].
  - f_equal. pose proof (variance_nonneg n (col X c) N) as V0. assert (V1 : 0 < variance n (col X c)) by (destruct V0; [easy|exfalso; apply E0; lra]).
    rewrite sqrt_mult by nra. rewrite sqrt_square by lra. pose proof (sqrt_lt_R0 _ V1). field. lra.
Qed.
Print Assumptions c105_units.

(** Other rows are standardized with the means and variances of the first data: the same columns stay, with the same linear functions. *)
Theorem c105_override rz center scale n k X z nf G : (2 <= n)%nat -> (0 < nf)%nat -> standardize rz center scale None None n k X = Ok z ->
  exists zf, standardize rz center scale (z_means z) (z_vars z) nf k G = Ok zf /\ z_kept zf = z_kept z /\ z_removed zf = z_removed z /\
    (forall i i' j, (j < length (z_kept z))%nat -> G i' (nth j (z_kept z) 0%nat) = X i (nth j (z_kept z) 0%nat) -> z_val zf i' j = z_val z i j) /\
    (forall i j, (j < length (z_kept z))%nat -> let x := col X (nth j (z_kept z) 0%nat) in (scale = true -> ~ constant n x) ->
      z_val zf i j = Some ((G i (nth j (z_kept z) 0%nat) - (if center then mean n x else 0)) / (if scale then sqrt (variance n x) else 1))).
Proof.
  intros N Nf H. destruct (standardize_ok _ _ _ _ _ _ _ _ _ H) as [_ Hk]. destruct (standardize_def rz center scale (z_means z) (z_vars z) nf k G Nf Hk) as [zf Ef]. exists zf. split; [exact Ef|].
  unfold standardize in H, Ef. destruct ((k =? 0) || (n =? 0))%nat%bool; [discriminate|]. destruct ((k =? 0) || (nf =? 0))%nat%bool; [discriminate|].
  apply (f_equal (fun o => match o with Ok z => z | _ => z end)) in H, Ef; cbv beta iota zeta in H, Ef.
  assert (KE : z_kept zf = z_kept z) by (subst zf; subst z; destruct center, scale; reflexivity).
  assert (RE : z_removed zf = z_removed z) by (subst zf; subst z; destruct center, scale; reflexivity).
  split; [exact KE|]. split; [exact RE|].
  assert (V : forall i j, z_val z i j = std_cell (if center then Some (cmean n X (nth j (z_kept z) 0%nat)) else None) (if scale then Some (cvar n X (nth j (z_kept z) 0%nat)) else None) (X i (nth j (z_kept z) 0%nat))).
  { intros; subst z. destruct center, scale; reflexivity. }
  assert (Vf : forall i j, z_val zf i j = std_cell (if center then Some (cmean n X (nth j (z_kept z) 0%nat)) else None) (if scale then Some (cvar n X (nth j (z_kept z) 0%nat)) else None) (G i (nth j (z_kept z) 0%nat))).
  { intros; rewrite <- KE; subst zf; subst z. destruct center, scale; reflexivity. }
  split.
  - intros i i' j Hj E. rewrite V, Vf, E. reflexivity.
  - intros i j Hj x C. rewrite Vf. change (cmean n X (nth j (z_kept z) 0%nat)) with (mean n x). rewrite (cvar_variance n X _ N). fold x. clearbody x. unfold std_cell.
    destruct center, scale; try (f_equal; field).
    all: destruct (Req_EM_T (variance n x) 0) as [E|E]; [exfalso; apply (C eq_refl), (variance_zero n x N), E|].
    + reflexivity.
    + f_equal; rewrite Rminus_0_r; reflexivity.
Qed.
Print Assumptions c105_override.

(** Empty data is refused. *)
Theorem c105_empty rz center scale om ov n k X : (n = 0 \/ k = 0)%nat <-> standardize rz center scale om ov n k X = Throw.
Proof.
  split; [apply standardize_throw|]. intros H. destruct n as [|n]; [left; reflexivity|]. destruct k as [|k]; [right; reflexivity|].
  unfold standardize in H. cbn in H. discriminate H.
Qed.
Print Assumptions c105_empty.

(** A single row: every column is constant, but none is removed, and all of Result is NaN. *)
Theorem c105_one_row_refuted : forall X, exists z, standardize true true true None None 1 2 X = Ok z /\ z_removed z = [] /\ z_kept z = [0; 1]%nat /\
  (forall j, constant 1 (col X j)) /\ forall i j, z_val z i j = None.
Proof. intros X. eexists. split; [reflexivity|]. cbn. repeat split. intros j a b Ha Hb. replace a with b by lia. reflexivity. Qed.
Print Assumptions c105_one_row_refuted.

(** The columns 1, 1, 1 and 1, 2, 3. *)
Definition ex_X : mtx := fun i j => if (j =? 0)%nat then 1 else INR (i + 1).
Lemma ex_const : constant 3 (col ex_X 0). Proof. intros i j _ _. reflexivity. Qed.
Lemma ex_not_const : ~ constant 3 (col ex_X 1). Proof. intros C. pose proof (C 0%nat 1%nat ltac:(lia) ltac:(lia)) as E. unfold col, ex_X in E. cbn in E. lra. Qed.
Example c105_ex : exists z, standardize true true true None None 3 2 ex_X = Ok z /\ z_kept z = [1]%nat /\ z_removed z = [0]%nat /\ z_val z 0 0 = Some (-1) /\ z_val z 1 0 = Some 0 /\ z_val z 2 0 = Some 1.
Proof.
  destruct (standardize_def true true true None None 3 2 ex_X ltac:(lia) ltac:(lia)) as [z E]. exists z. split; [exact E|].
  assert (KE : z_kept z = [1]%nat /\ z_removed z = [0]%nat).
  { unfold standardize in E. cbn [Nat.eqb orb] in E. apply (f_equal (fun o => match o with Ok z => z | _ => z end)) in E; cbv beta iota zeta in E. subst z. cbn [z_kept z_removed seq filter].
    pose proof (proj2 (is_zero_spec 3 ex_X 0 ltac:(lia)) ex_const) as A.
    assert (B : is_zero (cvar 3 ex_X 1) = false). { apply Bool.not_true_iff_false. intros Q. apply (is_zero_spec 3 ex_X 1 ltac:(lia)) in Q. apply ex_not_const, Q. }
    rewrite A, B. split; reflexivity. }
  destruct KE as [K R]. split; [exact K|]. split; [exact R|].
  assert (C : constant 3 (col ex_X (nth 0 (z_kept z) 0%nat)) -> False) by (rewrite K; exact ex_not_const).
  pose proof (proj2 (c105_parts true true true 3 2 ex_X z 0 ltac:(lia) E ltac:(rewrite K; cbn; lia)) (fun _ => C)) as V. rewrite K in V. cbn [nth] in V.
  assert (M : mean 3 (col ex_X 1) = 2). { unfold mean, col, ex_X. cbn. field. }
  assert (W : variance 3 (col ex_X 1) = 1). { unfold variance, cov. rewrite M. unfold col, ex_X. cbn. field. }
  rewrite M, W, sqrt_1 in V. repeat split; rewrite V; f_equal; unfold col, ex_X; cbn; field.
Qed.
