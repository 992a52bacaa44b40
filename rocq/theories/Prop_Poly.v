(** C38: polynomials and matrix polynomials. *)
From Verif Require Import PolyModel PolySpec PolyProofs PolyProofs2 MPolyModel MPolySpec MatProofs MatProofs2 MPolyProofs MPolyProofs2 MPolyProofs3.
From Coq Require Import Lia.
Local Open Scope Qc_scope.
Ltac qeq := vm_compute; repeat first [apply Qc_is_canon; reflexivity | f_equal].

(** Multiplication: the coefficients of the product, at most [max] of them; the storage behind is kept, its old content
    does not matter. *)
Theorem c38_multiply (a b : list Qc) (storage : list Qc) (max : Z) (n : nat) :
  (1 <= length a)%nat -> (1 <= length b)%nat -> (1 <= max)%Z -> Z.of_nat n = Z.min (Z.of_nat (length a + length b - 1)) max -> (n <= length storage)%nat ->
  poly_mul a b storage max = Ok (truncated n (conv (coef a) (coef b))).
Proof.
  intros LA LB M1 EN L. assert (E : mul_size (degree a) (degree b) max = Z.of_nat n) by (unfold mul_size, degree; lia).
  unfold poly_mul. rewrite E, (mul_calc_ok _ _ _ _ _ n) by (auto; lia). cbn [bind fst snd]. rewrite Nat2Z.id, firstn_trunc_app. auto.
Qed.
Print Assumptions c38_multiply.
(** An object made for other degrees: an error if it is too small, else the same result. *)
Theorem c38_multiply_object (size : Z) (a b : list Qc) (storage : list Qc) (max : Z) (n : nat) :
  (1 <= length a)%nat -> (1 <= length b)%nat -> (1 <= max)%Z -> Z.of_nat n = Z.min (Z.of_nat (length a + length b - 1)) max -> (n <= length storage)%nat ->
  mul_calc size a b storage max =
    if (size <? Z.of_nat n)%Z then Throw else Ok (truncated n (conv (coef a) (coef b)) ++ skipn n storage, Z.of_nat n).
Proof.
  intros LA LB M1 EN L. assert (E : mul_size (degree a) (degree b) max = Z.of_nat n) by (unfold mul_size, degree; lia).
  destruct (Z.ltb_spec size (Z.of_nat n)) as [H|H]; [unfold mul_calc; rewrite E; destruct (Z.ltb_spec size (Z.of_nat n)); [auto|lia]|]. apply mul_calc_ok; auto.
Qed.
Print Assumptions c38_multiply_object.
(** Without truncation the value of the product is the product of the values. *)
Theorem c38_multiply_value (a b : list Qc) (storage : list Qc) (max : Z) (x : Qc) :
  (1 <= length a)%nat -> (1 <= length b)%nat -> (Z.of_nat (length a + length b - 1) <= max)%Z -> (length a + length b - 1 <= length storage)%nat ->
  exists r, poly_mul a b storage max = Ok r /\ length r = (length a + length b - 1)%nat /\ eval r x = eval a x * eval b x.
Proof.
  intros LA LB M1 L. eexists. split; [apply (c38_multiply _ _ _ _ (length a + length b - 1)); auto; lia|]. split; [apply truncated_length|apply eval_product; auto].
Qed.
Print Assumptions c38_multiply_value.
Example c38_multiply_case : poly_mul [qz 1; qz 2] [qz 3; qz 0; qz 1] [qz 9; qz 9; qz 9; qz 9] 100 = Ok [qz 3; qz 6; qz 1; qz 2] /\
  poly_mul [qz 1; qz 2] [qz 3; qz 0; qz 1] [qz 9; qz 9] 2 = Ok [qz 3; qz 6].
Proof. split; qeq. Qed.

(** Powers, if the polynomial itself is not longer than [max]. *)
Theorem c38_power_partial (a : list Qc) (p : nat) (storage work : list Qc) (max : Z) (n : nat) :
  (1 <= length a)%nat -> (1 <= max)%Z -> p = 0%nat \/ (Z.of_nat (length a) <= max)%Z ->
  Z.of_nat n = Z.min (Z.of_nat (p * (length a - 1) + 1)) max -> (n <= length storage)%nat ->
  (Z.to_nat (Z.min (Z.of_nat (length a - 1 + n)) max) <= length work)%nat ->
  poly_pow a p storage work max = Ok (truncated n (power (coef a) p)).
Proof.
  intros LA M1 HM EN L1 L2. unfold poly_pow.
  assert (E : pow_size (Z.of_nat p) (degree a) max = Z.of_nat n) by (rewrite EN; unfold pow_size, degree; rewrite Nat2Z.inj_add, Nat2Z.inj_mul, Nat2Z.inj_sub by auto; f_equal).
  assert (E2 : pow_work (Z.of_nat p) (degree a) max = Z.of_nat (Z.to_nat (Z.min (Z.of_nat (length a - 1 + n)) max))) by (unfold pow_work; rewrite E; unfold mul_size, degree; lia).
  rewrite E, E2. eapply pow_calc_ok; eauto; lia.
Qed.
Print Assumptions c38_power_partial.
Theorem c38_power_value (a : list Qc) (p : nat) (storage work : list Qc) (max : Z) (x : Qc) :
  (1 <= length a)%nat -> (1 <= p)%nat -> (Z.of_nat ((S p) * (length a - 1) + 1) <= max)%Z -> (p * (length a - 1) + 1 <= length storage)%nat -> ((S p) * (length a - 1) + 1 <= length work)%nat ->
  exists r, poly_pow a p storage work max = Ok r /\ length r = (p * (length a - 1) + 1)%nat /\ eval r x = qpow (eval a x) p.
Proof.
  intros LA P1 HM L1 L2. eexists. assert (Q : (length a - 1 <= p * (length a - 1))%nat) by (destruct p; [lia|]; cbn [Nat.mul]; apply Nat.le_add_r). cbn [Nat.mul] in HM, L2.
  split; [apply (c38_power_partial _ _ _ _ _ (p * (length a - 1) + 1)); auto; revert HM L1 L2 Q; generalize (p * (length a - 1))%nat; intros; lia|]. split; [apply truncated_length|apply eval_power; auto].
Qed.
Print Assumptions c38_power_value.
Example c38_power_case : poly_pow [qz 1; qz 2] 3 [qz 9; qz 9; qz 9; qz 9] [qz 9; qz 9; qz 9; qz 9; qz 9] 100 = Ok [qz 1; qz 6; qz 12; qz 8].
Proof. qeq. Qed.
(** A polynomial longer than [max] is copied whole to a storage of the declared size: always outside of it. *)
Theorem c38_power_refuted (a : list Qc) (p : nat) (storage work : list Qc) (max : Z) :
  (1 <= p)%nat -> (1 <= max)%Z -> (max < Z.of_nat (length a))%Z -> length storage = Z.to_nat (pow_size (Z.of_nat p) (degree a) max) -> poly_pow a p storage work max = UB.
Proof. exact (pow_calc_ub a p storage work max). Qed.
Print Assumptions c38_power_refuted.
Example c38_power_refuted_case : exists a storage, (2 < Z.of_nat (length a))%Z /\ length storage = Z.to_nat (pow_size 2 (degree a) 2) /\ poly_pow a 2 storage [] 2 = UB.
Proof. exists [qz 1; qz 2; qz 3], [qz 9; qz 9]. split; [reflexivity|]. split; reflexivity. Qed.

(** Trimming: zeros at the end are removed; an error if nothing is left. *)
Theorem c38_trim (d : list Qc) :
  ((forall k, coef d k = 0) -> poly_data d true = Throw) /\
  (~ (forall k, coef d k = 0) -> exists r, poly_data d true = Ok r /\ r <> [] /\ (forall k, coef r k = coef d k) /\ coef r (length r - 1) <> 0).
Proof.
  unfold poly_data. destruct (trim_len_ok d (length d)) as (k & E & K1 & K2 & K3); auto. rewrite E. cbn [bind]. split.
  - intros H. destruct K3 as [-> |K3]; [auto|]. exfalso. apply K3, H.
  - intros H. destruct (Nat.eqb_spec k 0) as [-> |NE].
    + exfalso. apply H. intros i. destruct (Nat.ltb_spec i (length d)); [apply K2; lia|apply coef_out; auto].
    + destruct K3 as [K3|K3]; [lia|]. assert (L : length (firstn k d) = k) by (rewrite firstn_length; lia).
      assert (C : forall i, coef (firstn k d) i = coef d i).
      { intros i. destruct (Nat.ltb_spec i k).
        - unfold coef. rewrite <- (firstn_skipn k d) at 2. rewrite app_nth1 by lia. auto.
        - rewrite coef_out by lia. symmetry. destruct (Nat.ltb_spec i (length d)); [apply K2; lia|apply coef_out; auto]. }
      exists (firstn k d). split; auto. split; [intros X; rewrite X in L; cbn in L; lia|]. split; auto. rewrite L, C. auto.
Qed.
Print Assumptions c38_trim.
Example c38_trim_case : poly_data [qz 0; qz 2; qz 0; qz 0] true = Ok [qz 0; qz 2] /\ poly_data [qz 0; qz 0] true = Throw.
Proof. split; reflexivity. Qed.

(** ** Matrix polynomials *)
Local Open Scope Z_scope.
(** Products with a new object: the coefficients of the product with a matrix polynomial and with a scalar one. *)
Theorem c38_matrix_multiply_partial (m : nat) (a b : list (mat Qc)) (storage : list Qc) (max : Z) (n : nat) (size : Z) :
  (1 <= m)%nat -> square_poly m a -> square_poly m b -> (1 <= length a)%nat -> (1 <= length b)%nat -> 1 <= max ->
  Z.of_nat n = Z.min (Z.of_nat (length a + length b - 1)) max -> (n * (m * m) <= length storage)%nat -> Z.of_nat n * Z.of_nat (m * m) <= size ->
  exists st, mm_calc size [] a b storage max = Ok (seq 0 n, st) /\ has_coefs m (mresult m (seq 0 n, st)) n (mconv m (mcoef a) (mcoef b)).
Proof. intros M1 QA QB LA LB MX EN L SZ. apply mm_calc_ok; auto. unfold mmul_len, mdegree. lia. Qed.
Print Assumptions c38_matrix_multiply_partial.
Theorem c38_scalar_multiply_partial (m : nat) (a : list (mat Qc)) (b : list Qc) (storage : list Qc) (max : Z) (n : nat) (size : Z) :
  square_poly m a -> (1 <= length a)%nat -> (1 <= length b)%nat -> 1 <= max ->
  Z.of_nat n = Z.min (Z.of_nat (length a + length b - 1)) max -> (n * (m * m) <= length storage)%nat -> Z.of_nat n * Z.of_nat (m * m) <= size ->
  exists st, ms_calc size [] a b storage max = Ok (seq 0 n, st) /\ has_coefs m (mresult m (seq 0 n, st)) n (sconv (mcoef a) (coef b)).
Proof. intros QA LA LB MX EN L SZ. apply ms_calc_ok; auto. unfold mmul_len, mdegree, degree. lia. Qed.
Print Assumptions c38_scalar_multiply_partial.
Definition ma : list (mat Qc) := [Mat 2 2 (map qz [1; 0; 2; 1]); Mat 2 2 (map qz [0; 1; 1; 3])].
Example c38_matrix_case : square_poly 2 ma /\ exists st, mm_calc 12 [] ma ma (repeat (qz 7) 12) 100 = Ok (seq 0 3, st) /\
  map (fun k => map (fun ij => mcoef (mresult 2 (seq 0 3, st)) k (fst ij) (snd ij)) [(0, 0); (1, 0); (0, 1); (1, 1)]) [0; 1; 2]%nat = map (map qz) [[1; 0; 4; 1]; [2; 2; 8; 8]; [1; 3; 3; 10]].
Proof. split; [repeat constructor; vm_compute; auto|]. eexists. split; [vm_compute; reflexivity|]. qeq. Qed.
(** A second Calculate with the same object appends to the coefficients of the first: the result has twice as many. *)
Theorem c38_matrix_reuse_refuted : exists a storage refs st refs2 st2, square_poly 1 a /\
  mm_calc 3 [] a a storage 100 = Ok (refs, st) /\ mm_calc 3 refs a a st 100 = Ok (refs2, st2) /\
  mdegree (mresult 1 (refs, st)) = 2 /\ mdegree (mresult 1 (refs2, st2)) = 5.
Proof.
  exists [Mat 1 1 [qz 1]; Mat 1 1 [qz 2]], (repeat (qz 0) 3). do 4 eexists. split; [repeat constructor|]. split; [vm_compute; reflexivity|]. split; [vm_compute; reflexivity|]. split; reflexivity.
Qed.
Print Assumptions c38_matrix_reuse_refuted.

(** Inversion with a new object: if LAPACK inverts the first coefficient, A * B = I up to the requested length. *)
Theorem c38_invert_partial (lapack : mat Qc -> list Qc -> list Qc * Z) (m : nat) (a : list (mat Qc)) (A0 : mat Qc) (g : Z -> Z -> Qc) (storage work : list Qc) (n : nat) :
  (1 <= m)%nat -> square_poly m a -> nth_error a 0 = Some A0 -> (1 <= n)%nat -> (n * (m * m) <= length storage)%nat -> (length a * (m * m) <= length work)%nat ->
  lapack_leaves lapack m A0 0 g -> right_inverse m A0 g ->
  exists st, minv lapack a storage work n = Ok (seq 0 n, st) /\ let B := mresult m (seq 0 n, st) in
    length B = n /\ square_poly m B /\
    forall k i j, (k < n)%nat -> 0 <= i < Z.of_nat m -> 0 <= j < Z.of_nat m -> mconv m (mcoef a) (mcoef B) k i j = mone k i j.
Proof.
  intros M1 QA E0 N1 L1 L2 HL HR. assert (LA : (1 <= length a)%nat) by (destruct a; [discriminate|cbn; lia]).
  unfold minv. rewrite (msize_square m a QA LA). cbn [bind].
  destruct (minv_calc_ok lapack (Z.of_nat n * Z.of_nat (m * m)) (Z.of_nat (length a) * Z.of_nat (m * m)) m a A0 0 g storage work n) as (st & E & L & B0 & BS); auto; try lia.
  exists st. split; auto. cbv zeta. split; [unfold mresult; rewrite map_length; apply seq_length|]. split; [apply (mresult_square m (seq 0 n) st n (Forall_seq_lt n)); lia|].
  intros k i j Hk Hi Hj.
  assert (X : same m (mconv m (mcoef a) (bel m st) k) (mone k)).
  { apply (inverse_series m a g (bel m st) n); auto. intros r c (H1 & H2). rewrite (mcoef_some _ _ _ E0). apply HR; auto. }
  rewrite <- X by (split; auto). unfold mconv. f_equal. apply map_ext_in. intros p Hp. apply in_seq in Hp. apply (product_ext m); [unfold same; auto| |split; auto].
  intros r c _. apply mresult_coef. apply nth_error_seq0. lia.
Qed.
Print Assumptions c38_invert_partial.
(** The inverse of a 2 x 2 matrix, written into the storage: an instance of the hypotheses. *)
Definition inv2 (A : mat Qc) (d : list Qc) : list Qc * Z :=
  match data A with
  | w :: x :: y :: z :: _ => let det := (w * z - x * y)%Qc in ([z / det; - x / det; - y / det; w / det]%Qc ++ skipn 4 d, 0)
  | _ => (d, 1)
  end.
Lemma inv2_leaves : forall a b c d, lapack_leaves inv2 2 (Mat 2 2 [a; b; c; d]) 0 (el (Mat 2 2 (fst (inv2 (Mat 2 2 [a; b; c; d]) [])))).
Proof.
  intros a b c d s Hs. destruct s as [|s0 [|s1 [|s2 [|s3 s]]]]; try (cbn in Hs; lia). eexists. split; [reflexivity|]. constructor; auto.
  - intros i j ((H1 & H2) & (H3 & H4)). unfold nrows, ncols in *. cbn [rows cols] in *. assert (i = 0 \/ i = 1) as [-> | ->] by lia; assert (j = 0 \/ j = 1) as [-> | ->] by lia; reflexivity.
  - intros k Hk. cbn [rows cols Nat.mul Nat.add] in Hk. do 4 (destruct k as [|k]; [lia|]). reflexivity.
Qed.
Example c38_invert_case : right_inverse 2 (Mat 2 2 (map qz [1; 0; 2; 1])) (el (Mat 2 2 (fst (inv2 (Mat 2 2 (map qz [1; 0; 2; 1])) [])))) /\
  exists st, minv inv2 ma (repeat (qz 7) 12) (repeat (qz 7) 8) 3 = Ok (seq 0 3, st) /\
    map (fun k => map (fun ij => mcoef (mresult 2 (seq 0 3, st)) k (fst ij) (snd ij)) [(0, 0); (1, 0); (0, 1); (1, 1)]) [0; 1; 2]%nat = map (map qz) [[1; 0; -2; 1]; [2; -1; 1; -1]; [-1; 1; -3; 2]].
Proof.
  split.
  - intros i j Hi Hj. assert (i = 0 \/ i = 1) as [-> | ->] by lia; assert (j = 0 \/ j = 1) as [-> | ->] by lia; qeq.
  - eexists. split; [vm_compute; reflexivity|]. qeq.
Qed.
(** A first coefficient that has no inverse is not reported: the info of Inv is not used. *)
Theorem c38_singular_refuted (lapack : mat Qc -> list Qc -> list Qc * Z) (m : nat) (a : list (mat Qc)) (A0 : mat Qc) (info : Z) (g : Z -> Z -> Qc) (storage work : list Qc) (n : nat) :
  (1 <= m)%nat -> square_poly m a -> nth_error a 0 = Some A0 -> (1 <= n)%nat -> (n * (m * m) <= length storage)%nat -> (length a * (m * m) <= length work)%nat ->
  info <> 0 -> lapack_leaves lapack m A0 info g -> (forall h, ~ right_inverse m A0 h) ->
  exists st, minv lapack a storage work n = Ok (seq 0 n, st).
Proof.
  intros M1 QA E0 N1 L1 L2 _ HL _. assert (LA : (1 <= length a)%nat) by (destruct a; [discriminate|cbn; lia]).
  unfold minv. rewrite (msize_square m a QA LA). cbn [bind].
  destruct (minv_calc_ok lapack (Z.of_nat n * Z.of_nat (m * m)) (Z.of_nat (length a) * Z.of_nat (m * m)) m a A0 info g storage work n) as (st & E & L & B0 & BS); auto; try lia. eauto.
Qed.
Print Assumptions c38_singular_refuted.
Example c38_singular_case : (forall h, ~ right_inverse 1 (Mat 1 1 [qz 0]) h) /\ lapack_leaves (fun _ d => (qz 0 :: skipn 1 d, 1)) 1 (Mat 1 1 [qz 0]) 1 (fun _ _ => qz 0) /\
  exists st, minv (fun _ d => (qz 0 :: skipn 1 d, 1)) [Mat 1 1 [qz 0]] [qz 5] [qz 5] 1 = Ok ([0%nat], st) /\ mcoef (mresult 1 ([0%nat], st)) 0 0 0 = qz 0.
Proof.
  split; [|split].
  - intros h H. specialize (H 0 0 ltac:(lia) ltac:(lia)). rewrite product_zero_l in H; [discriminate H|]. intros l. unfold el, entry. destruct (insideb _ 0 l); [|reflexivity].
    destruct (nth_error _ _) as [v|] eqn:E; [|reflexivity]. apply nth_error_In in E. destruct E as [<- |[]]. reflexivity.
  - intros d Hd. destruct d as [|x d]; [cbn in Hd; lia|]. eexists. split; [reflexivity|]. constructor; auto.
    + intros i j ((H1 & H2) & (H3 & H4)). unfold nrows, ncols in *. cbn [rows cols] in *. assert (i = 0) as -> by lia; assert (j = 0) as -> by lia. reflexivity.
    + intros k Hk. cbn [rows cols Nat.mul Nat.add] in Hk. destruct k as [|k]; [lia|]. reflexivity.
  - eexists. split; [vm_compute; reflexivity|]. qeq.
Qed.

(** IsMonic: the last coefficient is an identity matrix, up to 1e-8. *)
Theorem c38_monic (m : nat) (a : list (mat Qc)) (A : mat Qc) : square_poly m a -> nth_error a (length a - 1) = Some A ->
  exists b, is_monic a = Ok b /\ (b = true <-> forall i j, 0 <= i < Z.of_nat m -> 0 <= j < Z.of_nat m ->
    (iden i j - el A i j <= Q2Qc (1 # 100000000) /\ el A i j - iden i j <= Q2Qc (1 # 100000000))%Qc).
Proof.
  intros Q E. assert (LA : (0 < length a)%nat) by (destruct a; [discriminate|cbn; lia]). unfold is_monic. replace (Z.to_nat (mdegree a)) with (length a - 1)%nat by (unfold mdegree; lia). rewrite E.
  destruct (square_at m a (length a - 1) Q ltac:(lia)) as (A' & E' & W & R & C). rewrite E in E'. injection E' as <-.
  destruct (is_diagonal_ok A 1 0 monic_eps W) as (b & EB & B); [discriminate|unfold nrows, ncols; congruence|]. exists b. split; auto. rewrite B. unfold close, iden, inside, nrows, ncols. rewrite R, C. split; intros H i j; [intros; apply H; auto|intros (? & ?); apply H; auto].
Qed.
Print Assumptions c38_monic.
(** Trimming: zero matrices at the end are removed; an error if nothing is left. *)
Theorem c38_matrix_trim (a : list (mat Qc)) : Forall mat_ok a ->
  ((forall A, In A a -> zero_mat A) -> mpoly_data a true = Throw) /\
  (~ (forall A, In A a -> zero_mat A) -> exists r z A, mpoly_data a true = Ok (r ++ [A]) /\ a = (r ++ [A]) ++ z /\ ~ zero_mat A /\ Forall zero_mat z).
Proof.
  intros F. unfold mpoly_data. destruct (mtrim_len_ok a F (length a)) as (k & -> & K1 & K2 & K3); auto. cbn [bind]. split.
  - intros H. destruct K3 as [-> |(A & E & N)]; auto. exfalso. apply N, H. eapply nth_error_In; eauto.
  - intros H. destruct K3 as [-> |(A & E & N)].
    + exfalso. apply H. intros A HA. apply In_nth_error in HA as (i & Hi). apply (K2 i); auto. split; [lia|]. apply nth_error_Some. congruence.
    + assert (KP : k <> 0%nat). { intros ->. change (0 - 1)%nat with 0%nat in E. specialize (K2 0%nat A). apply N, K2; auto. split; [lia|]. apply nth_error_Some. congruence. }
      destruct (Nat.eqb_spec k 0); [lia|]. exists (firstn (k - 1) a), (skipn k a), A.
      assert (FE : firstn k a = firstn (k - 1) a ++ [A]).
      { replace k with (S (k - 1)) at 1 by lia. apply nth_error_split in E as (l1 & l2 & -> & L). rewrite <- L. replace (S (length l1)) with (length l1 + 1)%nat by lia. rewrite firstn_app_2. cbn. rewrite firstn_app, Nat.sub_diag, firstn_all. cbn. rewrite app_nil_r. auto. }
      split; [rewrite FE; auto|]. split; [rewrite <- FE; symmetry; apply firstn_skipn|]. split; auto. apply Forall_forall. intros B HB. apply In_nth_error in HB as (i & Hi). rewrite MatProofs6.nth_skipn in Hi. apply (K2 (k + i)%nat); auto. split; [lia|]. apply nth_error_Some. congruence.
Qed.
Print Assumptions c38_matrix_trim.
Example c38_monic_case : is_monic [Mat 1 1 [qz 5]; Mat 2 2 (map qz [1; 0; 0; 1])] = Ok true /\ is_monic ma = Ok false /\ mpoly_data [Mat 1 1 [qz 5]; Mat 1 1 [qz 0]] true = Ok [Mat 1 1 [qz 5]] /\ mpoly_data [Mat 1 1 [qz 0]] true = Throw.
Proof. repeat split; reflexivity. Qed.
