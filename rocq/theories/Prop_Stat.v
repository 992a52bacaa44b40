(** Properties C58 (ranks), C83 (ordinary least squares), C84 (generalized least squares). *)
From Verif Require Import Num StatModel StatSpec MatProofs MatDotProofs DataProofs StatProofs LsProofs OlsProofs.
From Coq Require Import Lia ZifyBool.
Local Open Scope Z_scope.

Ltac qeq := vm_compute; repeat first [apply Qc_is_canon; reflexivity | f_equal].

(** ** C58 *)
(** The rank of an element is the number of smaller (larger) elements of its column. *)
Theorem c58_rank dr dc (M : mat Qc) work storage (asc : bool) : mat_ok M -> mlength M <= dr * dc ->
  mlength M <= Z.of_nat (length work) -> mlength M <= Z.of_nat (length storage) ->
  exists R, rank dr dc M work storage asc = Ok R /\ has (rows M) (cols M) (fun i j => qz (rank_of asc (el M i j) (col_of M j))) R.
Proof.
  intros W D Hw Hs. destruct (rank_ok asc dr dc M work storage W D Hw Hs) as (R & E & B). exists R. split; auto.
  refine (becomes_has (Mat (rows M) (cols M) storage) R _ _ _ B _); auto. unfold mat_ok. cbn. unfold mlength, nrows, ncols in Hs. lia.
Qed.
Print Assumptions c58_rank.
(** So equal values have equal ranks, and an element has the smaller rank exactly if it is smaller (ascending). *)
Theorem c58_order (asc : bool) (l : list Qc) x y : In x l -> In y l ->
  (rank_of asc x l = rank_of asc y l <-> x = y) /\ (rank_of asc x l < rank_of asc y l <-> if asc then (x < y)%Qc else (y < x)%Qc).
Proof.
  intros Hx Hy.
  assert (Mono : forall (p q : Qc -> bool) l, (forall z, p z = true -> q z = true) -> (length (filter p l) <= length (filter q l))%nat).
  { intros p q l0 H. induction l0 as [|z t IH]; cbn [filter]; auto. destruct (p z) eqn:P; [rewrite (H z P); cbn; lia|]. destruct (q z); cbn; lia. }
  assert (Strict : forall (p q : Qc -> bool) l w, (forall z, p z = true -> q z = true) -> In w l -> p w = false -> q w = true -> (length (filter p l) < length (filter q l))%nat).
  { intros p q l0 w H. induction l0 as [|z t IH]; intros Hw P Q; [contradiction|]. cbn [filter]. specialize (Mono p q t H). destruct Hw as [->|Hw].
    - rewrite P, Q. cbn. lia.
    - specialize (IH Hw P Q). destruct (p z) eqn:Pz; [rewrite (H z Pz); cbn; lia|]. destruct (q z); cbn; lia. }
  assert (Up : forall a b, In a l -> (a < b)%Qc -> (smaller a l < smaller b l)%nat).
  { intros a b Ha L. unfold smaller. apply (Strict _ _ l a); auto.
    - intros z. destruct (qltb_spec z a), (qltb_spec z b); auto; try discriminate; exfalso; qlra.
    - destruct (qltb_spec a a); auto; exfalso; qlra.
    - destruct (qltb_spec a b); auto. }
  assert (Dn : forall a b, In b l -> (a < b)%Qc -> (larger b l < larger a l)%nat).
  { intros a b Hb L. unfold larger. apply (Strict _ _ l b); auto.
    - intros z. destruct (qltb_spec b z), (qltb_spec a z); auto; try discriminate; exfalso; qlra.
    - destruct (qltb_spec b b); auto; exfalso; qlra.
    - destruct (qltb_spec a b); auto. }
  unfold rank_of. destruct (Qc_dec x y) as [[L|L]| ->].
  - assert (U := Up x y Hx L). assert (D := Dn x y Hy L). destruct asc; (split; split); intros K; try lia; try (subst; exfalso; qlra); auto; exfalso; qlra.
  - assert (U := Up y x Hy L). assert (D := Dn y x Hx L). destruct asc; (split; split); intros K; try lia; try (subst; exfalso; qlra); auto; exfalso; qlra.
  - destruct asc; (split; split); intros K; auto; try lia; exfalso; qlra.
Qed.
Print Assumptions c58_order.
(** Ranks do not change under a strictly increasing transformation of the data. *)
Theorem c58_monotone dr dc (M M2 : mat Qc) work storage asc (f : Qc -> Qc) R R2 : mat_ok M -> mat_ok M2 -> rows M2 = rows M -> cols M2 = cols M ->
  mlength M <= dr * dc -> mlength M <= Z.of_nat (length work) -> mlength M <= Z.of_nat (length storage) ->
  (forall x y, (x < y)%Qc -> (f x < f y)%Qc) -> (forall i j, inside M i j -> el M2 i j = f (el M i j)) ->
  rank dr dc M work storage asc = Ok R -> rank dr dc M2 work storage asc = Ok R2 -> forall i j, inside M i j -> el R2 i j = el R i j.
Proof.
  intros W W2 R0 C0 D Hw Hs F E H1 H2 i j (Hi & Hj).
  destruct (c58_rank dr dc M work storage asc W D Hw Hs) as (R' & E1 & _ & _ & _ & P1). rewrite E1 in H1. injection H1 as <-.
  assert (LL : mlength M2 = mlength M) by (unfold mlength, nrows, ncols; rewrite R0, C0; auto).
  destruct (c58_rank dr dc M2 work storage asc W2) as (R2' & E2 & _ & _ & _ & P2); try lia. rewrite E2 in H2. injection H2 as <-.
  rewrite P1, P2 by (rewrite ?R0, ?C0; auto). f_equal.
  assert (Ec : col_of M2 j = map f (col_of M j)).
  { unfold col_of, nrows. rewrite R0, map_map. apply map_ext_in. intros t Ht. apply E. split; auto. apply in_upto in Ht. auto. }
  assert (Fl : forall x y, qltb (f x) (f y) = qltb x y).
  { intros x y. destruct (qltb_spec x y) as [L|L]; destruct (qltb_spec (f x) (f y)) as [K|K]; auto; exfalso.
    destruct (Qc_dec x y) as [[L2|L2]| ->]; [qlra|specialize (F y x L2); qlra|qlra]. }
  rewrite Ec, E by (split; auto). unfold rank_of. f_equal. clear - Fl.
  destruct asc; unfold smaller, larger; induction (col_of M j) as [|z t IH]; cbn [map filter]; auto; rewrite Fl; match goal with |- context[qltb ?a ?b] => destruct (qltb a b) end; cbn [length]; auto.
Qed.
Print Assumptions c58_monotone.
(** A matrix with more elements than declared is refused. *)
Theorem c58_size dr dc (M : mat Qc) work storage asc : dr * dc < mlength M -> rank dr dc M work storage asc = Throw.
Proof. intros H. unfold rank. destruct (Z.ltb_spec (dr * dc) (mlength M)); [auto|lia]. Qed.
Print Assumptions c58_size.
Example c58_ex : exists R, rank 4 2 (Mat 4 2 (map qz [32; 12; 32; 5;  1; 2; 3; 4])) (repeat 0%Qc 8) (repeat 0%Qc 8) true = Ok R /\ data R = map qz [2; 1; 2; 0;  0; 1; 2; 3].
Proof. eexists. split; [vm_compute; reflexivity|]. qeq. Qed.

(** ** C83 *)
(** LAPACK for 2 x 2 matrices, for the examples: it meets the contract. *)
Definition lapack2 (M : mat Qc) : list Qc * Z :=
  match rows M, cols M, data M with
  | 2%nat, 2%nat, a :: b :: c :: e :: r =>
      let det := (a * e - b * c)%Qc in
      if qeqb det 0 then (data M, 1) else ((e / det :: - b / det :: - c / det :: a / det :: r)%Qc, 0)
  | _, _, _ => (data M, 1)
  end.
Lemma product2 a b i j : product 2 a b i j = (a i 0%Z * b 0%Z j + a i 1%Z * b 1%Z j)%Qc.
Proof. unfold product. change (upto 2) with [0; 1]. cbn [map qsum fold_right]. unfold qsum. cbn [fold_right]. ring. Qed.
Lemma el2_00 a b c e r : el (Mat 2 2 (a :: b :: c :: e :: r)) 0 0 = a. Proof. reflexivity. Qed.
Lemma el2_10 a b c e r : el (Mat 2 2 (a :: b :: c :: e :: r)) 1 0 = b. Proof. reflexivity. Qed.
Lemma el2_01 a b c e r : el (Mat 2 2 (a :: b :: c :: e :: r)) 0 1 = c. Proof. reflexivity. Qed.
Lemma el2_11 a b c e r : el (Mat 2 2 (a :: b :: c :: e :: r)) 1 1 = e. Proof. reflexivity. Qed.
Lemma lapack2_sound : lapack_sound lapack2.
Proof.
  intros M d W Sq. unfold lapack2. destruct M as [r c l]. unfold nrows, ncols in *. cbn [rows cols data] in *. destruct r as [|[|[|]]]; try (intros [= _ K]; discriminate K).
  destruct c as [|[|[|]]]; try (intros [= _ K]; discriminate K). destruct l as [|a [|b [|c [|e r]]]]; try (intros [= _ K]; discriminate K).
  destruct (qeqb_spec (a * e - b * c)%Qc 0%Qc) as [K|K]; intros [= <-]. split; [reflexivity|]. unfold nrows, with_data. cbn [rows cols]. change (Z.of_nat 2) with 2.
  intros i j Hi Hj. cbn in Hi, Hj. assert (Ei : i = 0 \/ i = 1) by lia. assert (Ej : j = 0 \/ j = 1) by lia. destruct Ei as [-> | ->]; destruct Ej as [-> | ->]; (split; rewrite product2, ?el2_00, ?el2_10, ?el2_01, ?el2_11; unfold iden; cbn [Z.eqb Pos.eqb]; field; auto).
Qed.
Lemma lapack2_complete : lapack_complete 2 lapack2.
Proof.
  intros M g W R C Inv. unfold lapack2. destruct M as [r c l]. unfold nrows, ncols in *. cbn [rows cols data] in *. assert (r = 2%nat) by lia. assert (c = 2%nat) by lia. subst.
  unfold mat_ok in W. cbn in W. destruct l as [|a [|b [|c [|e r]]]]; cbn in W; try lia.
  destruct (qeqb_spec (a * e - b * c)%Qc 0%Qc) as [K|K]; [|reflexivity]. exfalso.
  destruct (Inv 0 0 ltac:(lia) ltac:(lia)) as (A & _), (Inv 0 1 ltac:(lia) ltac:(lia)) as (B & _), (Inv 1 0 ltac:(lia) ltac:(lia)) as (C' & _), (Inv 1 1 ltac:(lia) ltac:(lia)) as (D & _).
  rewrite product2 in A, B, C', D. rewrite el2_00, el2_01 in A, B. rewrite el2_10, el2_11 in C', D.
  assert (X : ((a * e - b * c) * (g 0%Z 0%Z * g 1%Z 1%Z - g 0%Z 1%Z * g 1%Z 0%Z))%Qc = 1%Qc).
  { transitivity ((a * g 0%Z 0%Z + c * g 1%Z 0%Z) * (b * g 0%Z 1%Z + e * g 1%Z 1%Z) - (a * g 0%Z 1%Z + c * g 1%Z 1%Z) * (b * g 0%Z 0%Z + e * g 1%Z 0%Z))%Qc; [ring|]. rewrite A, B, C', D. unfold iden. cbn [Z.eqb Pos.eqb]. ring. }
  rewrite K, Qcmult_0_l in X. discriminate X.
Qed.

(** Whenever Calculate returns, the coefficients solve the normal equations X'(Y - XB) = 0, they are the only solution, and
    no other coefficients have a smaller sum of squared residuals in any equation. *)
Theorem c83_ols lapack d (N m k : nat) y x storage work F : lapack_sound lapack -> mat_ok y -> mat_ok x ->
  rows y = N -> rows x = N -> cols y = m -> cols x = k -> (0 < k)%nat -> (0 < m)%nat -> (k <= N)%nat ->
  fit_storage (OD (Z.of_nat N) (Z.of_nat m) (Z.of_nat k) (with_resid d) (o_sigma d) false) <= Z.of_nat (length storage) ->
  ols_work (OD (Z.of_nat N) (Z.of_nat m) (Z.of_nat k) (with_resid d) (o_sigma d) false) <= Z.of_nat (length work) ->
  ols_calculate lapack d y x storage work = Ok F ->
  let b := el (f_beta F) in let n := Z.of_nat N in let kz := Z.of_nat k in
  (rows (f_beta F) = k /\ cols (f_beta F) = m) /\
  (forall i j, 0 <= i < kz -> 0 <= j < Z.of_nat m -> sum_to n (fun t => el x t i * residual kz (el y) (el x) b t j)%Qc = 0%Qc) /\
  (forall c j, 0 <= j < Z.of_nat m -> (forall i, 0 <= i < kz -> sum_to n (fun t => el x t i * residual kz (el y) (el x) c t j)%Qc = 0%Qc) -> forall i, 0 <= i < kz -> c i j = b i j) /\
  (forall c j, 0 <= j < Z.of_nat m -> (ssr n kz (el y) (el x) b j <= ssr n kz (el y) (el x) c j)%Qc).
Proof.
  intros Sd Wy Wx Ry Rx Cy Cx Pk Pm Kn St Wk E b n kz. destruct (ols_calc lapack d N m k y x storage work Sd Wy Wx Ry Rx Cy Cx Pk Pm Kn St Wk F E) as (g & Inv & ((B1 & B2 & _ & _) & _) & Bt).
  assert (Ne : forall i j, 0 <= i < kz -> 0 <= j < Z.of_nat m -> sum_to n (fun t => el x t i * residual kz (el y) (el x) b t j)%Qc = 0%Qc).
  { intros i j Hi Hj. apply (normal_equations n kz (el_t x) (el x) g); auto. intros i' l Hi' Hl. apply Inv; auto. }
  split; auto. split; [auto|split].
  - intros c j Hj Hc i Hi. apply (normal_unique n kz (el_t x) (el x) g (el y) c b j); [intros i' l Hi' Hl; apply Inv; auto|exact Hc|intros i' Hi'; exact (Ne i' j Hi' Hj)|auto].
  - intros c j Hj. apply ssr_min. intros i Hi. apply Ne; auto.
Qed.
Print Assumptions c83_ols.
(** The residuals and their products, if asked for. (Sigma is R'R: it is not divided by a number of observations.) *)
Theorem c83_resid lapack d (N m k : nat) y x storage work F : lapack_sound lapack -> mat_ok y -> mat_ok x ->
  rows y = N -> rows x = N -> cols y = m -> cols x = k -> (0 < k)%nat -> (0 < m)%nat -> (k <= N)%nat ->
  fit_storage (OD (Z.of_nat N) (Z.of_nat m) (Z.of_nat k) (with_resid d) (o_sigma d) false) <= Z.of_nat (length storage) ->
  ols_work (OD (Z.of_nat N) (Z.of_nat m) (Z.of_nat k) (with_resid d) (o_sigma d) false) <= Z.of_nat (length work) ->
  ols_calculate lapack d y x storage work = Ok F ->
  let r := residual (Z.of_nat k) (el y) (el x) (el (f_beta F)) in
  (o_resid d || o_sigma d = true -> exists R, f_resid F = Some R /\ has N m r R) /\
  (o_sigma d = true -> exists S, f_sigma F = Some S /\ has m m (fun i j => sum_to (Z.of_nat N) (fun t => r t i * r t j)%Qc) S).
Proof.
  intros Sd Wy Wx Ry Rx Cy Cx Pk Pm Kn St Wk E r. destruct (ols_calc lapack d N m k y x storage work Sd Wy Wx Ry Rx Cy Cx Pk Pm Kn St Wk F E) as (g & Inv & (_ & FR & FS) & _).
  split.
  - intros H. replace (with_resid d) with true in FR by (unfold with_resid; rewrite orb_comm; auto). auto.
  - intros H. rewrite H in FS. auto.
Qed.
Print Assumptions c83_resid.
(** Calculate succeeds for data of the declared size if X'X is invertible. *)
Theorem c83_succeeds lapack (N m k : nat) resid sigma y x storage work g : lapack_sound lapack -> lapack_complete (Z.of_nat k) lapack -> mat_ok y -> mat_ok x ->
  rows y = N -> rows x = N -> cols y = m -> cols x = k -> (0 < k)%nat -> (0 < m)%nat -> (k <= N)%nat ->
  let d := OD (Z.of_nat N) (Z.of_nat m) (Z.of_nat k) resid sigma false in
  fit_storage d <= Z.of_nat (length storage) -> ols_work d <= Z.of_nat (length work) ->
  inverse_of (Z.of_nat k) (product (Z.of_nat N) (el_t x) (el x)) g -> exists F, ols_calculate lapack d y x storage work = Ok F.
Proof.
  intros Sd Cp Wy Wx Ry Rx Cy Cx Pk Pm Kn d St Wk Inv.
  assert (Ed : fit_storage (OD (Z.of_nat N) (Z.of_nat m) (Z.of_nat k) (with_resid d) (o_sigma d) false) = fit_storage d) by (unfold d, fit_storage, with_resid; cbn; destruct sigma, resid; reflexivity).
  apply (ols_total lapack d N m k y x storage work) with (g := g); auto; rewrite ?Ed; try lia; unfold ols_work; cbn; lia.
Qed.
Print Assumptions c83_succeeds.
(** Too few observations, or different numbers of observations, are refused. *)
Theorem c83_refused lapack d y x storage work : nrows x <> nrows y \/ nrows y < ncols x -> ols_calculate lapack d y x storage work = Throw.
Proof. intros H. unfold ols_calculate. destruct (Z.eqb_spec (nrows x) (nrows y)); cbn [negb]; auto. destruct (Z.ltb_spec (nrows y) (ncols x)); auto. lia. Qed.
Print Assumptions c83_refused.
(** The check of the declared sizes is the wrong way round: data smaller than declared is refused although the arrays are
    large enough; data larger than declared is accepted and, with arrays of the declared sizes, access is out of bounds. *)
Definition y3 : mat Qc := Mat 3 1 (map qz [1; 3; 4]).
Definition x3 : mat Qc := Mat 3 2 (map qz [1; 1; 1; 0; 1; 2]).
Theorem c83_sizes_refuted : exists big small : ols_decl,
  (o_N big = 4 /\ o_m big = 1 /\ o_k big = 2 /\ o_N small = 2 /\ o_m small = 1 /\ o_k small = 2) /\
  (forall storage work, ols_calculate lapack2 big y3 x3 storage work = Throw) /\
  (exists storage work, Z.of_nat (length storage) = fit_storage small /\ Z.of_nat (length work) = ols_work small /\ ols_calculate lapack2 small y3 x3 storage work = UB).
Proof.
  exists (OD 4 1 2 true false false), (OD 2 1 2 true false false). split; [cbn; auto 10|]. split; [reflexivity|].
  exists (repeat 0%Qc 4), (repeat 0%Qc 12). split; [reflexivity|]. split; reflexivity.
Qed.
Print Assumptions c83_sizes_refuted.
(** 1, 3, 4 on a constant and 0, 1, 2: coefficients 7/6 and 3/2. *)
Example c83_ex : lapack_sound lapack2 /\ lapack_complete 2 lapack2 /\ exists F R S,
  ols_calculate lapack2 (OD 3 1 2 true true false) y3 x3 (repeat 0%Qc 6) (repeat 0%Qc 14) = Ok F /\ f_resid F = Some R /\ f_sigma F = Some S /\
  el (f_beta F) 0 0 = Q2Qc (7 # 6) /\ el (f_beta F) 1 0 = Q2Qc (3 # 2) /\ el R 1 0 = Q2Qc (1 # 3) /\ el S 0 0 = Q2Qc (1 # 6).
Proof. split; [apply lapack2_sound|]. split; [apply lapack2_complete|]. do 3 eexists. split; [vm_compute; reflexivity|]. split; [reflexivity|]. split; [reflexivity|]. repeat split; vm_compute; reflexivity. Qed.

(** ** C84 *)
(** Generalized least squares with weights W: the given matrix if it is declared as an inverse, and its inverse otherwise.
    X'W(Y - XB) = 0, this is the only solution, and for symmetric and positive semidefinite W the weighted sum of squares is minimal. *)
Theorem c84_gls lapack d (N m k : nat) y x om storage work F : lapack_sound lapack -> mat_ok y -> mat_ok x -> mat_ok om ->
  rows y = N -> rows x = N -> rows om = N -> cols om = N -> cols y = m -> cols x = k -> (0 < k)%nat -> (0 < m)%nat -> (k <= N)%nat ->
  fit_storage (OD (Z.of_nat N) (Z.of_nat m) (Z.of_nat k) (with_resid d) (o_sigma d) false) <= Z.of_nat (length storage) ->
  gls_work (OD (Z.of_nat N) (Z.of_nat m) (Z.of_nat k) (with_resid d) (o_sigma d) (o_inv d)) <= Z.of_nat (length work) ->
  gls_calculate lapack d y x om storage work = Ok F ->
  let b := el (f_beta F) in let n := Z.of_nat N in let kz := Z.of_nat k in
  exists w, (if o_inv d then forall i j, 0 <= i < n -> 0 <= j < n -> w i j = el om i j else inverse_of n (el om) w) /\
  (rows (f_beta F) = k /\ cols (f_beta F) = m) /\
  (forall i j, 0 <= i < kz -> 0 <= j < Z.of_nat m -> sum_to n (fun t => sum_to n (fun s => el x s i * w s t) * residual kz (el y) (el x) b t j)%Qc = 0%Qc) /\
  (forall c j, 0 <= j < Z.of_nat m -> (forall i, 0 <= i < kz -> sum_to n (fun t => sum_to n (fun s => el x s i * w s t) * residual kz (el y) (el x) c t j)%Qc = 0%Qc) -> forall i, 0 <= i < kz -> c i j = b i j) /\
  (symmetric n w -> psd n w -> forall c j, 0 <= j < Z.of_nat m -> (wssr n kz w (el y) (el x) b j <= wssr n kz w (el y) (el x) c j)%Qc).
Proof.
  intros Sd Wy Wx Wo Ry Rx Ro Co Cy Cx Pk Pm Kn St Wk E b n kz. destruct (gls_calc lapack d N m k y x om storage work Sd Wy Wx Wo Ry Rx Ro Co Cy Cx Pk Pm Kn St Wk F E) as (w & g & Hw & Inv & ((B1 & B2 & _ & _) & _) & Bt).
  destruct (weights_ok lapack d N om Sd Wo Ro Co w Hw) as (_ & Wi). exists (el w).
  assert (Ne : forall i j, 0 <= i < kz -> 0 <= j < Z.of_nat m -> sum_to n (fun t => sum_to n (fun s => el x s i * el w s t) * residual kz (el y) (el x) b t j)%Qc = 0%Qc).
  { intros i j Hi Hj. apply (normal_equations n kz (product n (el_t x) (el w)) (el x) g); auto. intros i' l Hi' Hl. apply Inv; auto. }
  split. { unfold weights in Hw. destruct (o_inv d); [subst; auto|apply Wi; auto]. }
  split; auto. split; [auto|split].
  - intros c j Hj Hc i Hi. apply (normal_unique n kz (product n (el_t x) (el w)) (el x) g (el y) c b j); [intros i' l Hi' Hl; apply Inv; auto|exact Hc|intros i' Hi'; exact (Ne i' j Hi' Hj)|auto].
  - intros Sy Ps c j Hj. apply wssr_min; auto.
Qed.
Print Assumptions c84_gls.
Theorem c84_resid lapack d (N m k : nat) y x om storage work F : lapack_sound lapack -> mat_ok y -> mat_ok x -> mat_ok om ->
  rows y = N -> rows x = N -> rows om = N -> cols om = N -> cols y = m -> cols x = k -> (0 < k)%nat -> (0 < m)%nat -> (k <= N)%nat ->
  fit_storage (OD (Z.of_nat N) (Z.of_nat m) (Z.of_nat k) (with_resid d) (o_sigma d) false) <= Z.of_nat (length storage) ->
  gls_work (OD (Z.of_nat N) (Z.of_nat m) (Z.of_nat k) (with_resid d) (o_sigma d) (o_inv d)) <= Z.of_nat (length work) ->
  gls_calculate lapack d y x om storage work = Ok F ->
  let r := residual (Z.of_nat k) (el y) (el x) (el (f_beta F)) in
  (o_resid d || o_sigma d = true -> exists R, f_resid F = Some R /\ has N m r R) /\
  (o_sigma d = true -> exists S, f_sigma F = Some S /\ has m m (fun i j => sum_to (Z.of_nat N) (fun t => r t i * r t j)%Qc) S).
Proof.
  intros Sd Wy Wx Wo Ry Rx Ro Co Cy Cx Pk Pm Kn St Wk E r. destruct (gls_calc lapack d N m k y x om storage work Sd Wy Wx Wo Ry Rx Ro Co Cy Cx Pk Pm Kn St Wk F E) as (w & g & Hw & Inv & (_ & FR & FS) & _).
  split.
  - intros H. replace (with_resid d) with true in FR by (unfold with_resid; rewrite orb_comm; auto). auto.
  - intros H. rewrite H in FS. auto.
Qed.
Print Assumptions c84_resid.
(** Success when the weights are given (declared as an inverse) and X'WX is invertible. *)
Theorem c84_succeeds lapack (N m k : nat) resid sigma y x om storage work g : lapack_sound lapack -> lapack_complete (Z.of_nat k) lapack -> mat_ok y -> mat_ok x -> mat_ok om ->
  rows y = N -> rows x = N -> rows om = N -> cols om = N -> cols y = m -> cols x = k -> (0 < k)%nat -> (0 < m)%nat -> (k <= N)%nat ->
  let d := OD (Z.of_nat N) (Z.of_nat m) (Z.of_nat k) resid sigma true in
  fit_storage d <= Z.of_nat (length storage) -> gls_work d <= Z.of_nat (length work) ->
  inverse_of (Z.of_nat k) (product (Z.of_nat N) (product (Z.of_nat N) (el_t x) (el om)) (el x)) g -> exists F, gls_calculate lapack d y x om storage work = Ok F.
Proof.
  intros Sd Cp Wy Wx Wo Ry Rx Ro Co Cy Cx Pk Pm Kn d St Wk Inv.
  assert (Ed : fit_storage (OD (Z.of_nat N) (Z.of_nat m) (Z.of_nat k) (with_resid d) (o_sigma d) false) = fit_storage d) by (unfold d, fit_storage, with_resid; cbn; destruct sigma, resid; reflexivity).
  apply (gls_total lapack d N m k y x om storage work) with (w := om) (g := g); auto; rewrite ?Ed; try lia.
  - reflexivity.
  - unfold gls_work. cbn. nia.
Qed.
Print Assumptions c84_succeeds.
(** Success when Omega is given, and it and X'Omega^-1 X are invertible. *)
Theorem c84_succeeds_inverting lapack (N m k : nat) resid sigma y x om storage work : lapack_sound lapack -> lapack_complete (Z.of_nat k) lapack -> lapack_complete (Z.of_nat N) lapack ->
  mat_ok y -> mat_ok x -> mat_ok om ->
  rows y = N -> rows x = N -> rows om = N -> cols om = N -> cols y = m -> cols x = k -> (0 < k)%nat -> (0 < m)%nat -> (k <= N)%nat ->
  let d := OD (Z.of_nat N) (Z.of_nat m) (Z.of_nat k) resid sigma false in
  fit_storage d <= Z.of_nat (length storage) -> gls_work d <= Z.of_nat (length work) ->
  (exists w, inverse_of (Z.of_nat N) (el om) w) ->
  (forall w, inverse_of (Z.of_nat N) (el om) w -> exists g, inverse_of (Z.of_nat k) (product (Z.of_nat N) (product (Z.of_nat N) (el_t x) w) (el x)) g) ->
  exists F, gls_calculate lapack d y x om storage work = Ok F.
Proof.
  intros Sd Cp Cn Wy Wx Wo Ry Rx Ro Co Cy Cx Pk Pm Kn d St Wk (w0 & Hw0) Inv.
  assert (Ed : fit_storage (OD (Z.of_nat N) (Z.of_nat m) (Z.of_nat k) (with_resid d) (o_sigma d) false) = fit_storage d) by (unfold d, fit_storage, with_resid; cbn; destruct sigma, resid; reflexivity).
  assert (En : nrows om = Z.of_nat N) by (unfold nrows; lia). assert (Ec : ncols om = nrows om) by (unfold nrows, ncols; lia).
  assert (X : exists w, inv00 lapack om = Ok w) by (apply (inv00_total lapack om w0); rewrite ?En; auto; lia). destruct X as (w & Ew).
  assert (Hw : weights lapack d om w) by (unfold weights, d; cbn; auto).
  destruct (weights_ok lapack d N om Sd Wo Ro Co w Hw) as (_ & Wi). destruct (Inv (el w) (Wi eq_refl)) as (g & Hg).
  apply (gls_total lapack d N m k y x om storage work) with (w := w) (g := g); auto; rewrite ?Ed; try lia; unfold gls_work; cbn; lia.
Qed.
Print Assumptions c84_succeeds_inverting.
(** With the identity as weights the estimates are those of ordinary least squares. *)
Theorem c84_identity lapack d (N m k : nat) y x om storage work F F2 storage2 work2 : lapack_sound lapack -> mat_ok y -> mat_ok x -> mat_ok om ->
  rows y = N -> rows x = N -> rows om = N -> cols om = N -> cols y = m -> cols x = k -> (0 < k)%nat -> (0 < m)%nat -> (k <= N)%nat ->
  fit_storage (OD (Z.of_nat N) (Z.of_nat m) (Z.of_nat k) (with_resid d) (o_sigma d) false) <= Z.of_nat (length storage) ->
  gls_work (OD (Z.of_nat N) (Z.of_nat m) (Z.of_nat k) (with_resid d) (o_sigma d) (o_inv d)) <= Z.of_nat (length work) ->
  fit_storage (OD (Z.of_nat N) (Z.of_nat m) (Z.of_nat k) (with_resid d) (o_sigma d) false) <= Z.of_nat (length storage2) ->
  ols_work (OD (Z.of_nat N) (Z.of_nat m) (Z.of_nat k) (with_resid d) (o_sigma d) false) <= Z.of_nat (length work2) ->
  (forall i j, 0 <= i < Z.of_nat N -> 0 <= j < Z.of_nat N -> el om i j = iden i j) ->
  gls_calculate lapack d y x om storage work = Ok F -> ols_calculate lapack d y x storage2 work2 = Ok F2 ->
  forall i j, 0 <= i < Z.of_nat k -> 0 <= j < Z.of_nat m -> el (f_beta F) i j = el (f_beta F2) i j.
Proof.
  intros Sd Wy Wx Wo Ry Rx Ro Co Cy Cx Pk Pm Kn St Wk St2 Wk2 Id E E2 i j Hi Hj.
  destruct (c84_gls lapack d N m k y x om storage work F Sd Wy Wx Wo Ry Rx Ro Co Cy Cx Pk Pm Kn St Wk E) as (w & Hw & _ & Ne & _).
  destruct (c83_ols lapack d N m k y x storage2 work2 F2 Sd Wy Wx Ry Rx Cy Cx Pk Pm Kn St2 Wk2 E2) as (_ & _ & Un & _).
  assert (Iw : forall i j, 0 <= i < Z.of_nat N -> 0 <= j < Z.of_nat N -> w i j = iden i j).
  { destruct (o_inv d).
    - intros i' j' Hi' Hj'. rewrite Hw by auto. auto.
    - intros i' j' Hi' Hj'. destruct (Hw i' j' Hi' Hj') as (A & _). rewrite <- A. symmetry. rewrite (product_ext' (Z.of_nat N) (el om) iden w w) by (intros l Hl; split; auto). apply product_iden. auto. }
  apply (Un (el (f_beta F)) j Hj); auto. intros i' Hi'. rewrite <- (Ne i' j Hi' Hj). apply st_ext. intros t Ht. f_equal. symmetry.
  rewrite (st_ext (Z.of_nat N) _ (fun s => if (t =? s)%Z then el x s i' else 0%Qc)); [apply (st_pick (Z.of_nat N) (fun s => el x s i')); auto|].
  intros s Hs. rewrite Iw by auto. unfold iden. destruct (Z.eqb_spec s t), (Z.eqb_spec t s); subst; try congruence; ring.
Qed.
Print Assumptions c84_identity.
Definition w3 : mat Qc := Mat 3 3 (map qz [1; 0; 0; 0; 4; 0; 0; 0; 1]).
Lemma psd_w3 : symmetric 3 (el w3) /\ psd 3 (el w3).
Proof.
  split.
  - intros i j Hi Hj. assert (Ei : i = 0 \/ i = 1 \/ i = 2) by lia. assert (Ej : j = 0 \/ j = 1 \/ j = 2) by lia. destruct Ei as [-> |[-> | ->]]; destruct Ej as [-> |[-> | ->]]; reflexivity.
  - intros v. unfold sum_to. change (upto 3) with [0; 1; 2]. cbn [map]. rewrite !qsum_cons'. change (qsum []) with 0%Qc.
    replace (el w3 0 0) with 1%Qc by (vm_compute; reflexivity). replace (el w3 2 2) with 1%Qc by (vm_compute; reflexivity). replace (el w3 1 1) with (1 + 1 + 1 + 1)%Qc by (vm_compute; reflexivity).
    replace (el w3 0 1) with 0%Qc by (vm_compute; reflexivity). replace (el w3 0 2) with 0%Qc by (vm_compute; reflexivity). replace (el w3 1 0) with 0%Qc by (vm_compute; reflexivity).
    replace (el w3 1 2) with 0%Qc by (vm_compute; reflexivity). replace (el w3 2 0) with 0%Qc by (vm_compute; reflexivity). replace (el w3 2 1) with 0%Qc by (vm_compute; reflexivity).
    assert (A := sq_nn (v 0%Z)). assert (B := sq_nn (v 1%Z)). assert (C := sq_nn (v 2%Z)).
    match goal with |- (_ <= ?e)%Qc => replace e with (v 0%Z * v 0%Z + (v 1%Z * v 1%Z + v 1%Z * v 1%Z + v 1%Z * v 1%Z + v 1%Z * v 1%Z) + v 2%Z * v 2%Z)%Qc by ring end. qlra.
Qed.
Example c84_ex : symmetric 3 (el w3) /\ psd 3 (el w3) /\ exists F,
  gls_calculate lapack2 (OD 3 1 2 false false true) y3 x3 w3 (repeat 0%Qc 2) (repeat 0%Qc 20) = Ok F /\ el (f_beta F) 0 0 = Q2Qc (4 # 3) /\ el (f_beta F) 1 0 = Q2Qc (3 # 2).
Proof. split; [apply psd_w3|]. split; [apply psd_w3|]. eexists. split; [vm_compute; reflexivity|]. split; vm_compute; reflexivity. Qed.
