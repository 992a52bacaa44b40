(** C104: principal components. *)
From Coq Require Import Lia Sorted.
From Verif Require Import PcaProofs2 Prop_StdzReal.
From Verif Require Import DcProofs.
From Coq Require Import Lra.
Local Open Scope R_scope.

(** The data that is analysed: Y has k columns; for centered or scaled data see C105. *)
Definition used (p : pca) (n k0 : nat) (X : mtx) (k : nat) (Y : mtx) : Prop :=
  exists z, pca_data p n k0 X = Ok z /\ k = length (z_kept z) /\ forall i j, (i < n)%nat -> (j < k)%nat -> z_val z i j = Some (Y i j).

Lemma svd_of_ext n k X Y s vt wt : svd_of n k X s vt -> (forall i j, (i < n)%nat -> (j < k)%nat -> X i j = Y i j) -> (forall l j, (l < Nat.min n k)%nat -> vt l j = wt l j) -> svd_of n k Y s wt.
Proof.
  intros (A & B & O & U & OU & H) E W. split; [exact A|]. split; [exact B|]. split.
  - intros a b Ha Hb. rewrite <- (O a b Ha Hb). apply dot_ext; intros; symmetry; apply W; easy.
  - exists U. split; [exact OU|]. intros i j Hi Hj. rewrite <- (E i j Hi Hj), (H i j Hi Hj). apply sumr_ext. intros l Hl. rewrite (W l j Hl). reflexivity.
Qed.

Section Pca.
Context (svd : svd_fun) (sound : svd_sound svd) (junk : mtx) (p : pca) (n k0 : nat) (X : mtx) (F : option (nat * nat * mtx)) (r : pcar).
Context (calc : pca_calculate svd junk p n k0 X F = Ok (Some r)) (dopcs : p_pcs p = true).
Let k := r_k r. Let m := r_mn r. Let D := r_dirs r.
(** There is such data, it has at least two rows, and the results have the announced sizes. *)
Lemma result_exists : exists Y, used p n k0 X k Y /\ (2 <= n)%nat /\ (0 < k)%nat /\ m = Nat.min n k.
Proof using calc.
  destruct (calc_inv _ _ _ _ _ _ _ _ calc) as (z & s & vt & E & K & _ & M & N & K0 & V & _). exists (fun i j => tonum (z_val z i j)).
  split; [|easy]. exists z. split; [exact E|]. split; [exact K|exact V].
Qed.
Context (Y : mtx) (used_Y : used p n k0 X k Y).
Lemma core : (2 <= n)%nat /\ m = Nat.min n k /\ (forall i l, (i < n)%nat -> r_pcs r i l = combination k Y (D l) i) /\
  exists s, svd_of n k Y s D /\ forall l, r_stds r l = s l * (1 / sqrt (INR (n - 1))).
Proof using sound calc dopcs used_Y.
  destruct (calc_inv _ _ _ _ _ _ _ _ calc) as (z & s & vt & E & K & _ & M & N & K0 & V & SV & HD & HS & _ & HP & _).
  destruct used_Y as (z' & E' & K' & V'). rewrite E in E'. apply (f_equal (fun o => match o with Ok z => z | _ => z end)) in E'; cbv beta iota in E'. subst z'.
  assert (EY : forall i j, (i < n)%nat -> (j < k)%nat -> tonum (z_val z i j) = Y i j). { intros i j Hi Hj. rewrite (V' i j Hi Hj). reflexivity. }
  split; [exact N|]. split; [exact M|]. split.
  - intros i l Hi. rewrite (HP dopcs). apply sumr_ext. intros j Hj. cbv beta. rewrite (EY i j Hi Hj). reflexivity.
  - exists s. split; [|exact HS]. eapply svd_of_ext; [exact (sound _ _ _ _ _ SV)|exact EY|]. intros l j Hl. unfold D. rewrite HD.
    assert (Hl' : (l < r_mn r)%nat) by (rewrite M; exact Hl). destruct (Nat.ltb_spec l (r_mn r)); [reflexivity|lia].
Qed.
Lemma root : (2 <= n)%nat -> let q := 1 / sqrt (INR (n - 1)) in 0 < q /\ q * q = / INR (n - 1).
Proof using.
  clear. intros N q. pose proof (INR_pos (n - 1) ltac:(lia)) as P. pose proof (sqrt_lt_R0 _ P) as Q. unfold q. split.
  - unfold Rdiv. rewrite Rmult_1_l. apply Rinv_0_lt_compat, Q.
  - rewrite <- (sqrt_sqrt (INR (n - 1))) at 3 by lra. field. lra.
Qed.

Lemma directions_ : orthonormal k m D /\ (forall l, (l < m)%nat -> 0 <= r_stds r l) /\ (forall l, (S l < m)%nat -> r_stds r (S l) <= r_stds r l) /\
  (forall i l, (i < n)%nat -> r_pcs r i l = combination k Y (D l) i).
Proof using sound calc dopcs used_Y.
  destruct core as (N & M & HP & s & SV & HS). destruct (root N) as [Q _]. split; [|split; [|split]].
  - rewrite M. apply SV.
  - intros l Hl. rewrite HS. rewrite M in Hl. pose proof (proj1 SV l Hl). apply Rmult_le_pos; lra.
  - intros l Hl. rewrite !HS. rewrite M in Hl. pose proof (proj1 (proj2 SV) l Hl). apply Rmult_le_compat_r; lra.
  - exact HP.
Qed.
Lemma moments_ a b : (a < m)%nat -> (b < m)%nat -> dot n (col (r_pcs r) a) (col (r_pcs r) b) / INR (n - 1) = if (a =? b)%nat then r_stds r a * r_stds r a else 0.
Proof using sound calc dopcs used_Y.
  intros Ha Hb. destruct core as (N & M & HP & s & SV & HS). destruct (root N) as [Q Q2]. rewrite M in Ha, Hb.
  rewrite (dot_ext n _ _ (combination k Y (D a)) (combination k Y (D b))) by (intros i Hi; apply HP; easy).
  rewrite (svd_scores n k Y D s SV a b Ha Hb), HS. destruct (a =? b)%nat; unfold Rdiv at 1; [|ring].
  rewrite <- Q2. ring.
Qed.
Lemma reconstruct_ i j : (i < n)%nat -> (j < k)%nat -> Y i j = sumr m (fun l => r_pcs r i l * D l j).
Proof using sound calc dopcs used_Y.
  intros Hi Hj. destruct core as (N & M & HP & s & SV & HS). rewrite (svd_back n k Y D s SV i j Hi Hj), M. apply sumr_ext. intros l Hl. rewrite HP by easy. reflexivity.
Qed.
(** Means of combinations. *)
Lemma mean_combination w : mean n (combination k Y w) = sumr k (fun j => mean n (col Y j) * w j).
Proof using.
  clear. unfold mean, combination. rewrite sumr_swap. unfold Rdiv. rewrite <- sumr_scal_r. apply sumr_ext. intros j Hj. rewrite sumr_scal_r. unfold col. ring.
Qed.
Lemma centered : p_center p = true -> forall j, (j < k)%nat -> mean n (col Y j) = 0.
Proof using calc used_Y.
  intros C j Hj. destruct (calc_inv _ _ _ _ _ _ _ _ calc) as (z & _ & _ & E & _ & _ & _ & N & _).
  destruct used_Y as (z' & E' & K' & V'). rewrite E in E'. apply (f_equal (fun o => match o with Ok z => z | _ => z end)) in E'; cbv beta iota in E'. subst z'.
  unfold pca_data in E. rewrite C in E. cbn [orb] in E. rewrite K' in Hj.
  destruct (p_scale p) eqn:SC.
  - destruct (c105_standard _ _ _ _ _ _ N E Hj) as [A B]. set (x := col X (nth j (z_kept z) 0%nat)) in *.
    assert (NC : ~ constant n x). { intros Cx. pose proof (B Cx 0%nat) as W. rewrite V' in W by (try rewrite K'; lia). discriminate W. }
    destruct (A NC) as (y & Hy & M0 & _). rewrite <- M0. apply mean_ext. intros i Hi. pose proof (V' i j Hi ltac:(rewrite K'; exact Hj)) as W. rewrite Hy in W. unfold col. congruence.
  - destruct (c105_parts _ _ _ _ _ _ _ _ N E Hj) as [_ B]. set (x := col X (nth j (z_kept z) 0%nat)) in *.
    pose proof (B ltac:(discriminate)) as W. rewrite (mean_ext n (col Y j) (fun i => 1 * x i + - mean n x)). { rewrite mean_affine by lia. ring. }
    intros i Hi. pose proof (V' i j Hi ltac:(rewrite K'; exact Hj)) as W'. rewrite (W i) in W'. unfold col. apply (f_equal tonum) in W'. cbn in W'. rewrite <- W'. field.
Qed.
Lemma mean_score w : p_center p = true -> mean n (combination k Y w) = 0.
Proof using calc used_Y. intros C. rewrite mean_combination. apply sumr_zero. intros j Hj. rewrite (centered C j Hj). ring. Qed.
Lemma mean0_cov a b : mean n a = 0 -> mean n b = 0 -> cov n a b = dot n a b / INR (n - 1).
Proof using. clear. intros A B. unfold cov, dot. rewrite A, B. f_equal. apply sumr_ext; intros; ring. Qed.
Lemma pc_mean a : p_center p = true -> mean n (col (r_pcs r) a) = 0.
Proof using sound calc dopcs used_Y. intros C. rewrite <- (mean_score (D a) C). apply mean_ext. intros i Hi. destruct directions_ as (_ & _ & _ & H). apply H, Hi. Qed.
Lemma uncorrelated_ a b : p_center p = true -> (a < m)%nat -> (b < m)%nat -> mean n (col (r_pcs r) a) = 0 /\
  cov n (col (r_pcs r) a) (col (r_pcs r) b) = if (a =? b)%nat then r_stds r a * r_stds r a else 0.
Proof using sound calc dopcs used_Y.
  intros C Ha Hb. split; [apply pc_mean, C|]. rewrite mean0_cov by (apply pc_mean, C). apply moments_; easy.
Qed.
Lemma maximal_ a w : p_center p = true -> (a < m)%nat -> dot k w w = 1 -> (forall b, (b < a)%nat -> dot k (D b) w = 0) ->
  variance n (combination k Y w) <= variance n (col (r_pcs r) a).
Proof using sound calc dopcs used_Y.
  intros C Ha W O. unfold variance. rewrite (proj2 (uncorrelated_ a a C Ha Ha)), Nat.eqb_refl.
  rewrite mean0_cov by (apply mean_score, C). destruct core as (N & M & HP & s & SV & HS). destruct (root N) as [Q Q2]. rewrite M in Ha.
  pose proof (svd_max n k Y D s SV a w Ha O) as L. rewrite W, Rmult_1_r in L. rewrite HS.
  replace (s a * (1 / sqrt (INR (n - 1))) * (s a * (1 / sqrt (INR (n - 1))))) with (s a * s a * ((1 / sqrt (INR (n - 1))) * (1 / sqrt (INR (n - 1))))) by ring.
  rewrite Q2. unfold Rdiv. apply Rmult_le_compat_r; [|exact L]. apply Rlt_le, Rinv_0_lt_compat, INR_pos. lia.
Qed.
Lemma total_ : sumr m (fun l => r_stds r l * r_stds r l) = sumr k (fun j => dot n (col Y j) (col Y j)) / INR (n - 1).
Proof using sound calc dopcs used_Y.
  destruct core as (N & M & HP & s & SV & HS). destruct (root N) as [Q Q2]. rewrite (svd_total n k Y D s SV), M. unfold Rdiv. rewrite <- Q2, <- sumr_scal_r.
  apply sumr_ext. intros l Hl. rewrite HS. ring.
Qed.
Lemma total_var : p_center p = true -> sumr m (fun l => r_stds r l * r_stds r l) = sumr k (fun j => variance n (col Y j)).
Proof using sound calc dopcs used_Y.
  intros C. rewrite total_. unfold Rdiv. rewrite <- sumr_scal_r. apply sumr_ext. intros j Hj. unfold variance. rewrite mean0_cov by (apply centered; easy). reflexivity.
Qed.
Lemma unit_variance : p_center p = true -> p_scale p = true -> forall j, (j < k)%nat -> variance n (col Y j) = 1.
Proof using calc used_Y.
  intros C SC j Hj. destruct (calc_inv _ _ _ _ _ _ _ _ calc) as (z & _ & _ & E & _ & _ & _ & N & _).
  destruct used_Y as (z' & E' & K' & V'). rewrite E in E'. apply (f_equal (fun o => match o with Ok z => z | _ => z end)) in E'; cbv beta iota in E'. subst z'.
  unfold pca_data in E. rewrite C, SC in E. cbn [orb] in E. rewrite K' in Hj.
  destruct (c105_standard _ _ _ _ _ _ N E Hj) as [A B]. set (x := col X (nth j (z_kept z) 0%nat)) in *.
  assert (NC : ~ constant n x). { intros Cx. pose proof (B Cx 0%nat) as W. rewrite V' in W by (try rewrite K'; lia). discriminate W. }
  destruct (A NC) as (y & Hy & _ & V0 & _). rewrite <- V0. apply cov_ext; intros i Hi; pose proof (V' i j Hi ltac:(rewrite K'; exact Hj)) as W; rewrite Hy in W; unfold col; congruence.
Qed.
Lemma ratios_ : let v := sumr m (fun l => r_stds r l * r_stds r l) in
  (v = 0 -> forall l, r_ratios r l = None) /\ (v <> 0 -> forall l, r_ratios r l = Some (r_stds r l * r_stds r l / v)).
Proof using calc.
  destruct (calc_inv _ _ _ _ _ _ _ _ calc) as (z & s & vt & _ & _ & _ & _ & _ & _ & _ & _ & _ & _ & H & _). cbv zeta in *. fold m in H.
  split; intros E l; rewrite (H l); destruct (Req_EM_T _ 0); easy.
Qed.
End Pca.

(** ** Theorems *)
(** There is data to which the other theorems apply. *)
Theorem c104_defined svd junk p n k0 X F r : pca_calculate svd junk p n k0 X F = Ok (Some r) ->
  exists Y, used p n k0 X (r_k r) Y /\ (2 <= n)%nat /\ (0 < r_k r)%nat /\ r_mn r = Nat.min n (r_k r).
Proof. intros H. exact (result_exists svd junk p n k0 X F r H). Qed.
Print Assumptions c104_defined.
(** With numbers in the analysed data, at least two rows and a decomposition that succeeds, there are results. *)
Theorem c104_total_function svd junk p n k0 X F Y k s vt : used p n k0 X k Y -> (2 <= n)%nat -> (0 < k)%nat ->
  (match F with Some (_, c, _) => c = k0 | None => True end) -> (forall A, (forall i j, (i < n)%nat -> (j < k)%nat -> A i j = Y i j) -> svd n k A = Some (s, vt)) ->
  exists r, pca_calculate svd junk p n k0 X F = Ok (Some r) /\ r_k r = k.
Proof.
  intros (z & E & K & V) N K0 HF SV. unfold pca_calculate.
  assert (EF : (match F with Some (_, c, _) => negb (c =? k0)%nat | None => false end) = false).
  { destruct F as [[[nf c] G]|]; [|reflexivity]. rewrite HF, Nat.eqb_refl. reflexivity. }
  rewrite EF, E. cbn [bind]. cbv zeta. rewrite <- K. destruct (Nat.eqb_spec k 0) as [|]; [lia|].
  rewrite numbers_true by (intros i j Hi Hj; rewrite (V i j Hi Hj); discriminate). cbn [negb].
  rewrite SV by (intros i j Hi Hj; rewrite (V i j Hi Hj); reflexivity). destruct (Nat.eqb_spec n 1); [lia|].
  assert (FD : exists f, (match F with None => Ok None | Some (nf, _, G) => if (nf =? 0)%nat then Ok None else
     if (p_center p || p_scale p)%bool then do zf <- standardize (p_rz p) (p_center p) (p_scale p) (z_means z) (z_vars z) nf k0 G;
       Ok (Some (fun i l => sumr k (fun j => tonum (z_val zf i j) * (if (l <? Nat.min n k)%nat then vt l j else junk l j))))
     else Ok (Some (fun i l => sumr k (fun j => G i j * (if (l <? Nat.min n k)%nat then vt l j else junk l j)))) end) = Ok f).
  { destruct F as [[[nf c] G]|]; [|eexists; reflexivity]. destruct (Nat.eqb_spec nf 0); [eexists; reflexivity|]. destruct (p_center p || p_scale p)%bool eqn:CS; [|eexists; reflexivity].
    assert (Hk : (0 < k0)%nat). { unfold pca_data in E. rewrite CS in E. apply (standardize_ok _ _ _ _ _ _ _ _ _ E). }
    destruct (standardize_def (p_rz p) (p_center p) (p_scale p) (z_means z) (z_vars z) nf k0 G ltac:(lia) Hk) as [zf Ezf]. rewrite Ezf. eexists; reflexivity. }
  destruct FD as [f Ef]. rewrite Ef. cbn [bind]. eexists; split; reflexivity.
Qed.
Print Assumptions c104_total_function.

(** The directions are perpendicular, of length one, and the components are the combinations of the data with these weights; standard deviations are not negative and decrease. *)
Theorem c104_directions svd junk p n k0 X F r Y : svd_sound svd -> pca_calculate svd junk p n k0 X F = Ok (Some r) -> p_pcs p = true -> used p n k0 X (r_k r) Y ->
  orthonormal (r_k r) (r_mn r) (r_dirs r) /\ (forall l, (l < r_mn r)%nat -> 0 <= r_stds r l) /\ (forall l, (S l < r_mn r)%nat -> r_stds r (S l) <= r_stds r l) /\
  (forall i l, (i < n)%nat -> r_pcs r i l = combination (r_k r) Y (r_dirs r l) i).
Proof. intros S H D U. exact (directions_ svd S junk p n k0 X F r H D Y U). Qed.
Print Assumptions c104_directions.
(** Components of centered data have mean zero, are uncorrelated, and their standard deviations are the announced ones. *)
Theorem c104_uncorrelated svd junk p n k0 X F r a b : svd_sound svd -> pca_calculate svd junk p n k0 X F = Ok (Some r) -> p_pcs p = true -> p_center p = true ->
  (a < r_mn r)%nat -> (b < r_mn r)%nat ->
  mean n (col (r_pcs r) a) = 0 /\ cov n (col (r_pcs r) a) (col (r_pcs r) b) = if (a =? b)%nat then r_stds r a * r_stds r a else 0.
Proof. intros S H D C Ha Hb. destruct (c104_defined _ _ _ _ _ _ _ _ H) as (Y & U & _). exact (uncorrelated_ svd S junk p n k0 X F r H D Y U a b C Ha Hb). Qed.
Print Assumptions c104_uncorrelated.
(** Without centering: the products of the components. *)
Theorem c104_products svd junk p n k0 X F r a b : svd_sound svd -> pca_calculate svd junk p n k0 X F = Ok (Some r) -> p_pcs p = true -> (a < r_mn r)%nat -> (b < r_mn r)%nat ->
  dot n (col (r_pcs r) a) (col (r_pcs r) b) / INR (n - 1) = if (a =? b)%nat then r_stds r a * r_stds r a else 0.
Proof. intros S H D Ha Hb. destruct (c104_defined _ _ _ _ _ _ _ _ H) as (Y & U & _). exact (moments_ svd S junk p n k0 X F r H D Y U a b Ha Hb). Qed.
Print Assumptions c104_products.
(** No combination with weights of length one that are perpendicular to the first a directions varies more than component a. *)
Theorem c104_maximal svd junk p n k0 X F r Y a w : svd_sound svd -> pca_calculate svd junk p n k0 X F = Ok (Some r) -> p_pcs p = true -> used p n k0 X (r_k r) Y -> p_center p = true ->
  (a < r_mn r)%nat -> dot (r_k r) w w = 1 -> (forall b, (b < a)%nat -> dot (r_k r) (r_dirs r b) w = 0) ->
  variance n (combination (r_k r) Y w) <= variance n (col (r_pcs r) a).
Proof. intros S H D U C. exact (maximal_ svd S junk p n k0 X F r H D Y U a w C). Qed.
Print Assumptions c104_maximal.
(** The components have the total variance of the data: the number of columns, if they were standardized. *)
Theorem c104_total_variance svd junk p n k0 X F r Y : svd_sound svd -> pca_calculate svd junk p n k0 X F = Ok (Some r) -> p_pcs p = true -> used p n k0 X (r_k r) Y -> p_center p = true ->
  sumr (r_mn r) (fun l => r_stds r l * r_stds r l) = sumr (r_k r) (fun j => variance n (col Y j)) /\
  (p_scale p = true -> sumr (r_mn r) (fun l => r_stds r l * r_stds r l) = INR (r_k r)).
Proof.
  intros S H D U C. split; [exact (total_var svd S junk p n k0 X F r H D Y U C)|]. intros SC. rewrite (total_var svd S junk p n k0 X F r H D Y U C).
  rewrite (sumr_ext _ _ (fun _ => 1)) by (intros j Hj; exact (unit_variance svd junk p n k0 X F r H Y U C SC j Hj)). rewrite sumr_const. ring.
Qed.
Print Assumptions c104_total_variance.
(** The ratios: the shares of the components, which sum to one. *)
Theorem c104_ratios svd junk p n k0 X F r : svd_sound svd -> pca_calculate svd junk p n k0 X F = Ok (Some r) -> p_pcs p = true ->
  (p_center p = true /\ p_scale p = true \/ exists l, (l < r_mn r)%nat /\ r_stds r l <> 0) ->
  exists q : vec, (forall l, (l < r_mn r)%nat -> r_ratios r l = Some (q l) /\ 0 <= q l <= 1) /\ (forall l, (S l < r_mn r)%nat -> q (S l) <= q l) /\ sumr (r_mn r) q = 1 /\
    (p_center p = true -> forall l, (l < r_mn r)%nat -> q l = variance n (col (r_pcs r) l) / sumr (r_mn r) (fun l => variance n (col (r_pcs r) l))).
Proof.
  intros SS H D NZ. destruct (c104_defined _ _ _ _ _ _ _ _ H) as (Y & U & N & K0 & _). set (v := sumr (r_mn r) (fun l => r_stds r l * r_stds r l)).
  assert (V : 0 < v).
  { assert (0 <= v) by (apply sumr_nonneg; intros; apply Rle_0_sqr). destruct NZ as [[C SC]|(l & Hl & NZ)].
    - unfold v. rewrite (proj2 (c104_total_variance svd junk p n k0 X F r Y SS H D U C) SC). apply INR_pos, K0.
    - destruct (Req_dec v 0) as [E|E]; [|lra]. exfalso; apply NZ. pose proof (sumr_nonneg_0 _ _ (fun i _ => Rle_0_sqr (r_stds r i)) E l Hl) as Q. unfold Rsqr in Q. apply Rmult_integral in Q. lra. }
  destruct (c104_directions svd junk p n k0 X F r Y SS H D U) as (_ & P & Dc & _).
  pose proof (proj2 (ratios_ svd junk p n k0 X F r H) ltac:(fold v; lra)) as R. fold v in R.
  assert (SUM : sumr (r_mn r) (fun l => r_stds r l * r_stds r l / v) = 1). { unfold Rdiv. rewrite sumr_scal_r. fold v. field. lra. }
  exists (fun l => r_stds r l * r_stds r l / v). split; [|split; [|split]].
  - intros l Hl. split; [apply R|]. assert (G : forall i, (i < r_mn r)%nat -> 0 <= r_stds r i * r_stds r i / v).
    { intros i Hi. apply Rmult_le_pos; [apply Rle_0_sqr|apply Rlt_le, Rinv_0_lt_compat, V]. }
    split; [apply G, Hl|]. rewrite <- SUM. clearbody v. clear - Hl G. induction (r_mn r) as [|q IH]; [lia|]. cbn [sumr]. pose proof (G q ltac:(lia)).
    assert (0 <= sumr q (fun l => r_stds r l * r_stds r l / v)) by (apply sumr_nonneg; intros; apply G; lia).
    destruct (Nat.eq_dec l q) as [ -> | ]; [lra|]. assert (r_stds r l * r_stds r l / v <= sumr q (fun l => r_stds r l * r_stds r l / v)) by (apply IH; [lia|intros; apply G; lia]). lra.
  - intros l Hl. pose proof (P (S l) Hl). pose proof (Dc l Hl). apply Rmult_le_compat_r; [apply Rlt_le, Rinv_0_lt_compat, V|]. apply Rmult_le_compat; lra.
  - exact SUM.
  - intros C. assert (EV : forall l, (l < r_mn r)%nat -> variance n (col (r_pcs r) l) = r_stds r l * r_stds r l).
    { intros l Hl. unfold variance. rewrite (proj2 (c104_uncorrelated svd junk p n k0 X F r l l SS H D C Hl Hl)), Nat.eqb_refl. reflexivity. }
    intros l Hl. rewrite (EV l Hl), (sumr_ext _ _ _ EV). reflexivity.
Qed.
Print Assumptions c104_ratios.
(** All components together give back the data. *)
Theorem c104_reconstruction svd junk p n k0 X F r Y i j : svd_sound svd -> pca_calculate svd junk p n k0 X F = Ok (Some r) -> p_pcs p = true -> used p n k0 X (r_k r) Y ->
  (i < n)%nat -> (j < r_k r)%nat -> Y i j = sumr (r_mn r) (fun l => r_pcs r i l * r_dirs r l j).
Proof. intros S H D U. exact (reconstruct_ svd S junk p n k0 X F r H D Y U i j). Qed.
Print Assumptions c104_reconstruction.

(** Rows to forecast get their components from the directions, means and variances of the data; a row of the data gets its own components. *)
Theorem c104_forecast svd junk p n k0 X nf G r : pca_calculate svd junk p n k0 X (Some (nf, k0, G)) = Ok (Some r) -> p_pcs p = true -> (0 < nf)%nat ->
  exists f, r_forecasts r = Some f /\
  (forall i i', (i < n)%nat -> (forall j, (j < k0)%nat -> G i' j = X i j) -> forall l, f i' l = r_pcs r i l) /\
  (p_center p = true -> p_scale p = true -> exists z, pca_data p n k0 X = Ok z /\ r_k r = length (z_kept z) /\ forall i l, f i l = sumr (r_k r) (fun j =>
     let c := nth j (z_kept z) 0%nat in (G i c - mean n (col X c)) / sqrt (variance n (col X c)) * r_dirs r l j)).
Proof.
  intros H D Nf. destruct (calc_inv _ _ _ _ _ _ _ _ H) as (z & s & vt & E & K & _ & M & N & K0 & V & _ & _ & _ & _ & HP & _ & HF).
  destruct (Nat.eqb_spec nf 0) as [|]; [lia|]. destruct HF as (zf & Ezf & HF).
  exists (fun i l => combination (r_k r) (fun i j => tonum (z_val zf i j)) (r_dirs r l) i). split; [exact HF|].
  destruct (p_center p || p_scale p)%bool eqn:CS.
  - unfold pca_data in E. rewrite CS in E. destruct (c105_override _ _ _ _ _ _ _ nf G N Nf E) as (zf' & Ezf' & KE & _ & OV & OV2).
    assert (zf' = zf) as -> by congruence. assert (HB : forall j, (j < r_k r)%nat -> (nth j (z_kept z) 0 < k0)%nat).
    { intros j Hj. rewrite K in Hj. pose proof (nth_In (z_kept z) 0%nat Hj) as I. apply (proj1 (proj2 (proj2 (c105_kept _ _ _ _ _ _ _ N E)))) in I. apply I. }
    split.
    + intros i i' Hi HG l. rewrite (HP D). apply sumr_ext. intros j Hj. cbv beta. rewrite (OV i i' j) by (try (rewrite <- K; exact Hj); apply HG, HB, Hj). reflexivity.
    + intros C SC. exists z. unfold pca_data. rewrite CS. split; [exact E|]. split; [exact K|]. intros i l. apply sumr_ext. intros j Hj. cbv beta zeta. f_equal.
      assert (Hj' : (j < length (z_kept z))%nat) by (rewrite <- K; exact Hj).
      assert (NC : ~ constant n (col X (nth j (z_kept z) 0%nat))).
      { intros Cx. rewrite C, SC in E. destruct (c105_standard _ _ _ _ _ _ N E Hj') as [_ B]. pose proof (B Cx 0%nat) as W. rewrite (V 0%nat j ltac:(lia) Hj) in W. discriminate W. }
      rewrite (OV2 i j Hj' (fun _ => NC)), C, SC. reflexivity.
  - assert (zf = Stdz None None (seq 0 k0) [] (fun i j => Some (G i j))) as -> by congruence. unfold pca_data in E. rewrite CS in E. destruct ((k0 =? 0) || (n =? 0))%nat%bool; [discriminate E|].
    assert (Z : z = Stdz None None (seq 0 k0) [] (fun i j => Some (X i j))) by congruence. split.
    + intros i i' Hi HG l. rewrite (HP D). apply sumr_ext. intros j Hj. cbv beta. rewrite Z. cbn. rewrite HG; [reflexivity|]. rewrite K, Z in Hj. cbn in Hj. rewrite seq_length in Hj. exact Hj.
    + intros C SC. rewrite C in CS. discriminate CS.
Qed.
Print Assumptions c104_forecast.

(** Refused: data to forecast with other columns, and data in which all columns are constant (with the default options). *)
Theorem c104_errors svd junk p n k0 X F : (exists nf c G, F = Some (nf, c, G) /\ c <> k0) \/ ((2 <= n)%nat /\ p_rz p = true /\ p_scale p = true /\ forall j, (j < k0)%nat -> constant n (col X j)) ->
  pca_calculate svd junk p n k0 X F = Throw.
Proof.
  intros [ (nf & c & G & -> & NE) | (N & RZ & SC & C) ]; unfold pca_calculate.
  - destruct (Nat.eqb_spec c k0); [easy|]. reflexivity.
  - destruct (match F with Some (_, c, _) => negb (c =? k0)%nat | None => false end); [reflexivity|].
    destruct (pca_data p n k0 X) as [z| |] eqn:E.
    + cbn [bind]. cbv zeta. unfold pca_data in E. rewrite SC, Bool.orb_true_r in E. pose proof (c105_kept _ _ _ _ _ _ _ N E) as (_ & _ & KK & _).
      destruct (z_kept z) as [|j t] eqn:EK; [reflexivity|]. exfalso. destruct (proj1 (KK j)) as [Hj NC]; [left; reflexivity|]. apply NC. split; [exact RZ|]. split; [reflexivity|]. apply C, Hj.
    + reflexivity.
    + unfold pca_data in E. destruct (p_center p || p_scale p)%bool; unfold standardize in E; destruct ((k0 =? 0) || (n =? 0))%nat%bool; discriminate E.
Qed.
Print Assumptions c104_errors.

(** ** A decomposition for two columns of equal length *)
Definition svd2 : svd_fun := fun n k X =>
  if ((n <? 2) || negb (k =? 2))%nat%bool then None else
  let a := dot n (col X 0) (col X 0) in let b := dot n (col X 1) (col X 1) in let c := dot n (col X 0) (col X 1) in
  if Req_EM_T a b then if Rle_dec 0 c then if Rlt_dec c a then
    Some (fun l => if (l =? 0)%nat then sqrt (a + c) else sqrt (a - c), fun l j => if ((l =? 1) && (j =? 1))%nat%bool then - (1 / sqrt 2) else 1 / sqrt 2)
  else None else None else None.
Lemma two l : (l < 2)%nat -> l = 0%nat \/ l = 1%nat. Proof. lia. Qed.
Lemma svd2_sound : svd_sound svd2.
Proof.
  intros n k X s vt. unfold svd2. destruct (Nat.ltb_spec n 2) as [|N]; [discriminate|]. destruct (Nat.eqb_spec k 2) as [ -> | ]; [|discriminate]. cbn [orb negb].
  set (a := dot n (col X 0) (col X 0)). set (b := dot n (col X 1) (col X 1)). set (c := dot n (col X 0) (col X 1)).
  destruct (Req_EM_T a b) as [AB|]; [|discriminate]. destruct (Rle_dec 0 c) as [C0|]; [|discriminate]. destruct (Rlt_dec c a) as [CA|]; [|discriminate].
  intros E. apply (f_equal (fun o => match o with Some o => o | None => (s, vt) end)) in E. cbv beta iota in E.
  pose proof (f_equal fst E) as Es. pose proof (f_equal snd E) as Ev. cbn [fst snd] in Es, Ev. subst s vt. clear E.
  assert (M : Nat.min n 2 = 2%nat) by lia. set (h := 1 / sqrt 2).
  assert (H2 : h * h = 1 / 2). { unfold h. pose proof (sqrt_lt_R0 2 ltac:(lra)). rewrite <- (sqrt_sqrt 2) at 3 by lra. field. lra. }
  pose proof (sqrt_lt_R0 (a + c) ltac:(lra)) as P0. pose proof (sqrt_lt_R0 (a - c) ltac:(lra)) as P1.
  pose proof (sqrt_sqrt (a + c) ltac:(lra)) as Q0. pose proof (sqrt_sqrt (a - c) ltac:(lra)) as Q1. set (s0 := sqrt (a + c)) in *. set (s1 := sqrt (a - c)) in *.
  unfold svd_of. rewrite M. split; [|split; [|split]].
  - intros l Hl. destruct (l =? 0)%nat; lra.
  - intros l Hl. replace l with 0%nat by lia. cbn. apply Rsqr_incr_0; unfold Rsqr; lra.
  - intros x y Hx Hy. apply two in Hx, Hy. destruct Hx as [ -> | -> ], Hy as [ -> | -> ]; unfold dot, delta; cbn; lra.
  - exists (fun i l => if (l =? 0)%nat then h * (X i 0%nat + X i 1%nat) / s0 else h * (X i 0%nat - X i 1%nat) / s1). split.
    + assert (G : forall u v w z, dot n (fun i => u * X i 0%nat + v * X i 1%nat) (fun i => w * X i 0%nat + z * X i 1%nat) = u * w * a + (u * z + v * w) * c + v * z * b).
      { intros. unfold a, b, c, dot, col. rewrite <- !sumr_scal, <- !sumr_plus. apply sumr_ext. intros; ring. }
      assert (E0 : forall x, (x < 2)%nat -> forall i, col (fun i l => if (l =? 0)%nat then h * (X i 0%nat + X i 1%nat) / s0 else h * (X i 0%nat - X i 1%nat) / s1) x i
        = (if (x =? 0)%nat then h / s0 else h / s1) * X i 0%nat + (if (x =? 0)%nat then h / s0 else - (h / s1)) * X i 1%nat).
      { intros x Hx i. apply two in Hx. destruct Hx as [ -> | -> ]; unfold col; cbn; field; lra. }
      assert (HH : h * h * 2 = 1) by lra. assert (Q0' : a + c = s0 * s0) by lra. assert (Q1' : a - c = s1 * s1) by lra.
      intros x y Hx Hy. rewrite (dot_ext n _ _ _ _ (fun i _ => E0 x Hx i) (fun i _ => E0 y Hy i)), G, <- AB. apply two in Hx, Hy.
      destruct Hx as [ -> | -> ], Hy as [ -> | -> ]; unfold delta; cbn [Nat.eqb].
      * transitivity (h * h * 2 * (a + c) / (s0 * s0)); [field; lra|]. rewrite HH, Q0'. field. lra.
      * field. lra.
      * field. lra.
      * transitivity (h * h * 2 * (a - c) / (s1 * s1)); [field; lra|]. rewrite HH, Q1'. field. lra.
    + intros i j Hi Hj. apply two in Hj. unfold sumr. destruct Hj as [ -> | -> ]; cbn [Nat.eqb andb].
      * transitivity (h * h * 2 * X i 0%nat); [rewrite H2; field|]. field. lra.
      * transitivity (h * h * 2 * X i 1%nat); [rewrite H2; field|]. field. lra.
Qed.
(** The columns 1, 2, 3 and 1, 3, 2. *)
Definition ex_Y : mtx := fun i j => if (j =? 0)%nat then INR i - 1 else match i with O => -1 | S O => 1 | _ => 0 end.
Definition ex_D : mtx := fun i j => if (j =? 0)%nat then INR i + 1 else match i with O => 1 | S O => 3 | _ => 2 end.
Lemma ex_used rz : used (Pca true rz true true) 3 2 ex_D 2 ex_Y.
Proof.
  destruct (standardize_def rz true true None None 3 2 ex_D ltac:(lia) ltac:(lia)) as [z E]. exists z. split; [exact E|].
  assert (NC : forall j, (j < 2)%nat -> ~ constant 3 (col ex_D j)).
  { intros j Hj C. pose proof (C 0%nat 1%nat ltac:(lia) ltac:(lia)) as W. apply two in Hj. destruct Hj as [ -> | -> ]; unfold col, ex_D in W; cbn in W; lra. }
  assert (K : z_kept z = [0; 1]%nat).
  { unfold standardize in E. cbn [Nat.eqb orb] in E. apply (f_equal (fun o => match o with Ok z => z | _ => z end)) in E; cbv beta iota zeta in E. subst z. cbn [z_kept].
    change [0; 1]%nat with (seq 0 2). apply filter_all. intros j Hj. apply in_seq in Hj. cbn. destruct rz; [|reflexivity].
    apply Bool.negb_true_iff, Bool.not_true_iff_false. intros Q. apply (is_zero_spec 3 ex_D j ltac:(lia)) in Q. apply (NC j ltac:(lia)), Q. }
  split; [rewrite K; reflexivity|]. intros i j Hi Hj.
  assert (K1 : nth j (z_kept z) 0%nat = j) by (rewrite K; apply two in Hj; destruct Hj as [ -> | -> ]; reflexivity).
  pose proof (proj2 (c105_parts rz true true 3 2 ex_D z j ltac:(lia) E ltac:(rewrite K; exact Hj)) (fun _ => eq_ind_r (fun x => ~ constant 3 (col ex_D x)) (NC j Hj) K1)) as V.
  rewrite K1 in V. assert (Mn : mean 3 (col ex_D j) = 2 /\ variance 3 (col ex_D j) = 1).
  { assert (M : mean 3 (col ex_D j) = 2) by (unfold mean, col, ex_D; apply two in Hj; destruct Hj as [ -> | -> ]; cbn; field). split; [exact M|].
    unfold variance, cov. rewrite M. unfold col, ex_D. apply two in Hj; destruct Hj as [ -> | -> ]; cbn; field. }
  destruct Mn as [M W]. rewrite (V i), M, W, sqrt_1. f_equal. unfold col, ex_D, ex_Y. apply two in Hj; destruct Hj as [ -> | -> ]; cbn [Nat.eqb]; [field|].
  destruct i as [|[|i]]; field.
Qed.
Lemma ex_svd A : (forall i j, (i < 3)%nat -> (j < 2)%nat -> A i j = ex_Y i j) -> svd2 3%nat 2%nat A =
  Some (fun l => if (l =? 0)%nat then sqrt (2 + 1) else sqrt (2 - 1), fun l j => if ((l =? 1) && (j =? 1))%nat%bool then - (1 / sqrt 2) else 1 / sqrt 2).
Proof.
  intros H. unfold svd2. cbn [Nat.ltb Nat.leb Nat.eqb orb negb].
  assert (G : forall u v, (u < 2)%nat -> (v < 2)%nat -> dot 3 (col A u) (col A v) = if (u =? v)%nat then 2 else 1).
  { intros u v Hu Hv. unfold dot, col. cbn [sumr]. rewrite !(H _ u), !(H _ v) by (lia || assumption). apply two in Hu, Hv. destruct Hu as [ -> | -> ], Hv as [ -> | -> ]; unfold ex_Y; cbn; ring. }
  rewrite !G by lia. cbn [Nat.eqb].
  destruct (Req_EM_T 2 2); [|lra]. destruct (Rle_dec 0 1); [|lra]. destruct (Rlt_dec 1 2); [reflexivity|lra].
Qed.
Example c104_ex : exists r, pca_calculate svd2 (fun _ _ => 0) (Pca true true true true) 3 2 ex_D (Some (1, 2, (fun _ _ => 2%R))%nat) = Ok (Some r) /\
  r_k r = 2%nat /\ r_ratios r 0 = Some (3 / 4) /\ r_ratios r 1 = Some (1 / 4) /\ (exists f, r_forecasts r = Some f /\ f 0%nat 0%nat = 0).
Proof.
  destruct (c104_total_function svd2 (fun _ _ => 0) (Pca true true true true) 3 2 ex_D (Some (1, 2, (fun _ _ => 2%R))%nat) ex_Y 2 _ _ (ex_used true) ltac:(lia) ltac:(lia) eq_refl ex_svd) as (r & H & K).
  exists r. split; [exact H|]. split; [exact K|].
  destruct (calc_inv _ _ _ _ _ _ _ _ H) as (z & s & vt & E & _ & _ & M & N & K0 & V & SV & HD & HS & HR & _).
  destruct (ex_used true) as (z' & E' & K' & V'). assert (z' = z) as -> by congruence. rewrite K in M, SV. cbn [Nat.min] in M.
  rewrite ex_svd in SV by (intros i j Hi Hj; rewrite (V' i j Hi Hj); reflexivity).
  assert (Es : s = fun l => if (l =? 0)%nat then sqrt (2 + 1) else sqrt (2 - 1)) by congruence.
  assert (S0 : r_stds r 0%nat * r_stds r 0%nat = 3 / 2 /\ r_stds r 1%nat * r_stds r 1%nat = 1 / 2).
  { rewrite !HS, Es. replace (INR (3 - 1)) with 2 by (cbn; ring). cbn [Nat.eqb]. pose proof (sqrt_sqrt (2 + 1) ltac:(lra)) as A. pose proof (sqrt_sqrt (2 - 1) ltac:(lra)) as B.
    pose proof (sqrt_lt_R0 2 ltac:(lra)) as P. pose proof (sqrt_sqrt 2 ltac:(lra)) as C. split.
    - transitivity ((sqrt (2 + 1) * sqrt (2 + 1)) / (sqrt 2 * sqrt 2)); [field; lra|]. rewrite A, C. field.
    - transitivity ((sqrt (2 - 1) * sqrt (2 - 1)) / (sqrt 2 * sqrt 2)); [field; lra|]. rewrite B, C. field. }
  destruct S0 as [S0 S1]. rewrite M in HR. cbv zeta in HR. cbn [sumr] in HR. rewrite !HR, S0, S1.
  replace (0 + 3 / 2 + 1 / 2) with 2 by field. destruct (Req_EM_T 2 0); [lra|]. split; [f_equal; field|]. split; [f_equal; field|].
  destruct (c104_forecast svd2 (fun _ _ => 0) (Pca true true true true) 3 2 ex_D 1 _ r H eq_refl ltac:(lia)) as (f & Ef & _ & G). exists f. split; [exact Ef|].
  destruct (G eq_refl eq_refl) as (z2 & Ez2 & Kz2 & G2). rewrite G2. apply sumr_zero. intros j Hj. rewrite K in Hj.
  assert (z2 = z) as -> by congruence. cbv beta zeta.
  assert (Hb : (nth j (z_kept z) 0 < 2)%nat).
  { rewrite <- K, Kz2 in Hj. pose proof (nth_In (z_kept z) 0%nat Hj) as I. apply (proj1 (proj2 (proj2 (c105_kept _ _ _ _ _ _ _ N E)))) in I. apply I. }
  set (c := nth j (z_kept z) 0%nat) in *. clearbody c. assert (Mc : mean 3 (col ex_D c) = 2) by (unfold mean, col, ex_D; apply two in Hb; destruct Hb as [ -> | -> ]; cbn; field).
  rewrite Mc. unfold Rdiv; ring.
Qed.

(** Fewer rows than columns: dgesvd gives min (rows, columns) directions; the other columns of PCs depend on what was in the storage before. *)
Theorem c104_wide_refuted : exists svd n k X, svd_sound svd /\ (n < k)%nat /\ forall v, exists junk r,
  pca_calculate svd junk (Pca true false false false) n k X None = Ok (Some r) /\ r_k r = k /\ r_pcs r 0%nat 2%nat = v.
Proof.
  set (X := fun i j : nat => if (i =? j)%nat then 1 else 0). set (ok := fun A : mtx => forallb (fun i => forallb (fun j => if Req_EM_T (A i j) (X i j) then true else false) (seq 0 3)) (seq 0 2)).
  assert (OK : forall A, ok A = true -> forall i j, (i < 2)%nat -> (j < 3)%nat -> A i j = X i j).
  { intros A H i j Hi Hj. unfold ok in H. rewrite forallb_forall in H. pose proof (H i ltac:(apply in_seq; lia)) as Q. rewrite forallb_forall in Q. pose proof (Q j ltac:(apply in_seq; lia)) as W.
    cbv beta in W. destruct (Req_EM_T (A i j) (X i j)); [assumption|discriminate W]. }
  exists (fun n k A => if ((n =? 2) && (k =? 3) && ok A)%nat%bool then Some (fun _ => 1, X) else None), 2%nat, 3%nat, X. split; [|split; [lia|]].
  - intros n k A s vt. destruct (Nat.eqb_spec n 2) as [ -> | ]; [|discriminate]. destruct (Nat.eqb_spec k 3) as [ -> | ]; [|discriminate]. cbn [andb]. destruct (ok A) eqn:EA; [|discriminate].
    intros E. assert (s = (fun _ => 1) /\ vt = X) as [ -> -> ] by (split; congruence). unfold svd_of. cbn [Nat.min]. split; [intros; lra|]. split; [intros; lra|]. split.
    + intros a b Ha Hb. apply two in Ha, Hb. destruct Ha as [ -> | -> ], Hb as [ -> | -> ]; unfold dot, delta, X; cbn; ring.
    + exists X. split. * intros a b Ha Hb. apply two in Ha, Hb. destruct Ha as [ -> | -> ], Hb as [ -> | -> ]; unfold dot, delta, col, X; cbn; ring.
      * intros i j Hi Hj. rewrite (OK A EA i j Hi Hj). apply two in Hi. destruct Hi as [ -> | -> ]; (destruct j as [|[|[|j]]]; [| | |lia]); unfold X; cbn; ring.
  - intros v. exists (fun _ _ => v). unfold pca_calculate. cbn [pca_data p_center p_scale orb Nat.eqb bind].
    cbn [z_kept z_val z_removed]. rewrite seq_length. cbn [Nat.eqb numbers seq forallb andb negb tonum].
    assert (EX : ok (fun i j => X i j) = true). { apply forallb_forall; intros i _. apply forallb_forall; intros j _. destruct (Req_EM_T (X i j) (X i j)); easy. }
    rewrite EX. cbn [bind]. eexists. split; [reflexivity|]. split; [reflexivity|]. cbn. unfold X. cbn. ring.
Qed.
Print Assumptions c104_wide_refuted.

(** Scaled but not centered: the announced standard deviation is not that of the component (the root of the mean square). *)
Theorem c104_uncentered_refuted : exists X, forall svd junk r, svd_sound svd -> pca_calculate svd junk (Pca true true false true) 2 1 X None = Ok (Some r) ->
  r_stds r 0%nat * r_stds r 0%nat = 5 /\ variance 2 (col (r_pcs r) 0) = 1.
Proof.
  exists (fun i _ => match i with O => 1 | _ => 3 end). set (X := fun i _ : nat => match i with O => 1 | _ => 3 end). intros svd junk r Sd H.
  destruct (c104_defined _ _ _ _ _ _ _ _ H) as (Y & U & N & K0 & Mn).
  destruct (calc_inv _ _ _ _ _ _ _ _ H) as (z & s & vt & E & K & _ & _ & _ & _ & V & _).
  assert (NC : ~ constant 2 (col X 0)). { intros C. pose proof (C 0%nat 1%nat ltac:(lia) ltac:(lia)) as W. unfold col, X in W. lra. }
  assert (KK : z_kept z = [0]%nat).
  { pose proof E as E2. unfold pca_data in E. cbn [p_center p_scale orb p_rz] in E. unfold standardize in E. cbn [Nat.eqb orb] in E. apply (f_equal (fun o => match o with Ok z => z | _ => z end)) in E; cbv beta iota zeta in E. rewrite <- E. cbn [z_kept seq filter andb].
    destruct (is_zero (cvar 2 X 0)) eqn:Z; [|reflexivity]. exfalso. apply (is_zero_spec 2 X 0 ltac:(lia)) in Z. contradiction. }
  assert (K1 : r_k r = 1%nat) by (rewrite K, KK; reflexivity). rewrite K1 in *. cbn [Nat.min] in Mn.
  assert (MX : mean 2 (col X 0) = 2). { unfold mean, col, X. cbn. field. }
  assert (VX : variance 2 (col X 0) = 2). { unfold variance, cov. rewrite MX. unfold col, X. cbn. field. }
  assert (EY : forall i, (i < 2)%nat -> Y i 0%nat = / sqrt 2 * X i 0%nat).
  { intros i Hi. destruct U as (z' & E' & K' & V'). assert (z' = z) as -> by congruence. pose proof E as E2. unfold pca_data in E2. cbn [p_center p_scale orb p_rz] in E2.
    pose proof (proj2 (c105_parts true false true 2 1 X z 0 ltac:(lia) E2 ltac:(rewrite KK; cbn; lia))) as P. rewrite KK in P. cbn [nth] in P.
    pose proof (P (fun _ => NC) i) as W. rewrite V' in W by lia. rewrite VX in W. unfold col in W. assert (W2 : Y i 0%nat = (X i 0%nat - 0) / sqrt 2) by congruence. rewrite W2. unfold Rdiv. ring. }
  pose proof (sqrt_lt_R0 2 ltac:(lra)) as P2. pose proof (sqrt_sqrt 2 ltac:(lra)) as Q2.
  assert (T : r_stds r 0%nat * r_stds r 0%nat = 5).
  { pose proof (total_ svd Sd junk _ _ _ _ _ r H eq_refl Y) as T. rewrite K1, Mn in T. specialize (T U). cbn [sumr Nat.sub INR] in T. unfold dot, col in T. cbn [sumr] in T. rewrite !EY in T by lia.
    replace (r_stds r 0%nat * r_stds r 0%nat) with (0 + r_stds r 0%nat * r_stds r 0%nat) by ring. rewrite T. unfold X. replace (/ sqrt 2 * 1 * (/ sqrt 2 * 1)) with (/ (sqrt 2 * sqrt 2)) by (field; lra).
    replace (/ sqrt 2 * 3 * (/ sqrt 2 * 3)) with (9 / (sqrt 2 * sqrt 2)) by (field; lra). rewrite Q2. field. }
  split; [exact T|].
  destruct (c104_directions svd junk _ _ _ _ _ r Y Sd H eq_refl) as (O & _ & _ & HP). { rewrite K1; exact U. } rewrite K1, Mn in O. rewrite K1 in HP.
  pose proof (O 0%nat 0%nat ltac:(lia) ltac:(lia)) as O0. unfold dot, delta in O0. cbn in O0.
  set (d := r_dirs r 0%nat 0%nat) in *. unfold variance.
  rewrite (cov_ext 2 _ _ (fun i => (/ sqrt 2 * d) * col X 0 i + 0) (fun i => (/ sqrt 2 * d) * col X 0 i + 0)).
  2,3: intros i Hi; unfold col at 1; rewrite (HP i 0%nat Hi); unfold combination; cbn [sumr]; rewrite (EY i Hi); fold d; unfold col; ring.
  change (variance 2 (fun i => / sqrt 2 * d * col X 0 i + 0) = 1). rewrite variance_affine by lia. rewrite VX.
  replace (/ sqrt 2 * d * (/ sqrt 2 * d) * 2) with (d * d * (2 / (sqrt 2 * sqrt 2))) by (field; lra). rewrite Q2. lra.
Qed.
Print Assumptions c104_uncentered_refuted.
