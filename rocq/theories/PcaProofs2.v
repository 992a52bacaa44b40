From Coq Require Import Lia Sorted.
From Verif Require Export PcaProofs.
From Verif Require Import DcProofs.
From Coq Require Import Lra.
Local Open Scope R_scope.

Lemma INR_pos n : (0 < n)%nat -> 0 < INR n. Proof. apply lt_0_INR. Qed.
Lemma mean_ext n a b : (forall i, (i < n)%nat -> a i = b i) -> mean n a = mean n b.
Proof. intros H; unfold mean; rewrite (sumr_ext n a b H); reflexivity. Qed.
Lemma cov_ext n a b c d : (forall i, (i < n)%nat -> a i = c i) -> (forall i, (i < n)%nat -> b i = d i) -> cov n a b = cov n c d.
Proof. intros H K; unfold cov. rewrite (mean_ext n a c H), (mean_ext n b d K). f_equal. apply sumr_ext; intros i Hi; rewrite H, K by easy; reflexivity. Qed.
Lemma mean_affine n a x y : (0 < n)%nat -> mean n (fun i => x * a i + y) = x * mean n a + y.
Proof. intros H; unfold mean. rewrite sumr_plus, sumr_scal, sumr_const. pose proof (INR_pos n H). field. lra. Qed.
Lemma variance_affine n a x y : (0 < n)%nat -> variance n (fun i => x * a i + y) = x * x * variance n a.
Proof.
  intros H; unfold variance, cov. rewrite (mean_affine n a x y H). unfold Rdiv. rewrite <- Rmult_assoc. f_equal. rewrite <- sumr_scal.
  apply sumr_ext; intros; ring.
Qed.
Lemma variance_nonneg n a : (2 <= n)%nat -> 0 <= variance n a.
Proof.
  intros H; unfold variance, cov. pose proof (INR_pos (n - 1) ltac:(lia)). apply Rmult_le_pos; [|apply Rlt_le, Rinv_0_lt_compat; easy].
  apply sumr_nonneg; intros; apply Rle_0_sqr.
Qed.
Lemma variance_zero n a : (2 <= n)%nat -> (variance n a = 0 <-> constant n a).
Proof.
  intros H; pose proof (INR_pos (n - 1) ltac:(lia)) as P; pose proof (INR_pos n ltac:(lia)) as P'. split.
  - intros E. assert (Z : sumr n (fun i => (a i - mean n a) * (a i - mean n a)) = 0).
    { unfold variance, cov in E. apply Rmult_integral in E. destruct E as [E|E]; [exact E|]. pose proof (Rinv_0_lt_compat _ P). lra. }
    pose proof (sumr_nonneg_0 n _ (fun i _ => Rle_0_sqr (a i - mean n a)) Z) as Q. intros i j Hi Hj.
    apply Q in Hi; apply Q in Hj. unfold Rsqr in Hi, Hj. apply Rmult_integral in Hi, Hj. lra.
  - intros C. unfold variance, cov. assert (M : mean n a = a 0%nat).
    { unfold mean. rewrite (sumr_ext n a (fun _ => a 0%nat)) by (intros i Hi; apply C; lia). rewrite sumr_const. field. lra. }
    rewrite sumr_zero; [unfold Rdiv; ring|]. intros i Hi. rewrite M, (C i 0%nat) by lia. ring.
Qed.
Lemma cvar_variance n X j : (2 <= n)%nat -> cvar n X j = Some (variance n (col X j)).
Proof. intros H. unfold cvar. destruct (Nat.ltb_spec n 2); [lia|]. reflexivity. Qed.
Lemma is_zero_spec n X j : (2 <= n)%nat -> is_zero (cvar n X j) = true <-> constant n (col X j).
Proof.
  intros H. rewrite (cvar_variance n X j H). cbn. destruct (Req_EM_T _ 0) as [E|E]; rewrite <- (variance_zero n (col X j) H); intuition congruence.
Qed.
Lemma std_affine n (a : vec) : (2 <= n)%nat -> ~ constant n a -> let y := fun i => (a i - mean n a) / sqrt (variance n a) in mean n y = 0 /\ variance n y = 1 /\ 0 < / sqrt (variance n a).
Proof.
  intros H C y. pose proof (variance_nonneg n a H) as P. assert (P' : 0 < variance n a).
  { destruct P as [P|P]; [exact P|]. exfalso; apply C, (variance_zero n a H). lra. }
  pose proof (sqrt_lt_R0 _ P') as Q. pose proof (sqrt_sqrt _ P) as S2.
  assert (E : forall i, y i = / sqrt (variance n a) * a i + (- mean n a / sqrt (variance n a))) by (intros i; unfold y; field; lra).
  split; [|split].
  - rewrite (mean_ext n y _ (fun i _ => E i)), mean_affine by lia. field. lra.
  - unfold variance at 1. rewrite (cov_ext n y y _ _ (fun i _ => E i) (fun i _ => E i)). change (variance n (fun i => / sqrt (variance n a) * a i + - mean n a / sqrt (variance n a)) = 1).
    rewrite variance_affine by lia. rewrite <- S2 at 3. field. lra.
  - apply Rinv_0_lt_compat; exact Q.
Qed.

(** Ascending lists made by filtering. *)
Lemma filter_ascending f a n : StronglySorted lt (filter f (seq a n)).
Proof.
  revert a; induction n as [|n IH]; intros a; cbn; [constructor|]. destruct (f a); [|apply IH]. constructor; [apply IH|].
  apply Forall_forall. intros x Hx. apply filter_In in Hx. destruct Hx as [Hx _]. apply in_seq in Hx. lia.
Qed.
Lemma filter_all {A} (f : A -> bool) l : (forall x, In x l -> f x = true) -> filter f l = l.
Proof. induction l as [|x l IH]; intros H; cbn; [reflexivity|]. rewrite (H x) by (left; reflexivity). rewrite IH; [reflexivity|]. intros; apply H; right; easy. Qed.
Lemma filter_none {A} (f : A -> bool) l : (forall x, In x l -> f x = false) -> filter f l = [].
Proof. induction l as [|x l IH]; intros H; cbn; [reflexivity|]. rewrite (H x) by (left; reflexivity). apply IH. intros; apply H; right; easy. Qed.
Lemma filter_same {A} (f g : A -> bool) l : (forall x, In x l -> f x = g x) -> filter f l = filter g l.
Proof. induction l as [|x l IH]; intros H; cbn; [reflexivity|]. rewrite (H x) by (left; reflexivity). rewrite IH; [reflexivity|]. intros; apply H; right; easy. Qed.

Lemma standardize_throw rz c s om ov n k X : (n = 0 \/ k = 0)%nat -> standardize rz c s om ov n k X = Throw.
Proof. intros [ -> | -> ]; unfold standardize; [rewrite Bool.orb_true_r|]; reflexivity. Qed.
Lemma standardize_ok rz c s om ov n k X z : standardize rz c s om ov n k X = Ok z -> (0 < n /\ 0 < k)%nat.
Proof. unfold standardize. destruct (Nat.eqb_spec k 0), (Nat.eqb_spec n 0); cbn; try discriminate. lia. Qed.
Lemma standardize_def rz c s om ov n k X : (0 < n)%nat -> (0 < k)%nat -> exists z, standardize rz c s om ov n k X = Ok z.
Proof. intros A B; unfold standardize. destruct (Nat.eqb_spec k 0), (Nat.eqb_spec n 0); try lia. eexists; reflexivity. Qed.

(** ** Inversion of the analysis *)
Lemma numbers_spec n k Z : numbers n k Z = true -> forall i j, (i < n)%nat -> (j < k)%nat -> Z i j = Some (tonum (Z i j)).
Proof.
  unfold numbers. intros H i j Hi Hj. rewrite forallb_forall in H. pose proof (H i ltac:(apply in_seq; lia)) as K. rewrite forallb_forall in K.
  pose proof (K j ltac:(apply in_seq; lia)) as L. cbn in L. destruct (Z i j); [reflexivity|discriminate].
Qed.
Lemma numbers_true n k Z : (forall i j, (i < n)%nat -> (j < k)%nat -> Z i j <> None) -> numbers n k Z = true.
Proof.
  intros H. apply forallb_forall; intros i Hi. apply forallb_forall; intros j Hj. apply in_seq in Hi, Hj. pose proof (H i j ltac:(lia) ltac:(lia)).
  destruct (Z i j); [reflexivity|easy].
Qed.
Section Inv.
Context (svd : svd_fun) (junk : mtx) (p : pca) (n k0 : nat) (X : mtx) (F : option (nat * nat * mtx)) (r : pcar).
Lemma calc_inv : pca_calculate svd junk p n k0 X F = Ok (Some r) -> exists z s vt,
  pca_data p n k0 X = Ok z /\ r_k r = length (z_kept z) /\ r_removed r = z_removed z /\ r_mn r = Nat.min n (r_k r) /\ (2 <= n)%nat /\ (0 < r_k r)%nat /\
  (forall i j, (i < n)%nat -> (j < r_k r)%nat -> z_val z i j = Some (tonum (z_val z i j))) /\
  svd n (r_k r) (fun i j => tonum (z_val z i j)) = Some (s, vt) /\
  (forall l, r_dirs r l = (fun j => if (l <? r_mn r)%nat then vt l j else junk l j)) /\
  (forall l, r_stds r l = s l * (1 / sqrt (INR (n - 1)))) /\
  (forall l, r_ratios r l = let v := sumr (r_mn r) (fun l => r_stds r l * r_stds r l) in if Req_EM_T v 0 then None else Some (r_stds r l * r_stds r l / v)) /\
  (p_pcs p = true -> forall i l, r_pcs r i l = combination (r_k r) (fun i j => tonum (z_val z i j)) (r_dirs r l) i) /\
  match F with
  | None => r_forecasts r = None
  | Some (nf, c, G) => c = k0 /\ if (nf =? 0)%nat then r_forecasts r = None else
      exists zf, (if (p_center p || p_scale p)%bool then standardize (p_rz p) (p_center p) (p_scale p) (z_means z) (z_vars z) nf k0 G else Ok (Stdz None None (seq 0 k0) [] (fun i j => Some (G i j)))) = Ok zf /\
        r_forecasts r = Some (fun i l => combination (r_k r) (fun i j => tonum (z_val zf i j)) (r_dirs r l) i)
  end.
Proof using.
  unfold pca_calculate. destruct (match F with Some (_, c, _) => negb (c =? k0)%nat | None => false end) eqn:EF; [discriminate|].
  destruct (pca_data p n k0 X) as [z| |] eqn:EZ; cbn [bind]; try discriminate. cbv zeta.
  destruct (Nat.eqb_spec (length (z_kept z)) 0) as [|K0]; [discriminate|].
  destruct (numbers n (length (z_kept z)) (z_val z)) eqn:EN; cbn [negb]; [|discriminate].
  destruct (svd n (length (z_kept z)) (fun i j => tonum (z_val z i j))) as [[s vt]|] eqn:ES; [|discriminate].
  destruct (Nat.eqb_spec n 1) as [|N1]; [discriminate|].
  assert (N0 : (2 <= n)%nat).
  { assert (n <> 0)%nat; [|lia]. intros ->. unfold pca_data in EZ. destruct (p_center p || p_scale p)%bool.
    - rewrite standardize_throw in EZ by (left; reflexivity). discriminate.
    - destruct (Nat.eqb_spec k0 0); cbn in EZ; discriminate. }
  destruct F as [[[nf c] G]|].
  - apply Bool.negb_false_iff, Nat.eqb_eq in EF. subst c.
    destruct (nf =? 0)%nat eqn:Enf; cbn [bind].
    + intros H; apply (f_equal (fun o => match o with Ok (Some r) => r | _ => r end)) in H; cbv beta iota in H. subst r.
      exists z, s, vt. repeat split; cbn; try lia; try easy; try (intros; apply numbers_spec with (1 := EN); assumption); try (intros ->; reflexivity).
      try exact ES.
    + destruct (p_center p || p_scale p)%bool eqn:CS.
      * destruct (standardize (p_rz p) (p_center p) (p_scale p) (z_means z) (z_vars z) nf k0 G) as [zf| |] eqn:Ezf; cbn [bind]; try discriminate.
        intros H; apply (f_equal (fun o => match o with Ok (Some r) => r | _ => r end)) in H; cbv beta iota in H. subst r.
        exists z, s, vt. repeat split; cbn; try lia; try easy; try (intros; apply numbers_spec with (1 := EN); assumption); try (intros ->; reflexivity); try exact ES.
        exists zf. split; [exact Ezf|reflexivity].
      * cbn [bind]. intros H; apply (f_equal (fun o => match o with Ok (Some r) => r | _ => r end)) in H; cbv beta iota in H. subst r.
        exists z, s, vt. repeat split; cbn; try lia; try easy; try (intros; apply numbers_spec with (1 := EN); assumption); try (intros ->; reflexivity); try exact ES.
        eexists. split; reflexivity.
  - cbn [bind]. intros H; apply (f_equal (fun o => match o with Ok (Some r) => r | _ => r end)) in H; cbv beta iota in H. subst r.
    exists z, s, vt. repeat split; cbn; try lia; try easy; try (intros; apply numbers_spec with (1 := EN); assumption); try (intros ->; reflexivity); try exact ES.
Qed.
End Inv.
