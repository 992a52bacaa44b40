(** Sums and least squares. *)
From Verif Require Import StatSpec MatProofs DataProofs.
From Coq Require Import Lia ZifyBool.
Local Open Scope Qc_scope.

Lemma in_upto n t : In t (upto n) <-> (0 <= t < n)%Z.
Proof. exact (in_zrange 0 n t). Qed.
Lemma st_ext n f g : (forall t, (0 <= t < n)%Z -> f t = g t) -> sum_to n f = sum_to n g.
Proof. intros H. unfold sum_to. f_equal. apply map_ext_in. intros t Ht. apply H. apply in_upto. auto. Qed.
Lemma qsum_cons' x l : qsum (x :: l) = x + qsum l. Proof. reflexivity. Qed.
Lemma st_add n f g : sum_to n (fun t => f t + g t) = sum_to n f + sum_to n g.
Proof. unfold sum_to. induction (upto n) as [|a l IH]; [reflexivity|]. cbn [map]. rewrite !qsum_cons', IH. ring. Qed.
Lemma st_mul n c f : sum_to n (fun t => c * f t) = c * sum_to n f.
Proof. unfold sum_to. induction (upto n) as [|a l IH]; [cbn; ring|]. cbn [map]. rewrite !qsum_cons', IH. ring. Qed.
Lemma st_mul_r n c f : sum_to n (fun t => f t * c) = sum_to n f * c.
Proof. rewrite (Qcmult_comm (sum_to n f)), <- st_mul. apply st_ext. intros. ring. Qed.
Lemma st_sub n f g : sum_to n (fun t => f t - g t) = sum_to n f - sum_to n g.
Proof. unfold sum_to. induction (upto n) as [|a l IH]; [reflexivity|]. cbn [map]. rewrite !qsum_cons', IH. ring. Qed.
Lemma st_zero n : sum_to n (fun _ => 0) = 0.
Proof. unfold sum_to. induction (upto n) as [|a l IH]; [reflexivity|]. cbn [map]. rewrite qsum_cons', IH. ring. Qed.
Lemma st_swap n m f : sum_to n (fun t => sum_to m (fun s => f t s)) = sum_to m (fun s => sum_to n (fun t => f t s)).
Proof.
  unfold sum_to at 1 4. generalize (upto n). induction l as [|a l IH].
  - cbn. unfold sum_to. symmetry. apply (st_zero m).
  - cbn [map]. rewrite qsum_cons', IH, <- st_add. apply st_ext. intros. reflexivity.
Qed.
Lemma st_nonneg n f : (forall t, (0 <= t < n)%Z -> 0 <= f t) -> 0 <= sum_to n f.
Proof.
  intros H. assert (G : Forall (fun t => 0 <= f t) (upto n)) by (apply Forall_forall; intros t Ht; apply H, in_upto; auto).
  unfold sum_to. induction G as [|a l Ha G IH]; [apply Qcle_refl|]. cbn [map]. rewrite qsum_cons'. qlra.
Qed.
Lemma st_pick n f i : (0 <= i < n)%Z -> sum_to n (fun t => (if (i =? t)%Z then f t else 0)) = f i.
Proof.
  intros H. unfold sum_to. assert (I0 : In i (upto n)) by (apply in_upto; auto).
  assert (N : NoDup (upto n)) by (unfold upto; apply FinFun.Injective_map_NoDup; [intros a b; lia|apply seq_NoDup]).
  assert (Z0 : forall l, ~ In i l -> qsum (map (fun t => if (i =? t)%Z then f t else 0) l) = 0).
  { induction l as [|a l IH]; intros Hl; [reflexivity|]. cbn [map]. rewrite qsum_cons'. destruct (Z.eqb_spec i a) as [->|]; [exfalso; apply Hl; left; auto|]. rewrite IH by (intros K; apply Hl; right; auto). ring. }
  induction (upto n) as [|a l IH]; [contradiction|]. apply NoDup_cons_iff in N. destruct N as [Na N]. cbn [map]. rewrite qsum_cons'.
  destruct (Z.eqb_spec i a) as [->|Ne].
  - rewrite Z0 by auto. ring.
  - destruct I0 as [->|I0]; [congruence|]. rewrite IH by auto. ring.
Qed.
Lemma product_sum n a b i j : product n a b i j = sum_to n (fun l => a i l * b l j). Proof. reflexivity. Qed.
Lemma product_iden n b i j : (0 <= i < n)%Z -> product n iden b i j = b i j.
Proof.
  intros H. rewrite product_sum. rewrite (st_ext n _ (fun l => if (i =? l)%Z then b l j else 0)). - apply (st_pick n (fun l => b l j)). auto.
  - intros t Ht. unfold iden. destruct (i =? t)%Z; ring.
Qed.
Lemma product_iden_r n b i j : (0 <= j < n)%Z -> product n b iden i j = b i j.
Proof.
  intros H. rewrite product_sum. rewrite (st_ext n _ (fun l => if (j =? l)%Z then b i l else 0)). - apply (st_pick n (fun l => b i l)). auto.
  - intros t Ht. unfold iden. destruct (Z.eqb_spec t j), (Z.eqb_spec j t); subst; try congruence; ring.
Qed.
Lemma product_assoc' m n a b c i j : product n (product m a b) c i j = product m a (product n b c) i j.
Proof.
  rewrite !product_sum. transitivity (sum_to n (fun l => sum_to m (fun p => a i p * b p l * c l j))).
  - apply st_ext. intros l _. rewrite product_sum, <- st_mul_r. apply st_ext. intros. ring.
  - rewrite st_swap. apply st_ext. intros p _. rewrite product_sum, <- st_mul. apply st_ext. intros. ring.
Qed.
Lemma product_ext' n a a' b b' i j : (forall l, (0 <= l < n)%Z -> a i l = a' i l /\ b l j = b' l j) -> product n a b i j = product n a' b' i j.
Proof. intros H. rewrite !product_sum. apply st_ext. intros l Hl. destruct (H l Hl) as [-> ->]. auto. Qed.
(** X' (Y - X B) = 0 if B = (X' X)^-1 X' Y; in general X' W (Y - X B) = 0 if B = (X' W X)^-1 X' W Y. *)
Lemma normal_equations N k (xt x g y b : Z -> Z -> Qc) j : (forall i l, (0 <= i < k)%Z -> (0 <= l < k)%Z -> product k (product N xt x) g i l = iden i l) ->
  (forall l, (0 <= l < k)%Z -> b l j = product N (product k g xt) y l j) -> forall i, (0 <= i < k)%Z -> sum_to N (fun t => xt i t * residual k y x b t j) = 0.
Proof.
  intros G B i Hi. unfold residual.
  rewrite (st_ext N _ (fun t => xt i t * y t j - xt i t * product k x b t j)) by (intros; rewrite product_sum; ring).
  rewrite st_sub. change (sum_to N (fun t => xt i t * product k x b t j)) with (product N xt (product k x b) i j). rewrite <- product_assoc'.
  assert (E : product k (product N xt x) b i j = product N xt y i j).
  { rewrite (product_ext' k _ (product N xt x) _ (product N (product k g xt) y)) by (intros l Hl; split; auto).
    rewrite (product_ext' k _ (product N xt x) _ (product k g (product N xt y))) by (intros l Hl; split; [auto|apply product_assoc']).
    rewrite <- product_assoc'. rewrite (product_ext' k _ iden _ (product N xt y)) by (intros l Hl; split; auto). apply product_iden. auto. }
  rewrite E. rewrite product_sum. ring.
Qed.
(** A solution of the normal equations minimizes the weighted sum of squares. *)
Lemma wssr_min N k (w y x b c : Z -> Z -> Qc) j : symmetric N w -> psd N w ->
  (forall i, (0 <= i < k)%Z -> sum_to N (fun t => sum_to N (fun s => x s i * w s t) * residual k y x b t j) = 0) -> wssr N k w y x b j <= wssr N k w y x c j.
Proof.
  intros Sy Ps H. set (r := fun t => residual k y x b t j). set (u := fun t => sum_to k (fun l => x t l * (c l j - b l j))).
  assert (Rc : forall t, residual k y x c t j = r t - u t).
  { intros t. unfold r, u, residual. rewrite (st_ext k (fun l => x t l * (c l j - b l j)) (fun l => x t l * c l j - x t l * b l j)) by (intros; ring). rewrite st_sub. ring. }
  assert (Cr : sum_to N (fun t => sum_to N (fun s => u s * w s t * r t)) = 0).
  { rewrite (st_ext N _ (fun t => sum_to k (fun l => (c l j - b l j) * (sum_to N (fun s => x s l * w s t) * r t)))).
    - rewrite st_swap. rewrite (st_ext k _ (fun _ => 0)); [apply st_zero|]. intros l Hl. rewrite st_mul. unfold r. rewrite H by auto. ring.
    - intros t _. rewrite (st_ext N _ (fun s => sum_to k (fun l => (c l j - b l j) * (x s l * w s t) * r t))).
      + rewrite st_swap. apply st_ext. intros l _. rewrite <- st_mul_r, <- st_mul. apply st_ext. intros. ring.
      + intros s _. unfold u. rewrite <- !st_mul_r. apply st_ext. intros. ring. }
  assert (Cr2 : sum_to N (fun t => sum_to N (fun s => r t * w t s * u s)) = 0).
  { rewrite <- Cr. apply st_ext. intros t Ht. apply st_ext. intros s Hs. rewrite (Sy t s) by auto. ring. }
  assert (Cr1 : sum_to N (fun t => sum_to N (fun s => u t * w t s * r s)) = 0) by (rewrite st_swap; exact Cr).
  assert (E : wssr N k w y x c j = wssr N k w y x b j + sum_to N (fun t => sum_to N (fun s => u t * w t s * u s))).
  { unfold wssr. fold (r 0%Z).
    rewrite (st_ext N _ (fun t => (sum_to N (fun s => r t * w t s * r s) - sum_to N (fun s => r t * w t s * u s)) - (sum_to N (fun s => u t * w t s * r s) - sum_to N (fun s => u t * w t s * u s)))).
    - rewrite !st_sub, Cr1, Cr2. unfold r. ring.
    - intros t _. rewrite <- !st_sub. apply st_ext. intros s _. rewrite !Rc. ring. }
  rewrite E. specialize (Ps u). qlra.
Qed.
Lemma ssr_wssr N k y x b j : ssr N k y x b j = wssr N k iden y x b j.
Proof.
  unfold ssr, wssr. apply st_ext. intros t Ht. rewrite (st_ext N _ (fun s => if (t =? s)%Z then residual k y x b t j * residual k y x b s j else 0)).
  - rewrite (st_pick N (fun s => residual k y x b t j * residual k y x b s j)) by auto. reflexivity.
  - intros s _. unfold iden. destruct (t =? s)%Z; ring.
Qed.
Lemma sq_nn (a : Qc) : 0 <= a * a.
Proof.
  destruct (Qclt_le_dec a 0) as [L|L].
  - assert (P : 0 <= - a) by qlra. replace (a * a) with ((- a) * (- a)) by ring. assert (P2 := Qcmult_le_compat_r _ _ _ P P). rewrite Qcmult_0_l in P2. auto.
  - assert (P2 := Qcmult_le_compat_r _ _ _ L L). rewrite Qcmult_0_l in P2. auto.
Qed.
Lemma iden_sym N : symmetric N iden.
Proof. intros i j _ _. unfold iden. destruct (Z.eqb_spec i j), (Z.eqb_spec j i); congruence. Qed.
Lemma iden_psd N : psd N iden.
Proof.
  intros v. apply st_nonneg. intros t Ht. rewrite (st_ext N _ (fun s => if (t =? s)%Z then v t * v s else 0)).
  - rewrite (st_pick N (fun s => v t * v s)) by auto. apply sq_nn.
  - intros s _. unfold iden. destruct (t =? s)%Z; ring.
Qed.
Lemma ssr_min N k (y x b c : Z -> Z -> Qc) j : (forall i, (0 <= i < k)%Z -> sum_to N (fun t => x t i * residual k y x b t j) = 0) -> ssr N k y x b j <= ssr N k y x c j.
Proof.
  intros H. rewrite !ssr_wssr. apply wssr_min; [apply iden_sym|apply iden_psd|]. intros i Hi. rewrite <- (H i Hi). apply st_ext. intros t Ht. f_equal.
  rewrite (st_ext N _ (fun s => if (t =? s)%Z then x s i else 0)); [apply (st_pick N (fun s => x s i)); auto|]. intros s _. unfold iden. destruct (Z.eqb_spec s t), (Z.eqb_spec t s); subst; try congruence; ring.
Qed.
(** The normal equations have one solution if the matrix has an inverse. *)
Lemma normal_product N k (xt x y b : Z -> Z -> Qc) j i : sum_to N (fun t => xt i t * residual k y x b t j) = 0 -> product k (product N xt x) b i j = product N xt y i j.
Proof.
  unfold residual. rewrite (st_ext N _ (fun t => xt i t * y t j - xt i t * product k x b t j)) by (intros; rewrite product_sum; ring).
  rewrite st_sub. change (sum_to N (fun t => xt i t * product k x b t j)) with (product N xt (product k x b) i j). rewrite <- product_assoc'.
  intros E. rewrite (product_sum N xt y). qlra.
Qed.
Lemma normal_unique N k (xt x g y b c : Z -> Z -> Qc) j : (forall i l, (0 <= i < k)%Z -> (0 <= l < k)%Z -> product k g (product N xt x) i l = iden i l) ->
  (forall i, (0 <= i < k)%Z -> sum_to N (fun t => xt i t * residual k y x b t j) = 0) -> (forall i, (0 <= i < k)%Z -> sum_to N (fun t => xt i t * residual k y x c t j) = 0) ->
  forall i, (0 <= i < k)%Z -> b i j = c i j.
Proof.
  intros G B C i Hi.
  assert (S1 : forall b, (forall i, (0 <= i < k)%Z -> sum_to N (fun t => xt i t * residual k y x b t j) = 0) -> b i j = product k g (product N xt y) i j).
  { clear b c B C. intros b B. rewrite <- (product_ext' k g g (product k (product N xt x) b)) by (intros l Hl; split; [auto|apply normal_product; auto]).
    rewrite <- product_assoc'. rewrite (product_ext' k _ iden b b) by (intros l Hl; split; auto). symmetry. apply product_iden. auto. }
  rewrite (S1 b B), (S1 c C). reflexivity.
Qed.
