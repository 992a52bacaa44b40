(** Generalized least squares for systems with restrictions: algebra. *)
From Verif Require Import SurModel SurSpec MatProofs5 LsProofs SurProofs.
From Coq Require Import Lia ZifyBool.
Local Open Scope Qc_scope.

(** ** The inverse of a covariance matrix *)
Lemma inv_sym n s w : StatSpec.symmetric n s -> inverse_of n s w -> StatSpec.symmetric n w.
Proof.
  intros Sy Inv i j Hi Hj. set (wt := fun a b => w b a).
  assert (L : forall a b, (0 <= a < n)%Z -> (0 <= b < n)%Z -> product n wt s a b = iden a b).
  { intros a b Ha Hb. transitivity (iden b a). - rewrite <- (proj1 (Inv b a Hb Ha)). rewrite !product_sum. apply st_ext. intros l Hl. unfold wt. rewrite (Sy l b) by auto. ring.
    - unfold iden. rewrite Z.eqb_sym. auto. }
  transitivity (product n iden w i j); [symmetry; apply product_iden; auto|]. rewrite <- (product_ext' n (product n wt s) iden w w) by (intros l Hl; split; auto).
  rewrite product_assoc'. rewrite (product_ext' n wt wt (product n s w) iden) by (intros l Hl; split; [auto|apply Inv; auto]). rewrite product_iden_r by auto. reflexivity.
Qed.
Lemma inv_psd n s w : StatSpec.symmetric n s -> psd n s -> inverse_of n s w -> psd n w.
Proof.
  intros Sy Ps Inv v. assert (Sw := inv_sym n s w Sy Inv). set (u := fun i => sum_to n (fun j => w i j * v j)).
  assert (Vu : forall i, (0 <= i < n)%Z -> v i = sum_to n (fun j => s i j * u j)).
  { intros i Hi. unfold u. rewrite (st_ext n _ (fun j => sum_to n (fun l => s i j * w j l * v l))) by (intros; rewrite <- st_mul; apply st_ext; intros; ring).
    rewrite st_swap. rewrite (st_ext n _ (fun l => if (i =? l)%Z then v l else 0)).
    - symmetry. apply (st_pick n v). auto.
    - intros l Hl. rewrite st_mul_r. change (sum_to n (fun t => s i t * w t l)) with (product n s w i l). rewrite (proj1 (Inv i l Hi Hl)). unfold iden. destruct (i =? l)%Z; ring. }
  replace (sum_to n (fun t => sum_to n (fun j => v t * w t j * v j))) with (sum_to n (fun t => sum_to n (fun j => u t * s t j * u j))); [apply Ps|].
  transitivity (sum_to n (fun t => u t * v t)).
  - apply st_ext. intros t Ht. rewrite (Vu t Ht), <- st_mul. apply st_ext. intros. ring.
  - apply st_ext. intros t Ht. unfold u. rewrite <- st_mul_r. apply st_ext. intros. ring.
Qed.
Lemma cross_sym N e i j : cross N e i j = cross N e j i.
Proof. unfold cross. apply st_ext. intros. ring. Qed.
Lemma cross_psd N m e (d : Qc) : 0 <= d -> psd m (fun i j => cross N e i j * d).
Proof.
  intros Hd v. rewrite (st_ext m _ (fun i => sum_to N (fun t => sum_to m (fun j => d * (e t i * v i) * (e t j * v j))))).
  - rewrite st_swap. apply st_nonneg. intros t _. rewrite (st_ext m _ (fun i => d * (e t i * v i) * sum_to m (fun j => e t j * v j))) by (intros; rewrite <- st_mul; apply st_ext; intros; ring).
    rewrite st_mul_r. rewrite st_mul. set (q := sum_to m _).
    replace (d * q * q) with (d * (q * q)) by ring. assert (Q := sq_nn q). assert (P := Qcmult_le_compat_r _ _ _ Hd Q). rewrite Qcmult_0_l in P. auto.
  - intros i _. rewrite st_swap. apply st_ext. intros j _. unfold cross. rewrite <- !st_mul_r, <- st_mul, <- st_mul_r. apply st_ext. intros. ring.
Qed.

(** ** Systems *)
Section Sys.
Context (N m k q : Z) (W y x R : Z -> Z -> Qc).
Hypothesis Sy : StatSpec.symmetric m W.
Local Notation e b := (residual k y x b).
Local Notation B := (restricted k q R).
(** The bilinear form of the weights. *)
Definition bil (u v : Z -> Z -> Qc) : Qc := sum_to m (fun i => sum_to m (fun j => W i j * sum_to N (fun t => u t i * v t j))).
Lemma bil_ssr u : sys_ssr N m W u = bil u u. Proof. reflexivity. Qed.
Lemma bil_sym u v : bil u v = bil v u.
Proof using Sy.
  unfold bil. rewrite st_swap. apply st_ext. intros j Hj. apply st_ext. intros i Hi. rewrite (Sy i j) by auto. f_equal. apply st_ext. intros. ring.
Qed.
Lemma bil_lin c u v w : bil (fun t j => u t j - c * v t j) w = bil u w - c * bil v w.
Proof.
  unfold bil. rewrite <- st_mul, <- st_sub. apply st_ext. intros i _. rewrite <- st_mul, <- st_sub. apply st_ext. intros j _.
  rewrite (st_ext N _ (fun t => u t i * w t j - c * (v t i * w t j))) by (intros; ring). rewrite st_sub, st_mul. ring.
Qed.
Lemma bil_ext u u' v v' : (forall t j, (0 <= t < N)%Z -> (0 <= j < m)%Z -> u t j = u' t j) -> (forall t j, (0 <= t < N)%Z -> (0 <= j < m)%Z -> v t j = v' t j) -> bil u v = bil u' v'.
Proof. intros Hu Hv. unfold bil. apply st_ext. intros i Hi. apply st_ext. intros j Hj. f_equal. apply st_ext. intros t Ht. rewrite Hu, Hv; auto. Qed.
(** What coefficients B d explain. *)
Definition moves (d : Z -> Qc) (t j : Z) : Qc := sum_to k (fun i => x t i * B d i j).
Lemma restricted_sub c g d i j : B (fun l => g l - c * d l) i j = B g i j - c * B d i j.
Proof. unfold restricted. rewrite <- st_mul, <- st_sub. apply st_ext. intros. ring. Qed.
Lemma residual_move g d t j : e (B d) t j = e (B g) t j - 1 * moves (fun l => d l - 1 * g l) t j.
Proof.
  unfold residual, moves. rewrite (st_ext k (fun i => x t i * B (fun l => d l - 1 * g l) i j) (fun i => x t i * B d i j - x t i * B g i j)) by (intros; rewrite restricted_sub; ring).
  rewrite st_sub. ring.
Qed.
(** The derivative of the objective in the direction of coefficient l. *)
Definition grad (b : Z -> Z -> Qc) (l : Z) : Qc := sum_to m (fun j' => sum_to m (fun j => W j' j * sum_to k (fun i => R (j' * k + i)%Z l * sum_to N (fun t => x t i * e b t j)))).
Lemma bil_moves d v : bil (moves d) v = sum_to q (fun l => d l * sum_to m (fun j' => sum_to m (fun j => W j' j * sum_to k (fun i => R (j' * k + i)%Z l * sum_to N (fun t => x t i * v t j))))).
Proof.
  unfold bil.
  transitivity (sum_to m (fun j' => sum_to m (fun j => sum_to q (fun l => d l * (W j' j * sum_to k (fun i => R (j' * k + i)%Z l * sum_to N (fun t => x t i * v t j))))))).
  - apply st_ext. intros j' _. apply st_ext. intros j _.
    rewrite (st_ext q _ (fun l => W j' j * sum_to k (fun i => d l * (R (j' * k + i)%Z l * sum_to N (fun t => x t i * v t j))))) by (intros; rewrite st_mul; ring).
    rewrite st_mul. f_equal. rewrite st_swap. unfold moves.
    rewrite (st_ext N _ (fun t => sum_to k (fun i => x t i * B d i j' * v t j))) by (intros; rewrite <- st_mul_r; auto). rewrite st_swap. apply st_ext. intros i _.
    rewrite (st_ext N _ (fun t => B d i j' * (x t i * v t j))) by (intros; ring). rewrite st_mul. unfold restricted. rewrite <- st_mul_r. apply st_ext. intros. ring.
  - rewrite (st_ext m _ (fun j' => sum_to q (fun l => d l * sum_to m (fun j => W j' j * sum_to k (fun i => R (j' * k + i)%Z l * sum_to N (fun t => x t i * v t j)))))).
    + rewrite st_swap. apply st_ext. intros l _. rewrite <- st_mul. auto.
    + intros j' _. rewrite st_swap. apply st_ext. intros l _. rewrite <- st_mul. auto.
Qed.
(** The objective at other coefficients. *)
Lemma objective_at g d : (forall l, (0 <= l < q)%Z -> grad (B g) l = 0) ->
  sys_ssr N m W (e (B d)) = sys_ssr N m W (e (B g)) + bil (moves (fun l => d l - 1 * g l)) (moves (fun l => d l - 1 * g l)).
Proof using Sy.
  intros G. rewrite !bil_ssr. set (mv := moves _). set (eg := fun t j => e (B g) t j).
  rewrite (bil_ext (e (B d)) (fun t j => eg t j - 1 * mv t j) (e (B d)) (fun t j => eg t j - 1 * mv t j)) by (intros; apply residual_move).
  assert (C : bil mv eg = 0). { unfold mv. rewrite bil_moves. rewrite (st_ext q _ (fun _ => 0)); [apply st_zero|]. intros l Hl. specialize (G l Hl). unfold grad in G. unfold eg. rewrite G. ring. }
  rewrite bil_lin, (bil_sym eg), (bil_sym mv), !bil_lin, C, (bil_sym eg mv), C. fold eg. change (bil (e (B g)) (e (B g))) with (bil eg eg). ring.
Qed.
Hypothesis Ps : psd m W.
Lemma bil_psd u : 0 <= bil u u.
Proof using Ps.
  unfold bil. replace (sum_to m (fun i => sum_to m (fun j => W i j * sum_to N (fun t => u t i * u t j)))) with (sum_to N (fun t => sum_to m (fun i => sum_to m (fun j => u t i * W i j * u t j)))).
  - apply st_nonneg. intros t _. apply (Ps (u t)).
  - rewrite st_swap. apply st_ext. intros i _. rewrite st_swap. apply st_ext. intros j _. rewrite <- st_mul. apply st_ext. intros. ring.
Qed.
Lemma gls_min g d : (forall l, (0 <= l < q)%Z -> grad (B g) l = 0) -> sys_ssr N m W (e (B g)) <= sys_ssr N m W (e (B d)).
Proof using Sy Ps. intros G. rewrite (objective_at g d G). assert (P := bil_psd (moves (fun l => d l - 1 * g l))). qlra. Qed.
(** A direction in which the form vanishes is orthogonal to all. *)
Lemma bil_null u v : bil u u = 0 -> bil u v = 0.
Proof using Sy Ps.
  intros H. set (c := bil u v). set (a := bil v v).
  assert (P : forall s, 0 <= a - s * c - s * c). { intros s. assert (P := bil_psd (fun t j => v t j - s * u t j)). rewrite bil_lin, (bil_sym v), (bil_sym u), !bil_lin, H in P. rewrite (bil_sym v u) in P. fold a c in P. replace (a - s * c - s * (c - s * 0)) with (a - s * c - s * c) in P by ring. auto. }
  destruct (Qc_eq_dec c 0) as [E|E]; auto. exfalso. specialize (P ((a + 1) / c)). replace ((a + 1) / c * c) with (a + 1) in P by (field; auto).
  assert (A : 0 <= a) by (apply bil_psd). qlra.
Qed.
End Sys.

(** ** The estimator solves the normal equations *)
Section Normal.
Context (N m k q : nat) (W y x R G : Z -> Z -> Qc) (g : Z -> Qc).
Local Notation Nz := (Z.of_nat N).
Local Notation mz := (Z.of_nat m).
Local Notation kz := (Z.of_nat k).
Local Notation qz' := (Z.of_nat q).
Local Notation kmz := (Z.of_nat (k * m)).
Local Notation Nmz := (Z.of_nat (N * m)).
Local Notation XX := (product Nz (fun i l => x l i) x).
Local Notation rv := (product kmz (fun i l => R l i) (kronf k k W XX)).
Local Notation gram := (product kmz rv R).
Local Notation wxr := (product kmz (kronf N k W x) R).
Local Notation zz := (product Nmz (fun i l => wxr l i) (fun t _ => y (t mod Nz)%Z (t / Nz)%Z)).
Hypothesis Sy : StatSpec.symmetric mz W.
Hypothesis Pk : (0 < k)%nat.
Hypothesis PN : (0 < N)%nat.
Lemma st_km f : sum_to kmz f = sum_to mz (fun j => sum_to kz (fun i => f (j * kz + i)%Z)).
Proof. replace kmz with (mz * kz)%Z by lia. apply st_split. lia. Qed.
Lemma st_Nm f : sum_to Nmz f = sum_to mz (fun j => sum_to Nz (fun i => f (j * Nz + i)%Z)).
Proof. replace Nmz with (mz * Nz)%Z by lia. apply st_split. lia. Qed.
Lemma z_form l : zz l 0%Z = sum_to mz (fun j' => sum_to mz (fun j => W j' j * sum_to kz (fun i => R (j' * kz + i)%Z l * sum_to Nz (fun t => x t i * y t j)))).
Proof using Sy Pk PN.
  rewrite product_sum, st_Nm. rewrite st_swap with (n := mz) (m := mz). apply st_ext. intros j Hj.
  transitivity (sum_to Nz (fun t => sum_to mz (fun j' => sum_to kz (fun i => W j' j * (R (j' * kz + i)%Z l * (x t i * y t j)))))).
  - apply st_ext. intros t Ht. destruct (pair_div j t Nz Ht) as (-> & ->). rewrite product_sum, st_km, <- st_mul_r. apply st_ext. intros j' Hj'. rewrite <- st_mul_r. apply st_ext. intros i Hi.
    unfold kronf. destruct (pair_div j t Nz Ht) as (-> & ->). destruct (pair_div j' i kz Hi) as (-> & ->). rewrite (Sy j j') by auto. ring.
  - rewrite st_swap. apply st_ext. intros j' _. rewrite st_swap. rewrite <- st_mul. apply st_ext. intros i _. rewrite <- !st_mul. apply st_ext. intros. ring.
Qed.
Lemma gram_form l (d : Z -> Qc) : sum_to qz' (fun l' => gram l l' * d l') =
  sum_to mz (fun j' => sum_to mz (fun j => W j' j * sum_to kz (fun i => R (j' * kz + i)%Z l * sum_to Nz (fun t => x t i * sum_to kz (fun i' => x t i' * restricted kz qz' R d i' j))))).
Proof using Pk PN.
  transitivity (sum_to kmz (fun a => rv l a * sum_to qz' (fun l' => R a l' * d l'))).
  { rewrite (st_ext qz' _ (fun l' => sum_to kmz (fun a => rv l a * R a l' * d l'))) by (intros; rewrite product_sum, <- st_mul_r; auto). rewrite st_swap. apply st_ext. intros a _. rewrite <- st_mul. apply st_ext. intros. ring. }
  rewrite st_km. rewrite st_swap with (n := mz) (m := mz). apply st_ext. intros j Hj.
  transitivity (sum_to kz (fun i' => sum_to mz (fun j' => sum_to kz (fun i => W j' j * (R (j' * kz + i)%Z l * (XX i i' * restricted kz qz' R d i' j)))))).
  - apply st_ext. intros i' Hi'. rewrite product_sum, st_km, <- st_mul_r. apply st_ext. intros j' Hj'. rewrite <- st_mul_r. apply st_ext. intros i Hi. unfold kronf.
    destruct (pair_div j' i kz Hi) as (-> & ->). destruct (pair_div j i' kz Hi') as (-> & ->). unfold restricted. ring.
  - rewrite st_swap. apply st_ext. intros j' _. rewrite st_swap. rewrite <- st_mul. apply st_ext. intros i _. rewrite !st_mul. do 2 f_equal.
    rewrite (st_ext kz _ (fun i' => sum_to Nz (fun t => x t i * x t i' * restricted kz qz' R d i' j))) by (intros; rewrite product_sum, <- st_mul_r; auto).
    rewrite st_swap. apply st_ext. intros t _. rewrite <- st_mul. apply st_ext. intros. ring.
Qed.
Lemma grad_form l d : grad Nz mz kz W y x R (restricted kz qz' R d) l = zz l 0%Z - sum_to qz' (fun l' => gram l l' * d l').
Proof using Sy Pk PN.
  rewrite z_form, gram_form. unfold grad. rewrite <- st_sub. apply st_ext. intros j' _. rewrite <- st_sub. apply st_ext. intros j _.
  rewrite <- (Qcmult_comm (sum_to kz _)), <- (Qcmult_comm (sum_to kz (fun i => _ * sum_to Nz (fun t => x t i * y t j)))), <- (Qcmult_comm (sum_to kz (fun i => _ * sum_to Nz (fun t => _ * sum_to kz _)))).
  transitivity ((sum_to kz (fun i => R (j' * kz + i)%Z l * sum_to Nz (fun t => x t i * y t j)) - sum_to kz (fun i => R (j' * kz + i)%Z l * sum_to Nz (fun t => x t i * sum_to kz (fun i' => x t i' * restricted kz qz' R d i' j)))) * W j' j); [|ring].
  f_equal. rewrite <- st_sub. apply st_ext. intros i _.
  transitivity (R (j' * kz + i)%Z l * (sum_to Nz (fun t => x t i * y t j) - sum_to Nz (fun t => x t i * sum_to kz (fun i' => x t i' * restricted kz qz' R d i' j)))); [|ring]. f_equal. rewrite <- st_sub. apply st_ext. intros t _. unfold residual. ring.
Qed.
Hypothesis Inv : inverse_of qz' gram G.
Hypothesis Hg : forall l, (0 <= l < qz')%Z -> g l = product qz' G zz l 0%Z.
Lemma gls_normal l : (0 <= l < qz')%Z -> grad Nz mz kz W y x R (restricted kz qz' R g) l = 0.
Proof using All.
  intros Hl. rewrite grad_form. rewrite (st_ext qz' _ (fun l' => gram l l' * product qz' G zz l' 0%Z)) by (intros; rewrite Hg; auto).
  change (sum_to qz' (fun l' => gram l l' * product qz' G zz l' 0%Z)) with (product qz' gram (product qz' G zz) l 0%Z). rewrite <- product_assoc'.
  rewrite (product_ext' qz' (product qz' gram G) iden zz zz) by (intros l' Hl'; split; [apply Inv; auto|auto]). rewrite product_iden by auto. ring.
Qed.
Lemma gls_unique d : (forall l, (0 <= l < qz')%Z -> grad Nz mz kz W y x R (restricted kz qz' R d) l = 0) -> forall l, (0 <= l < qz')%Z -> d l = g l.
Proof using All.
  intros Hd l Hl. rewrite (Hg l Hl).
  rewrite <- (product_ext' qz' G G (fun l' _ => sum_to qz' (fun l2 => gram l' l2 * d l2)) zz l 0%Z).
  2:{ intros l' Hl'. split; auto. specialize (Hd l' Hl'). rewrite grad_form in Hd. qlra. }
  change (product qz' G (fun l' _ => sum_to qz' (fun l2 => gram l' l2 * d l2)) l 0%Z) with (product qz' G (product qz' gram (fun l2 _ => d l2)) l 0%Z).
  rewrite <- product_assoc'. rewrite (product_ext' qz' (product qz' G gram) iden (fun l2 _ => d l2) (fun l2 _ => d l2)) by (intros l' Hl'; split; [apply Inv; auto|auto]). rewrite product_iden by auto. reflexivity.
Qed.
Hypothesis Ps : psd mz W.
(** Every other choice of the free coefficients is worse. *)
Lemma gls_strict d : sys_ssr Nz mz W (residual kz y x (restricted kz qz' R d)) <= sys_ssr Nz mz W (residual kz y x (restricted kz qz' R g)) -> forall l, (0 <= l < qz')%Z -> d l = g l.
Proof using All.
  intros H. assert (O := objective_at Nz mz kz qz' W y x R Sy g d (fun l Hl => gls_normal l Hl)).
  assert (P := bil_psd Nz mz W Ps (moves kz qz' x R (fun l => d l - 1 * g l))). set (dd := fun l => d l - 1 * g l) in *.
  assert (Z0 : bil Nz mz W (moves kz qz' x R dd) (moves kz qz' x R dd) = 0) by (apply Qcle_antisym; [qlra|auto]).
  assert (D0 : forall l, (0 <= l < qz')%Z -> sum_to qz' (fun l' => gram l l' * dd l') = 0).
  { intros l Hl. rewrite gram_form. set (unit := fun l' => if (l =? l')%Z then 1 else 0).
    assert (C := bil_null Nz mz W Sy Ps (moves kz qz' x R dd) (moves kz qz' x R unit) Z0). rewrite bil_sym, bil_moves in C by auto.
    rewrite <- C. rewrite (st_ext qz' _ (fun l' => if (l =? l')%Z then sum_to mz (fun j' => sum_to mz (fun j => W j' j * sum_to kz (fun i => R (j' * kz + i)%Z l' * sum_to Nz (fun t => x t i * moves kz qz' x R dd t j)))) else 0)).
    - rewrite (st_pick qz' (fun l' => sum_to mz (fun j' => sum_to mz (fun j => W j' j * sum_to kz (fun i => R (j' * kz + i)%Z l' * sum_to Nz (fun t => x t i * moves kz qz' x R dd t j)))))) by auto. reflexivity.
    - intros l' Hl'. unfold unit. destruct (l =? l')%Z; ring. }
  intros l Hl. assert (E : dd l = 0).
  { transitivity (product qz' iden (fun l2 _ => dd l2) l 0%Z); [symmetry; apply product_iden; auto|].
    rewrite <- (product_ext' qz' (product qz' G gram) iden (fun l2 _ => dd l2) (fun l2 _ => dd l2)) by (intros l' Hl'; split; [apply Inv; auto|auto]). rewrite product_assoc', product_sum.
    rewrite (st_ext qz' _ (fun _ => 0)); [apply st_zero|]. intros l' Hl'. change (product qz' gram (fun l2 _ => dd l2) l' 0%Z) with (sum_to qz' (fun l2 => gram l' l2 * dd l2)). rewrite D0 by auto. ring. }
  unfold dd in E. qlra.
Qed.
End Normal.
