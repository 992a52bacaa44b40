From Verif Require Import Num HistModel HistSpec DescSpec DescProofs DescProofs2 MatProofs SplitProofs SortProofs HistProofs.
From Coq Require Import Lia ZifyBool Sorted Permutation.
Local Open Scope Z_scope.

(** ** std::sort *)
Lemma insert_qsorted x l : StronglySorted Qcle l -> StronglySorted Qcle (stable_insert qltb x l).
Proof.
  induction 1 as [|y t So IH F]; cbn [stable_insert]; [repeat constructor|]. destruct (qltb_spec x y) as [K|K].
  - constructor; [constructor; auto|]. constructor; [qlra|]. apply Forall_forall. intros z Iz. rewrite Forall_forall in F. specialize (F z Iz). qlra.
  - constructor; auto. apply Forall_forall. intros z Iz. apply (Permutation_in z (stable_insert_perm qltb x t)) in Iz.
    destruct Iz as [<-|Iz]; [qlra|]. rewrite Forall_forall in F. auto.
Qed.
Lemma qsort_sorted l : StronglySorted Qcle (qsort l).
Proof.
  unfold qsort, stable_sort. assert (G : forall l acc, StronglySorted Qcle acc -> StronglySorted Qcle (fold_left (fun r x => stable_insert qltb x r) l acc)).
  { clear. induction l as [|x t IH]; intros acc So; auto. cbn [fold_left]. apply IH. apply insert_qsorted. auto. }
  apply G. constructor.
Qed.
Lemma qsort_perm l : Permutation (qsort l) l.
Proof. apply stable_sort_perm. Qed.
Lemma sorted_nondec l : StronglySorted Qcle l -> nondecreasing l.
Proof.
  induction 1 as [|x t So IH F]; intros i j H; cbn [length] in H; [lia|]. destruct j as [|j]; [destruct i; [apply Qcle_refl|lia]|].
  cbn [nth]. destruct i as [|i]; [|apply IH; lia]. rewrite Forall_forall in F. apply F. apply nth_In. lia.
Qed.
(** ** The cube root *)
Lemma icbrt_from_ok : forall fuel k n, 0 <= k -> k * k * k <= n -> n < (k + Z.of_nat fuel + 1) * (k + Z.of_nat fuel + 1) * (k + Z.of_nat fuel + 1) ->
  let r := icbrt_from fuel k n in k <= r /\ r * r * r <= n < (r + 1) * (r + 1) * (r + 1).
Proof.
  induction fuel as [|f IH]; intros k n Hk L U; cbn [icbrt_from].
  - cbn zeta. replace (k + Z.of_nat 0 + 1) with (k + 1) in U by lia. lia.
  - destruct (Z.ltb_spec n ((k + 1) * (k + 1) * (k + 1))); [cbn zeta; lia|].
    destruct (IH (k + 1) n) as (A & B & C); try lia.
Qed.
Lemma icbrt_ok n : 0 <= n -> let r := icbrt n in 0 <= r /\ r * r * r <= n < (r + 1) * (r + 1) * (r + 1).
Proof. intros H. apply (icbrt_from_ok (Z.to_nat n) 0 n); try lia. Qed.
(** ** The axis *)
Lemma eps_pos : (0 < dbl_eps)%Qc.
Proof. unfold dbl_eps, Qclt. cbn. reflexivity. Qed.
Lemma step_axis axis bincount mn step : 0 <= bincount -> Z.of_nat (length axis) = bincount + 1 -> (0 < step)%Qc ->
  exists a, (do a <- writes (map (fun i => (i, Ok (mn + qz i * step)%Qc)) (zrange 0 bincount)) axis; wr a bincount (mn + qz bincount * step + dbl_eps)%Qc) = Ok a /\
    length a = length axis /\ (forall i, 0 <= i < bincount -> oat a i = Some (mn + qz i * step)%Qc) /\ oat a bincount = Some (mn + qz bincount * step + dbl_eps)%Qc /\ increasing a.
Proof.
  intros Hb Hl Hs. destruct (writes_range 0 bincount (fun i => Ok (mn + qz i * step)%Qc) (fun i => mn + qz i * step)%Qc axis) as (a0 & E & L0 & N0). { intros i Hi. split; [lia|auto]. }
  rewrite E. cbn [bind]. rewrite wr_ok by lia. eexists. split; [reflexivity|]. rewrite upd_length. split; auto.
  assert (A1 : forall i, 0 <= i < bincount -> oat (upd (Z.to_nat bincount) (mn + qz bincount * step + dbl_eps)%Qc a0) i = Some (mn + qz i * step)%Qc).
  { intros i Hi. rewrite oat_upd by lia. destruct (Z.eqb_spec i bincount); [lia|]. rewrite N0 by lia. destruct ((0 <=? i) && (i <? 0 + bincount)) eqn:K; [auto|lia]. }
  assert (A2 : oat (upd (Z.to_nat bincount) (mn + qz bincount * step + dbl_eps)%Qc a0) bincount = Some (mn + qz bincount * step + dbl_eps)%Qc).
  { rewrite oat_upd by lia. rewrite Z.eqb_refl. auto. }
  split; auto. split; auto. set (a := upd _ _ a0) in *. assert (La : Z.of_nat (length a) = bincount + 1) by (unfold a; rewrite upd_length; lia).
  assert (Mono : forall i j, 0 <= i < j -> (mn + qz i * step < mn + qz j * step)%Qc).
  { intros i j H. assert (Q : (qz i < qz j)%Qc) by (apply qz_lt; lia). assert (P := Qcmult_lt_compat_r _ _ _ Hs Q). qlra. }
  assert (Ep := eps_pos). clearbody a. intros i j H.
  assert (V : forall k, 0 <= k < bincount -> xat a k = (mn + qz k * step)%Qc). { intros k Hk. specialize (A1 k Hk). rewrite oat_xat in A1 by lia. congruence. }
  assert (Vb : xat a bincount = (mn + qz bincount * step + dbl_eps)%Qc) by (rewrite oat_xat in A2 by lia; congruence).
  assert (X : forall k, nth k a 0%Qc = xat a (Z.of_nat k)). { intros k. unfold xat. destruct (Z.ltb_spec (Z.of_nat k) 0); [lia|]. rewrite Nat2Z.id. auto. }
  rewrite !X. assert (M := Mono (Z.of_nat i) (Z.of_nat j) ltac:(lia)). rewrite V by lia.
  destruct (Z.eq_dec (Z.of_nat j) bincount) as [Ej|Ej]; [rewrite Ej in *; rewrite Vb|rewrite V by lia; auto].
  remember dbl_eps as ep. qlra.
Qed.
Lemma Qc_pos_ne (x : Qc) : (0 < x)%Qc -> x <> 0%Qc.
Proof. intros H ->. apply (Qclt_not_le _ _ H (Qcle_refl 0%Qc)). Qed.
Lemma Qc_inv_pos (x : Qc) : (0 < x)%Qc -> (0 < / x)%Qc.
Proof.
  intros H. destruct (Qclt_le_dec 0 (/ x)) as [|G]; auto. exfalso. assert (N := Qc_pos_ne x H).
  assert (P : (/ x * x <= 0 * x)%Qc) by (apply Qcmult_le_compat_r; auto; apply Qclt_le_weak; auto). rewrite Qcmult_0_l, Qcmult_comm, Qcmult_inv_r in P by auto.
  apply P. reflexivity.
Qed.
