(** Monic polynomials and trimming of matrix polynomials: proofs. *)
From Verif Require Import MPolyModel MPolySpec MatProofs MatProofs2 MatDotProofs PolyProofs PolyProofs2 MPolyProofs DataProofs.
From Coq Require Import Lia.
Local Open Scope Z_scope.

Definition close (x y eps : Qc) : Prop := (x - y <= eps /\ y - x <= eps)%Qc.
Lemma qabs_diff_close x y eps : (0 <= eps)%Qc -> qltb eps (qabs_diff x y) = false <-> close x y eps.
Proof.
  intros E. unfold qabs_diff, close. destruct (qltb_spec x y) as [H|H]; [|apply Qcnot_lt_le in H]; match goal with |- context [qltb eps ?d] => destruct (qltb_spec eps d) as [L|L] end; split; try discriminate; try (intros _; apply Qcnot_lt_le in L; split; qlra); auto.
  - intros (H1 & H2). exfalso. apply (Qclt_not_le _ _ L H2).
  - intros (H1 & H2). exfalso. apply (Qclt_not_le _ _ L H1).
Qed.
Lemma all_close_ok (M : mat Qc) v eps : mat_ok M -> (0 <= eps)%Qc -> forall cs, Forall (fun ij => inside M (fst ij) (snd ij)) cs ->
  exists b, all_close M cs v eps = Ok b /\ (b = true <-> Forall (fun ij => close v (el M (fst ij) (snd ij)) eps) cs).
Proof.
  intros W E. induction cs as [|(i, j) cs IH]; intros F; [exists true; cbn; split; auto; split; auto|]. apply Forall_cons_iff in F as (H & F). cbn [fst snd] in H. cbn [all_close]. rewrite el_get0 by auto. cbn [bind].
  pose proof (qabs_diff_close v (el M i j) eps E) as Q. destruct (qltb eps (qabs_diff v (el M i j))).
  - exists false. split; auto. split; [discriminate|]. intros X. apply Forall_cons_iff in X as (X & _). cbn [fst snd] in X. apply Q in X. discriminate.
  - destruct (IH F) as (b & -> & B). exists b. split; auto. rewrite Forall_cons_iff. cbn [fst snd]. rewrite B. assert (close v (el M i j) eps) by (apply Q; auto). tauto.
Qed.
Lemma in_zrange0 n x : In x (zrange 0 n) <-> 0 <= x < n.
Proof. unfold zrange. rewrite in_map_iff. split; [intros (k & <- & H); apply in_seq in H; lia|]. intros H. exists (Z.to_nat x). split; [lia|]. apply in_seq. lia. Qed.
Lemma is_diagonal_ok (M : mat Qc) dv ov eps : mat_ok M -> (0 <= eps)%Qc -> nrows M = ncols M ->
  exists b, is_diagonal M dv ov eps = Ok b /\ (b = true <-> forall i j, inside M i j -> close (if i =? j then dv else ov) (el M i j) eps).
Proof.
  intros W E SQ. unfold is_diagonal. rewrite SQ, Z.eqb_refl. cbn [negb].
  destruct (all_close_ok M dv eps W E (map (fun i => (i, i)) (zrange 0 (ncols M)))) as (b & -> & B).
  { apply Forall_map, Forall_forall. intros i Hi. apply in_zrange0 in Hi. unfold inside. cbn. lia. }
  cbn [bind]. destruct b; cbn [negb].
  - match goal with |- context [all_close M ?cs ov eps] => destruct (all_close_ok M ov eps W E cs) as (b & -> & B2) end.
    { apply Forall_forall. intros (i, j) H. apply filter_In in H as (H & _). apply in_prod_iff in H as (H1 & H2). apply in_zrange0 in H1, H2. unfold inside. cbn. lia. }
    exists b. split; auto. rewrite B2. split.
    + intros F i j (H1 & H2). destruct (Z.eqb_spec i j) as [<- |NE].
      * assert (B' := proj1 B eq_refl). rewrite Forall_map in B'. rewrite Forall_forall in B'. apply (B' i). apply in_zrange0. lia.
      * rewrite Forall_forall in F. apply (F (i, j)). apply filter_In. split; [apply in_prod_iff; rewrite !in_zrange0; lia|]. cbn. apply Bool.negb_true_iff, Z.eqb_neq. auto.
    + intros H. apply Forall_forall. intros (i, j) Hin. apply filter_In in Hin as (Hin & NE). apply in_prod_iff in Hin as (H1 & H2). apply in_zrange0 in H1, H2. cbn [fst snd] in *. apply Bool.negb_true_iff in NE. specialize (H i j). rewrite NE in H. apply H. unfold inside. lia.
  - exists false. split; auto. split; [discriminate|]. intros H. apply B. apply Forall_map, Forall_forall. intros i Hi. apply in_zrange0 in Hi. specialize (H i i). rewrite Z.eqb_refl in H. apply H. unfold inside. lia.
Qed.
Lemma equals_value_ok (d : list Qc) b eps : (0 <= eps)%Qc -> forall ks, Forall (fun k => 0 <= k < Z.of_nat (length d)) ks ->
  exists r, equals_value d ks b eps = Ok r /\ (r = true <-> Forall (fun k => close b (nth (Z.to_nat k) d 0%Qc) eps) ks).
Proof.
  intros E. induction ks as [|k ks IH]; intros F; [exists true; cbn; split; auto; split; auto|]. apply Forall_cons_iff in F as (H & F). cbn [equals_value].
  destruct (rd_ok d k H) as (v & N & ->). cbn [bind]. pose proof (qabs_diff_close b v eps E) as Q. destruct (qltb eps (qabs_diff b v)).
  - exists false. split; auto. split; [discriminate|]. intros X. apply Forall_cons_iff in X as (X & _). rewrite (nth_error_nth _ _ 0%Qc N) in X. apply Q in X. discriminate.
  - destruct (IH F) as (r & -> & B). exists r. split; auto. rewrite Forall_cons_iff, B, (nth_error_nth _ _ 0%Qc N). assert (close b v eps) by (apply Q; auto). tauto.
Qed.
Lemma close_0 x : close 0 x 0 <-> x = 0%Qc.
Proof. unfold close. split; [intros (H1 & H2); apply Qcle_antisym; qlra|intros ->; split; qlra]. Qed.
Lemma equals_zero_ok (A : mat Qc) : mat_ok A -> exists r, equals_value (data A) (zrange 0 (mlength A)) 0 0 = Ok r /\ (r = true <-> zero_mat A).
Proof.
  intros W. unfold mat_ok in W. destruct (equals_value_ok (data A) 0 0 (Qcle_refl 0) (zrange 0 (mlength A))) as (r & E & B).
  { apply Forall_forall. intros k Hk. apply in_zrange0 in Hk. unfold mlength, nrows, ncols in Hk. lia. }
  exists r. split; auto. rewrite B. split.
  - intros F i j. unfold el, entry. destruct (insideb A i j) eqn:I; auto. apply inside_b in I. destruct I as (I1 & I2). destruct (nth_error (data A) (Z.to_nat (j * nrows A + i))) as [v|] eqn:N; auto.
    rewrite Forall_forall in F. specialize (F (j * nrows A + i)). rewrite (nth_error_nth _ _ 0%Qc N) in F. apply close_0. apply F. apply in_zrange0. unfold mlength. nia.
  - intros Z. apply Forall_forall. intros k Hk. apply in_zrange0 in Hk. apply close_0. unfold mlength in Hk. assert (R : 0 < nrows A) by (unfold nrows, ncols in *; nia).
    specialize (Z (k mod nrows A) (k / nrows A)). unfold el, entry in Z.
    assert (I : inside A (k mod nrows A) (k / nrows A)). { split; [apply Z.mod_pos_bound; auto|]. split; [apply Z.div_pos; lia|]. apply Z.div_lt_upper_bound; lia. }
    apply inside_b in I. rewrite I in Z. rewrite Z.mul_comm, <- Z.div_mod in Z by lia. destruct (nth_error (data A) (Z.to_nat k)) as [v|] eqn:N; [rewrite (nth_error_nth _ _ 0%Qc N); auto|]. apply nth_error_None in N. unfold nrows, ncols in Hk. lia.
Qed.
Lemma mtrim_len_ok (a : mpoly) : Forall mat_ok a -> forall j, (j <= length a)%nat -> exists k, mtrim_len a j = Ok k /\ (k <= j)%nat /\
  (forall i A, (k <= i < j)%nat -> nth_error a i = Some A -> zero_mat A) /\ (k = 0%nat \/ exists A, nth_error a (k - 1) = Some A /\ ~ zero_mat A).
Proof.
  intros F. induction j as [|j IH]; intros H; [exists 0%nat; cbn; repeat split; auto; lia|]. cbn [mtrim_len]. destruct (nth_error a j) as [A|] eqn:E; [|apply nth_error_None in E; lia].
  destruct (equals_zero_ok A) as (r & -> & B). { rewrite Forall_forall in F. apply F. eapply nth_error_In; eauto. } cbn [bind]. destruct r.
  - destruct IH as (k & E1 & E2 & E3 & E4); [lia|]. exists k. repeat split; auto. intros i X Hi EX. destruct (Nat.eq_dec i j) as [-> |]; [|apply (E3 i); auto; lia]. rewrite E in EX. injection EX as <-. apply B. auto.
  - exists (S j). repeat split; auto; [lia|]. right. exists A. replace (S j - 1)%nat with j by lia. split; auto. intros Z. apply B in Z. discriminate.
Qed.
