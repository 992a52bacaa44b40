(** Proofs about sorting by index. *)
From Verif Require Import Base Num SortModel SortSpec.
Local Open Scope nat_scope.

Lemma stable_insert_perm {A} (lt : A -> A -> bool) x l : Permutation (stable_insert lt x l) (x :: l).
Proof.
  induction l as [|y t IH]; simpl; auto. destruct (lt x y); auto. rewrite IH. apply perm_swap.
Qed.
Lemma stable_sort_perm_gen {A} (lt : A -> A -> bool) l : forall acc, Permutation (fold_left (fun r x => stable_insert lt x r) l acc) (acc ++ l).
Proof.
  induction l as [|x l IH]; intros acc; simpl; [rewrite app_nil_r; auto|]. rewrite IH, stable_insert_perm.
  simpl. apply Permutation_middle.
Qed.
Lemma stable_sort_perm {A} (lt : A -> A -> bool) l : Permutation (stable_sort lt l) l.
Proof. apply (stable_sort_perm_gen lt l []). Qed.

Section Indexes.
Variables (asc : bool) (v : list Qc).
Let lt := fun i j => if asc then qltb (nth i v 0%Qc) (nth j v 0%Qc) else qltb (nth j v 0%Qc) (nth i v 0%Qc).
Let R := comes_before asc v.

Lemma R_trans i j k : R i j -> R j k -> R i k.
Proof.
  unfold R, comes_before. destruct asc; intros [H|[H H1]] [G|[G G1]].
  all: try (right; split; [congruence|lia]). all: left; try qlra. all: rewrite ?H, ?G in *; auto. all: rewrite <- ?H, <- ?G in *; auto.
Qed.
Lemma R_irrefl i : ~ R i i.
Proof. unfold R, comes_before. destruct asc; intros [H|[_ H]]; try lia; qlra. Qed.
Lemma R_total i j : i <> j -> R i j \/ R j i.
Proof.
  intros H. unfold R, comes_before.
  destruct (Qc_dec (nth i v 0%Qc) (nth j v 0%Qc)) as [[L|L]|E]; destruct asc; auto.
  all: destruct (Nat.lt_ge_cases i j); [left; right; auto|right; right; split; [auto|lia]].
Qed.
Lemma lt_R i j : lt i j = true -> R i j.
Proof. unfold lt, R, comes_before. destruct asc; intros H; apply qltb_lt in H; auto. Qed.
Lemma not_lt_R i j : lt i j = false -> j < i -> R j i.
Proof.
  intros H Hij. destruct (R_total i j) as [C|C]; auto; [lia|]. destruct C as [C|[C C1]]; [|lia].
  unfold lt in H. destruct asc; apply qltb_lt in C; congruence.
Qed.

Lemma insert_sorted x l : StronglySorted R l -> Forall (fun y => y < x) l -> StronglySorted R (stable_insert lt x l).
Proof.
  induction 1 as [|y t HS IH HF]; intros HB; simpl; [repeat constructor|]. inversion HB; subst.
  destruct (lt x y) eqn:E.
  - constructor; [constructor; auto|]. apply lt_R in E. constructor; auto.
    eapply Forall_impl; [|exact HF]. intros z Hz. eapply R_trans; eauto.
  - constructor; [apply IH; auto|]. apply Forall_forall. intros z Hz.
    apply (Permutation_in _ (stable_insert_perm lt x t)) in Hz. destruct Hz as [<-|Hz]; [apply not_lt_R; auto|].
    rewrite Forall_forall in HF. apply HF; auto.
Qed.

Lemma sort_sorted : forall l acc, StronglySorted R acc -> (forall a b, In a acc -> In b l -> a < b) -> StronglySorted Peano.lt l ->
  StronglySorted R (fold_left (fun r x => stable_insert lt x r) l acc).
Proof.
  induction l as [|x l IH]; intros acc HA HB HL; simpl; auto. inversion HL; subst. apply IH; auto.
  - apply insert_sorted; auto. apply Forall_forall. intros y Hy. apply HB; simpl; auto.
  - intros a b Ha Hb. apply (Permutation_in _ (stable_insert_perm lt x acc)) in Ha. destruct Ha as [<-|Ha].
    + rewrite Forall_forall in H2. auto.
    + apply HB; simpl; auto.
Qed.

Lemma sorted_unique : forall l1 l2, Permutation l1 l2 -> StronglySorted R l1 -> StronglySorted R l2 -> l1 = l2.
Proof.
  induction l1 as [|a l1 IH]; intros l2 HP H1 H2.
  - apply Permutation_nil in HP. auto.
  - destruct l2 as [|b l2]; [apply Permutation_sym, Permutation_nil in HP; discriminate|].
    inversion H1; subst. inversion H2; subst. assert (a = b).
    { assert (Ha : In a (b :: l2)) by (eapply Permutation_in; [exact HP|left; auto]).
      assert (Hb : In b (a :: l1)) by (eapply Permutation_in; [symmetry; exact HP|left; auto]).
      destruct Ha as [->|Ha]; auto. destruct Hb as [->|Hb]; auto.
      rewrite Forall_forall in H4, H6. exfalso. apply (R_irrefl a). eapply R_trans; [apply H4; exact Hb|apply H6; exact Ha]. }
    subst b. f_equal. apply IH; auto. eapply Permutation_cons_inv; eauto.
Qed.
End Indexes.

Lemma seq_sorted_lt a n : StronglySorted Peano.lt (seq a n).
Proof.
  revert a. induction n as [|n IH]; intros a; simpl; constructor; auto. apply Forall_forall. intros x Hx. apply in_seq in Hx. lia.
Qed.
Theorem sort_indexes_spec asc v : sorted_positions asc v (sort_indexes asc v).
Proof.
  split; [apply stable_sort_perm|]. apply sort_sorted; [constructor|intros a b []|apply seq_sorted_lt].
Qed.
Theorem sorted_positions_unique asc v r1 r2 : sorted_positions asc v r1 -> sorted_positions asc v r2 -> r1 = r2.
Proof.
  intros (P1 & S1) (P2 & S2). apply (sorted_unique asc v); auto. rewrite P1, P2. reflexivity.
Qed.

(** ** SortByVector *)
Lemma gather_ok {A} (d : list A) idx : Forall (fun i => 0 <= i < Z.of_nat (length d))%Z idx ->
  exists r, gather d idx = Ok r /\ Forall2 (fun i x => nth_error d (Z.to_nat i) = Some x) idx r.
Proof.
  induction 1 as [|i t Hi H IH]; [exists []; split; [auto|constructor]|]. simpl. destruct (Z.ltb_spec i 0); [lia|].
  destruct (nth_error d (Z.to_nat i)) as [x|] eqn:E; [|apply nth_error_None in E; lia].
  destruct IH as (r & -> & F). exists (x :: r). split; [reflexivity|]. constructor; auto.
Qed.
Lemma maxl_ge l m : maxl l = Some m -> In m l /\ Forall (fun x => x <= m)%Z l.
Proof.
  destruct l as [|a t]; [discriminate|]. simpl. intros H. injection H as <-.
  revert a. induction t as [|b t IH]; intros a; simpl; [split; [auto|constructor; [lia|constructor]]|].
  destruct (IH (Z.max a b)) as (H1 & H2). inversion H2; subst. split.
  - destruct H1 as [H1|H1]; auto. rewrite <- H1. destruct (Z.max_spec a b) as [[_ ->]|[_ ->]]; auto.
  - constructor; [lia|]. constructor; [lia|auto].
Qed.

Lemma sort_by_vector_ok {A} (d storage : list A) idx : length storage = length d -> length idx = length d -> d <> [] ->
  Forall (fun i => 0 <= i < Z.of_nat (length d))%Z idx ->
  exists r, sort_by_vector d storage idx = Ok r /\ Forall2 (fun i x => nth_error d (Z.to_nat i) = Some x) idx r.
Proof.
  intros H1 H2 Hd HF. unfold sort_by_vector. rewrite H1, H2, !Nat.eqb_refl. cbn [negb].
  destruct (maxl idx) as [m|] eqn:E.
  - destruct (maxl_ge _ _ E) as (Hin & _). rewrite Forall_forall in HF. pose proof (HF m Hin).
    destruct (Z.ltb_spec (Z.of_nat (length d) - 1) m); [lia|]. apply gather_ok. apply Forall_forall; auto.
  - destruct idx; [|discriminate]. destruct d; simpl in H2; [congruence|lia].
Qed.
Lemma perm_gather {A} (d r : list A) idx : Permutation idx (seq 0 (length d)) ->
  Forall2 (fun i x => nth_error d i = Some x) idx r -> Permutation r d.
Proof.
  intros HP HF. assert (E : map Some r = map (nth_error d) idx).
  { induction HF as [|i x idx r H HF IH] in HP |- *; auto. clear IH. simpl. rewrite H. f_equal. clear -HF. induction HF; simpl; [auto|congruence]. }
  assert (P : Permutation (map Some r) (map Some d)).
  { rewrite E, HP. clear. replace (map (nth_error d) (seq 0 (length d))) with (map Some d); auto.
    apply list_ext_nth_error. intros i. rewrite !nth_error_map. destruct (nth_error d i) as [x|] eqn:Ex.
    - assert (i < length d) by (apply nth_error_Some; congruence). rewrite (nth_error_nth' _ 0) by (rewrite seq_length; auto).
      rewrite seq_nth by auto. simpl. congruence.
    - apply nth_error_None in Ex. replace (nth_error (seq 0 (length d)) i) with (@None nat); auto. symmetry. apply nth_error_None. rewrite seq_length. auto. }
  apply (Permutation_map (fun o => match o with Some x => [x] | None => [] end)) in P. rewrite !map_map in P.
  assert (G : forall l : list A, concat (map (fun x => [x]) l) = l) by (clear; induction l; simpl; congruence).
  rewrite <- (G r), <- (G d). clear -P. remember (map (fun x => [x]) r) as a. remember (map (fun x => [x]) d) as b. clear -P.
  induction P; simpl; auto.
  - apply Permutation_app_head; auto.
  - rewrite !app_assoc. apply Permutation_app_tail, Permutation_app_comm.
  - etransitivity; eauto.
Qed.
