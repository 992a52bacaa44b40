(** Property C31: sorting by index. *)
From Verif Require Import SortSpec SortModel SortProofs.
Local Open Scope nat_scope.

(** C31: SortIndexes / SortIndicesVector give every position exactly once, ordered by value, equal
    values in their original order, in both directions. *)
Theorem c31_sort_indexes (asc : bool) (v : list Qc) : sorted_positions asc v (sort_indexes asc v).
Proof. exact (sort_indexes_spec asc v). Qed.
Print Assumptions c31_sort_indexes.

(** There is only one such list, so every implementation of std::stable_sort gives the same. *)
Theorem c31_unique (asc : bool) (v : list Qc) r : sorted_positions asc v r -> r = sort_indexes asc v.
Proof. intros H. apply (sorted_positions_unique asc v); auto. apply sort_indexes_spec. Qed.
Print Assumptions c31_unique.

(** Applying the sorted positions to a non-empty vector loses nothing and puts it in order. *)
Theorem c31_sort_by_vector (asc : bool) (v storage : list Qc) : v <> [] -> length storage = length v ->
  exists r, sort_by_vector v storage (map Z.of_nat (sort_indexes asc v)) = Ok r /\ Permutation r v /\
    StronglySorted (fun a b => if asc then (a <= b)%Qc else (b <= a)%Qc) r.
Proof.
  intros Hv Hs. destruct (sort_indexes_spec asc v) as (P & S). set (p := sort_indexes asc v) in *.
  assert (LP : length p = length v) by (rewrite (Permutation_length P); apply seq_length).
  assert (B : forall i, In i p -> i < length v).
  { intros i Hi. apply (Permutation_in _ P) in Hi. apply in_seq in Hi. lia. }
  destruct (sort_by_vector_ok v storage (map Z.of_nat p)) as (r & E & F); auto.
  - rewrite map_length. auto.
  - apply Forall_forall. intros z Hz. apply in_map_iff in Hz. destruct Hz as (i & <- & Hi). apply B in Hi. lia.
  - exists r. split; auto.
    assert (F' : Forall2 (fun i x => nth_error v i = Some x) p r).
    { clear -F. revert r F. induction p as [|i p IH]; intros r F; inversion F; subst; constructor; auto.
      rewrite Nat2Z.id in H1. auto. }
    split; [apply (perm_gather v r p); auto|].
    clear -F' S. induction F' as [|i x p r E F IH]; [constructor|]. inversion S as [|? ? S' H]; subst. constructor; auto.
    rewrite Forall_forall in *. intros y Hy. destruct (In_nth_error _ _ Hy) as (k & Hk).
    assert (exists j, In j p /\ nth_error v j = Some y) as (j & Hj & Ej).
    { clear -F Hk. revert k Hk. induction F as [|j x p r E F IH]; intros [|k] Hk; try discriminate.
      - injection Hk as <-. exists j. simpl; auto.
      - destruct (IH k Hk) as (j' & ? & ?). exists j'. simpl; auto. }
    specialize (H j Hj). unfold comes_before in H. rewrite (nth_error_nth _ _ _ E), (nth_error_nth _ _ _ Ej) in H.
    destruct asc; destruct H as [H|[H _]]; try (subst; apply Qcle_refl); apply Qclt_le_weak; auto.
Qed.
Print Assumptions c31_sort_by_vector.

(** SortByVector with an empty vector dereferences the end of the vector, and a negative position is
    not rejected (only too large ones are). *)
Theorem c31_sort_by_vector_refuted : sort_by_vector (@nil Qc) [] [] = UB /\
  (forall v : Qc, sort_by_vector [v] [v] [(-1)%Z] = UB) /\ (forall v : Qc, sort_by_vector [v] [v] [1%Z] = Throw).
Proof. repeat split. Qed.
Print Assumptions c31_sort_by_vector_refuted.

Example c31_nonvacuous : sort_indexes true [qz 3; qz 1; qz 3; qz 2] = [1; 3; 0; 2] /\ sort_indexes false [qz 3; qz 1; qz 3; qz 2] = [0; 2; 3; 1] /\
  sort_by_vector [qz 3; qz 1; qz 2] [qz 0; qz 0; qz 0] (map Z.of_nat (sort_indexes true [qz 3; qz 1; qz 2])) = Ok [qz 1; qz 2; qz 3].
Proof. repeat split; vm_compute; reflexivity. Qed.
