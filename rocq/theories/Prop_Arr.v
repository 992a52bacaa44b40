(** Properties C14, C15 and C21: arrays with missing values. *)
From Verif Require Import ArrSpec ArrModel ArrProofs ArrProofs2.
From Coq Require Import ZifyBool.
Local Open Scope nat_scope.

(** C21: the range of a non-empty array is from the first to the last known value and the flag tells
    whether a value is missing between them; without known values the range is not valid. No result is
    UB, so nothing is read outside the array. *)
Theorem c21_range_exact {A} (d : list (option A)) : d <> [] ->
  exists r m, get_range d = r /\ get_range_m d = Ok (r, m) /\
   ((exists a b, first_known d a /\ last_known d b /\ is_not_valid r = false /\
        i_start r = Z.of_nat a /\ i_end r = Z.of_nat b /\
        (m = true <-> exists j, a < j < b /\ missing d j)) \/
    ((forall j, ~ known d j) /\ is_not_valid r = true /\ m = false)).
Proof. exact (range_exact d). Qed.
Print Assumptions c21_range_exact.

(** An empty array has a "valid" range of one value, and the version with the flag reads outside it. *)
Theorem c21_empty_array_refuted {A} :
  is_not_valid (get_range (@nil (option A))) = false /\ range_count (get_range (@nil (option A))) = 1%Z /\
  get_range_m (@nil (option A)) = UB.
Proof. split; [apply range_empty|]. split; [reflexivity|apply range_empty]. Qed.
Print Assumptions c21_empty_array_refuted.

Definition gaps : cells := [None; Some (qz 1); None; None; Some (qz 4); Some (qz 2); None].
Example c21_nonvacuous : gaps <> [] /\ get_range_m gaps = Ok ({| i_start := 1; i_end := 5 |}, true) /\ first_known gaps 1 /\ last_known gaps 5.
Proof.
  split; [discriminate|]. split; [reflexivity|].
  split; (split; [eexists; reflexivity|]); intros j (v & H); unfold val, gaps in H; do 7 (destruct j as [|j]; [try discriminate; lia|]);
    destruct j; discriminate.
Qed.

(** C14: interpolation fills exactly the gaps between known values, with the straight line through the
    two neighbours, and counts the filled cells. *)
Theorem c14_interpolate_exact (d : cells) : d <> [] ->
  exists r d' c, interpolate d = Ok (r, d', c) /\ interpolated d d' /\
     (Z.of_nat (num_known d') = Z.of_nat (num_known d) + c)%Z.
Proof. exact (interpolate_exact d). Qed.
Print Assumptions c14_interpolate_exact.

Theorem c14_empty_array_refuted : interpolate [] = UB.
Proof. exact interpolate_empty. Qed.
Print Assumptions c14_empty_array_refuted.

Example c14_nonvacuous : gaps <> [] /\
  interpolate gaps = Ok ({| i_start := 1; i_end := 5 |}, [None; Some (qz 1); Some (qz 2); Some (qz 3); Some (qz 4); Some (qz 2); None], 2%Z).
Proof. split; [discriminate|]. vm_compute; repeat first [apply Qc_is_canon; reflexivity | f_equal]. Qed.

(** C15: the blocks put together are the array, all have the given size but the last one (the first one
    when cutting from the end). *)
Theorem c15_partition_forward {A} (d : list A) (size : Z) : (1 <= size)%Z ->
  exists p, partition_equal d size false = Ok p /\ concat p = d /\ short_last (Z.to_nat size) p.
Proof. exact (partition_forward d size). Qed.
Print Assumptions c15_partition_forward.

Theorem c15_partition_from_end {A} (d : list A) (size : Z) : (1 <= size)%Z -> (Z.of_nat (length d) mod size <> 0)%Z ->
  exists p, partition_equal d size true = Ok p /\ concat p = d /\ short_first (Z.to_nat size) p.
Proof. exact (partition_backward d size). Qed.
Print Assumptions c15_partition_from_end.

(** When the size divides the length, cutting from the end always adds an empty block in front. *)
Theorem c15_empty_block_refuted {A} (d : list A) (size : Z) : (1 <= size)%Z -> (Z.of_nat (length d) mod size = 0)%Z ->
  exists p, partition_equal d size true = Ok ([] :: p) /\ concat p = d /\ (p = [] \/ short_first (Z.to_nat size) p).
Proof. exact (partition_backward_extra d size). Qed.
Print Assumptions c15_empty_block_refuted.

Example c15_nonvacuous :
  partition_equal [1; 2; 3; 4; 5] 2 false = Ok [[1; 2]; [3; 4]; [5]] /\
  partition_equal [1; 2; 3; 4; 5] 2 true = Ok [[1]; [2; 3]; [4; 5]] /\
  partition_equal [1; 2; 3; 4] 2 true = Ok [[]; [1; 2]; [3; 4]].
Proof. repeat split. Qed.
