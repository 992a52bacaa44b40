(** Properties C25 (element access), C26 (transposition), C27 (packed symmetric matrices), C28
    (sub-matrices, rows and columns), C70 (removal in place). *)
From Verif Require Import MatSpec MatModel MatProofs MatProofs2 MatProofs3 MatProofs4 MatProofs5 MatProofs6.
From Coq Require Import Lia.
Local Open Scope Z_scope.

(** A matrix with 2 rows and 3 columns: 1 2 3 / 4 5 6. *)
Definition m23 : mat Z := Mat 2 3 [1; 4; 2; 5; 3; 6].
Definition m33 : mat Z := Mat 3 3 [1; 4; 7; 2; 5; 8; 3; 6; 9].
Definition zero (r c : nat) : mat Z := Mat r c (repeat 0 (r * c)).
Example m23_ok : mat_ok m23 /\ entry m23 1 0 = Some 4 /\ entry m23 0 2 = Some 3 /\ entry m23 2 0 = None. Proof. vm_compute. auto. Qed.

(** ** C25 *)
(** Get returns the element of an index in range and raises an error for every other. *)
Theorem c25_get {A} (M : mat A) i j : mat_ok M -> get M i j = match entry M i j with Some v => Ok v | None => Throw end.
Proof. exact (get_spec M i j). Qed.
Print Assumptions c25_get.
Theorem c25_in_range {A} (M : mat A) i j : mat_ok M -> (exists v, entry M i j = Some v) <-> 0 <= i < nrows M /\ 0 <= j < ncols M.
Proof. intros W. split; [intros (v & E); exact (entry_in M i j v E) | exact (entry_some M i j W)]. Qed.
Print Assumptions c25_in_range.
(** Set changes the element (i, j) and no other; an index out of range is an error. *)
Theorem c25_set {A} (M : mat A) i j v : mat_ok M ->
  (inside M i j /\ exists M', set M i j v = Ok M' /\ becomes M (fun a b => if (a =? i) && (b =? j) then Some v else entry M a b) M') \/
  (~ inside M i j /\ set M i j v = Throw).
Proof. exact (set_spec M i j v). Qed.
Print Assumptions c25_set.
Theorem c25_set_get {A} (M M' : mat A) i j v a b : mat_ok M -> set M i j v = Ok M' ->
  get M' a b = if (a =? i) && (b =? j) then Ok v else get M a b.
Proof.
  intros W E. destruct (set_spec M i j v W) as [(Hin & M1 & E1 & Bc)|(_ & E1)]; [|congruence].
  assert (M1 = M') by congruence. subst M1. rewrite (get_spec M' a b (becomes_ok M M' _ W Bc)), (get_spec M a b W).
  destruct (insideb M a b) eqn:Hb.
  - apply inside_b in Hb. rewrite (bc_entry _ _ _ Bc a b Hb). destruct ((a =? i) && (b =? j)); reflexivity.
  - assert (En : entry M a b = None) by (unfold entry; rewrite Hb; auto).
    assert (En' : entry M' a b = None). { unfold entry, insideb, nrows, ncols in *. rewrite (bc_rows _ _ _ Bc), (bc_cols _ _ _ Bc), Hb. auto. }
    rewrite En, En'. destruct ((a =? i) && (b =? j)) eqn:E2; auto. exfalso. assert (a = i /\ b = j) as (-> & ->) by lia.
    apply inside_b in Hin. congruence.
Qed.
Print Assumptions c25_set_get.
(** The access with one index counts down the columns. *)
Theorem c25_linear_index {A} (M : mat A) k : mat_ok M ->
  get1 M k = (if (0 <=? k) && (k <? nrows M * ncols M) then get M (k mod nrows M) (k / nrows M) else Throw) /\
  (0 <= k < nrows M * ncols M -> translate_index M k = Ok (k mod nrows M, k / nrows M)).
Proof.
  intros W. assert (G : 0 <= k < nrows M * ncols M -> inside M (k mod nrows M) (k / nrows M) /\ k mod nrows M + nrows M * (k / nrows M) = k).
  { intros Hk. assert (0 <= nrows M) by (unfold nrows; lia). assert (nrows M <> 0) by (intros E; rewrite E in Hk; lia). assert (0 < nrows M) by lia.
    split; [|pose proof (Z.div_mod k (nrows M) ltac:(lia)); lia]. split; [apply Z.mod_pos_bound; lia|]. split; [apply Z.div_pos; lia|]. apply Z.div_lt_upper_bound; lia. }
  split.
  - destruct ((0 <=? k) && (k <? nrows M * ncols M)) eqn:E.
    + destruct (G ltac:(lia)) as (Hin & Ek). rewrite <- (get1_spec M _ _ W Hin), Ek. auto.
    + unfold get1, mlength. replace ((k <? 0) || (nrows M * ncols M <=? k)) with true by lia. auto.
  - intros Hk. destruct (G Hk) as (Hin & Ek). rewrite <- Ek at 1. apply translate_spec; auto.
Qed.
Print Assumptions c25_linear_index.
Theorem c25_set_linear {A} (M : mat A) k v : mat_ok M ->
  if (0 <=? k) && (k <? nrows M * ncols M) then set1 M k v = set M (k mod nrows M) (k / nrows M) v else set1 M k v = Throw.
Proof.
  intros W. destruct ((0 <=? k) && (k <? nrows M * ncols M)) eqn:E.
  - assert (Hk : 0 <= k < nrows M * ncols M) by lia. assert (0 <= nrows M) by (unfold nrows; lia). assert (nrows M <> 0) by (intros E1; rewrite E1 in Hk; lia). assert (0 < nrows M) by lia.
    pose proof (Z.div_mod k (nrows M) ltac:(lia)). pose proof (Z.mod_pos_bound k (nrows M) ltac:(lia)). assert (0 <= k / nrows M) by (apply Z.div_pos; lia).
    assert (k / nrows M < ncols M) by (apply Z.div_lt_upper_bound; lia).
    unfold set1, set, outside, set0, mlength. replace ((_ <=? k) || _) with false by lia. replace (_ || _ || _ || _) with false by lia.
    do 3 f_equal. unfold pos. lia.
  - unfold set1, mlength. replace (_ || _) with true by lia. reflexivity.
Qed.
Print Assumptions c25_set_linear.
Theorem c25_vector_access {A} (M : mat A) k v : mat_ok M -> ncols M = 1 -> get_vector M k = get M k 0 /\ set_vector M k v = set M k 0 v.
Proof.
  intros W H. unfold get_vector, set_vector, get, set, outside, get0, set0, pos. rewrite H. cbn [Z.eqb Pos.eqb negb].
  rewrite Z.mul_0_r, Z.add_0_r. replace (1 <=? 0) with false by lia. replace (0 <? 0) with false by lia. rewrite !orb_false_r.
  rewrite (orb_comm (nrows M <=? k)). auto.
Qed.
Print Assumptions c25_vector_access.
Theorem c25_vector_only {A} (M : mat A) k v : ncols M <> 1 -> get_vector M k = Throw /\ set_vector M k v = Throw.
Proof. intros H. unfold get_vector, set_vector. replace (ncols M =? 1) with false by lia. auto. Qed.
Print Assumptions c25_vector_only.
(** Restructure accepts exactly the shapes with the same number of elements. *)
Theorem c25_restructure {A} (M : mat A) r c :
  restructure M r c = if (r * c =? rows M * cols M)%nat then Ok (Mat r c (data M)) else Throw.
Proof.
  unfold restructure, nrows, ncols. destruct (Nat.eqb_spec (r * c) (rows M * cols M)); [replace (_ =? _) with true by lia | replace (_ =? _) with false by lia]; reflexivity.
Qed.
Print Assumptions c25_restructure.
(** Last() reads one element behind a matrix that fills its storage. *)
Theorem c25_last_refuted {A} (M : mat A) : length (data M) = (rows M * cols M)%nat -> last_elem M = UB.
Proof. intros H. unfold last_elem. apply rd_out. unfold mlength, nrows, ncols. lia. Qed.
Print Assumptions c25_last_refuted.
Example c25_case : get m23 1 2 = Ok 6 /\ get m23 2 1 = Throw /\ (exists M', set m23 0 1 9 = Ok M' /\ data M' = [1; 4; 9; 5; 3; 6]) /\
  get1 m23 3 = Ok 5 /\ last_elem m23 = UB.
Proof. repeat split; vm_compute; eauto. Qed.

(** ** C26 *)
(** The in-place transposition of every square matrix, and of every other non-empty matrix for which
    the products it computes fit an int, moves element (i, j) to (j, i) within the same storage. *)
Theorem c26_transpose {A} (M : mat A) : mat_ok M ->
  nrows M = ncols M \/ 0 < nrows M * ncols M /\ ncols M * (nrows M * ncols M - 2) <= 2147483647 ->
  exists M', transpose M = Ok M' /\ rows M' = cols M /\ cols M' = rows M /\ length (data M') = length (data M) /\
    (forall i j, inside M i j -> entry M' j i = entry M i j) /\
    (forall k, (rows M * cols M <= k)%nat -> nth_error (data M') k = nth_error (data M) k).
Proof. exact (transpose_ok M). Qed.
Print Assumptions c26_transpose.
(** Transposition into another matrix. *)
Theorem c26_transpose_to {A} (M S : mat A) : mat_ok M -> mat_ok S ->
  if (nrows S =? ncols M) && (ncols S =? nrows M) then
    exists S', transpose_to M S = Ok S' /\ becomes S (fun i j => entry M j i) S'
  else transpose_to M S = Throw.
Proof. exact (transpose_to_ok M S). Qed.
Print Assumptions c26_transpose_to.
Theorem c26_transpose_twice {A} (M : mat A) : mat_ok M ->
  nrows M = ncols M \/ 0 < nrows M * ncols M /\ (nrows M + ncols M) * (nrows M * ncols M) <= 2147483647 ->
  exists M' M'', transpose M = Ok M' /\ transpose M' = Ok M'' /\ rows M'' = rows M /\ cols M'' = cols M /\
    forall i j, inside M i j -> entry M'' i j = entry M i j.
Proof.
  intros W H. assert (R0 : 0 <= nrows M) by (unfold nrows; lia). assert (C0 : 0 <= ncols M) by (unfold ncols; lia).
  destruct (transpose_ok M W) as (M' & E & R & C & L & T & _). { destruct H as [|(H1 & H2)]; [auto|right]. unfold int_max. split; auto. nia. }
  assert (W' : mat_ok M') by (unfold mat_ok in *; rewrite R, C, L; lia).
  assert (Rn : nrows M' = ncols M) by (unfold nrows, ncols; congruence). assert (Cn : ncols M' = nrows M) by (unfold nrows, ncols; congruence).
  destruct (transpose_ok M' W') as (M'' & E' & R' & C' & L' & T' & _). { rewrite Rn, Cn. destruct H as [|(H1 & H2)]; [auto|right]. unfold int_max. split; nia. }
  exists M', M''. split; auto. split; auto. split; [congruence|]. split; [congruence|].
  intros i j (Hi & Hj). rewrite T' by (split; lia). apply T. split; auto.
Qed.
Print Assumptions c26_transpose_twice.
(** A row vector of 46343 or more elements: the product overflows, which is undefined behaviour. *)
Theorem c26_transpose_overflow_refuted {A} (M : mat A) : mat_ok M -> nrows M = 1 -> 46343 <= ncols M -> transpose M = UB.
Proof. intros W H1 H2. apply transpose_row_overflow; auto; unfold int_max; nia. Qed.
Print Assumptions c26_transpose_overflow_refuted.
Example c26_overflow_case : exists M : mat bool, mat_ok M /\ nrows M = 1 /\ 46343 <= ncols M.
Proof. exists (Mat 1 (Z.to_nat 65537) (repeat true (Z.to_nat 65537))). unfold mat_ok, nrows, ncols. cbn [rows cols data]. rewrite repeat_length. lia. Qed.
(** An empty matrix that is not square cannot be transposed in place. *)
Theorem c26_transpose_empty_refuted {A} (M : mat A) : nrows M <> ncols M -> nrows M * ncols M = 0 -> transpose M = Throw.
Proof. exact (transpose_empty M). Qed.
Print Assumptions c26_transpose_empty_refuted.
Example c26_case : (exists M', transpose m23 = Ok M' /\ rows M' = 3%nat /\ data M' = [1; 2; 3; 4; 5; 6]) /\
  (exists M', transpose m33 = Ok M' /\ data M' = [1; 2; 3; 4; 5; 6; 7; 8; 9]) /\ transpose (zero 0 3) = Throw.
Proof. split; [|split; [|reflexivity]]; eexists; (split; [vm_compute; reflexivity|]); vm_compute; auto. Qed.

(** ** C27 *)
(** Every allowed pair has its own place in the storage, which the pair {i, j} shares in both orders. *)
Theorem c27_places (diag : bool) n i j i' j' : sym_pair diag n i j -> sym_pair diag n i' j' ->
  0 <= sym_index diag n i j < sym_length diag n /\
  (sym_index diag n i j = sym_index diag n i' j' <-> i = i' /\ j = j' \/ i = j' /\ j = i').
Proof.
  intros H H'. split; [exact (sym_index_range diag n i j H)|]. split; [exact (sym_index_inj diag n i j i' j' H H')|].
  intros [(-> & ->)|(-> & ->)]; [auto | apply sym_index_comm].
Qed.
Print Assumptions c27_places.
(** The length is the number of pairs, so no place is unused. *)
Theorem c27_length (diag : bool) n : 0 <= n -> 2 * sym_length diag n = if diag then n * (n + 1) else n * (n - 1).
Proof. intros _. exact (sym_length_val diag n). Qed.
Print Assumptions c27_length.
Definition sym_ok {A} (diag : bool) (M : symmat A) : Prop := Z.of_nat (length (sdata M)) = sym_length diag (Z.of_nat (srows M)).
(** get(i,j) = get(j,i); a pair that is not allowed is an error. *)
Theorem c27_get {A} (diag : bool) (M : symmat A) i j : sym_ok diag M ->
  (sym_pair diag (Z.of_nat (srows M)) i j /\ (exists v, sym_get diag M i j = Ok v /\ sym_get diag M j i = Ok v)) \/
  (~ sym_pair diag (Z.of_nat (srows M)) i j /\ sym_get diag M i j = Throw).
Proof.
  intros W. unfold sym_get, sym_get0, sym_outside, sym_pair. set (n := Z.of_nat (srows M)) in *.
  destruct ((n <=? i) || (n <=? j) || (i <? 0) || (j <? 0)) eqn:E; [right; split; [lia|reflexivity]|].
  destruct (negb diag && (i =? j)) eqn:E2; [right; split; [|reflexivity]; destruct diag; [discriminate|intros (_ & _ & [H|H]); [discriminate|lia]]|].
  left. assert (P : sym_pair diag n i j) by (unfold sym_pair; destruct diag; [lia|]; split; [lia|split; [lia|right; lia]]). split; [exact P|].
  replace ((n <=? j) || (n <=? i) || (j <? 0) || (i <? 0)) with false by lia. replace (negb diag && (j =? i)) with false by (rewrite Z.eqb_sym; auto).
  rewrite (sym_index_comm diag n j i). destruct (rd_ok (sdata M) (sym_index diag n i j)) as (v & _ & E3).
  { rewrite W. apply sym_index_range; auto. } exists v. auto.
Qed.
Print Assumptions c27_get.
(** set then get returns the value; all other pairs keep theirs. *)
Theorem c27_set {A} (diag : bool) (M : symmat A) i j v : sym_ok diag M ->
  (sym_pair diag (Z.of_nat (srows M)) i j /\ (exists M', sym_set diag M i j v = Ok M' /\ srows M' = srows M /\ sym_ok diag M' /\
     forall a b, sym_get diag M' a b = if ((a =? i) && (b =? j)) || ((a =? j) && (b =? i)) then Ok v else sym_get diag M a b)) \/
  (~ sym_pair diag (Z.of_nat (srows M)) i j /\ sym_set diag M i j v = Throw).
Proof.
  intros W. unfold sym_set, sym_set0, sym_outside. set (n := Z.of_nat (srows M)) in *.
  destruct ((n <=? i) || (n <=? j) || (i <? 0) || (j <? 0)) eqn:E; [right; split; [unfold sym_pair; lia|reflexivity]|].
  destruct (negb diag && (i =? j)) eqn:E2; [right; split; [|reflexivity]; destruct diag; [discriminate|intros (_ & _ & [H|H]); [discriminate|lia]]|].
  left. assert (P : sym_pair diag n i j) by (unfold sym_pair; destruct diag; [lia|]; split; [lia|split; [lia|right; lia]]). split; [exact P|].
  pose proof (sym_index_range diag n i j P) as Rg. rewrite wr_ok by (rewrite W; auto). cbn [bind]. eexists. split; [reflexivity|].
  split; [reflexivity|]. split; [unfold sym_ok; cbn [sdata srows]; rewrite upd_length; auto|].
  intros a b. unfold sym_get, sym_get0, sym_outside. cbn [srows sdata]. fold n.
  destruct ((n <=? a) || (n <=? b) || (a <? 0) || (b <? 0)) eqn:Eo.
  { replace (_ || _) with false by lia. auto. }
  destruct (negb diag && (a =? b)) eqn:Ed.
  { replace (((a =? i) && (b =? j)) || ((a =? j) && (b =? i))) with false; auto. destruct diag; [discriminate|]. lia. }
  assert (Pa : sym_pair diag n a b) by (unfold sym_pair; destruct diag; [lia|]; split; [lia|split; [lia|right; lia]]).
  pose proof (sym_index_range diag n a b Pa) as Ra. unfold rd. replace (sym_index diag n a b <? 0) with false by lia.
  pose proof (sym_index_inj diag n a b i j Pa P) as Inj.
  destruct (((a =? i) && (b =? j)) || ((a =? j) && (b =? i))) eqn:Eh.
  - assert (sym_index diag n a b = sym_index diag n i j) as ->.
    { assert (a = i /\ b = j \/ a = j /\ b = i) as [(-> & ->)|(-> & ->)] by lia; auto. apply sym_index_comm. }
    assert (Wl : Z.of_nat (length (sdata M)) = sym_length diag n) by exact W. rewrite nth_error_upd_same by lia. auto.
  - rewrite nth_error_upd_other; auto. intros Eq. assert (sym_index diag n a b = sym_index diag n i j) as G by lia. apply Inj in G. lia.
Qed.
Print Assumptions c27_set.
Example c27_case : let M := Sym 3 [11; 12; 13; 22; 23; 33] in sym_ok true M /\ sym_get true M 2 1 = Ok 23 /\ sym_get true M 1 2 = Ok 23 /\
  sym_ok false (Sym 3 [12; 13; 23]) /\ sym_get false (Sym 3 [12; 13; 23]) 2 0 = Ok 13 /\ sym_get false (Sym 3 [12; 13; 23]) 1 1 = Throw.
Proof. vm_compute. auto 10. Qed.

(** ** C28. Starts are not negative. *)
Theorem c28_set_sub {A} (M S : mat A) r c sr sc nr nc : mat_ok M -> mat_ok S -> 0 <= r -> 0 <= c -> 0 <= sr -> 0 <= sc ->
  if (r + nr <=? nrows M) && (c + nc <=? ncols M) && (sr + nr <=? nrows S) && (sc + nc <=? ncols S) then
    exists M', set_sub M r c S sr sc nr nc = Ok M' /\
      becomes M (fun i j => if in_block r c nr nc i j then entry S (sr + (i - r)) (sc + (j - c)) else entry M i j) M'
  else set_sub M r c S sr sc nr nc = Throw.
Proof. exact (set_sub_ok M S r c sr sc nr nc). Qed.
Print Assumptions c28_set_sub.
Theorem c28_set_sub_t {A} (M S : mat A) r c sr sc nr nc : mat_ok M -> mat_ok S -> 0 <= r -> 0 <= c -> 0 <= sr -> 0 <= sc ->
  if (r + nr <=? nrows M) && (c + nc <=? ncols M) && (sc + nr <=? ncols S) && (sr + nc <=? nrows S) then
    exists M', set_sub_t M r c S sr sc nr nc = Ok M' /\
      becomes M (fun i j => if in_block r c nr nc i j then entry S (sr + (j - c)) (sc + (i - r)) else entry M i j) M'
  else set_sub_t M r c S sr sc nr nc = Throw.
Proof. exact (set_sub_t_ok M S r c sr sc nr nc). Qed.
Print Assumptions c28_set_sub_t.
(** GetSub of a block into a matrix of exactly the needed size. *)
Theorem c28_get_sub {A} (M S : mat A) r c nr nc sr sc : mat_ok M -> mat_ok S -> 0 <= r -> 0 <= c -> 0 <= sr -> 0 <= sc ->
  r + nr <= nrows M -> c + nc <= ncols M -> nrows S = sr + nr -> ncols S = sc + nc ->
  exists S', get_sub M r c nr nc S sr sc = Ok S' /\
    becomes S (fun i j => if in_block sr sc nr nc i j then entry M (r + (i - sr)) (c + (j - sc)) else entry S i j) S'.
Proof. exact (get_sub_ok M S r c nr nc sr sc). Qed.
Print Assumptions c28_get_sub.
Theorem c28_get_sub_rejects {A} (M S : mat A) r c nr nc sr sc : nrows M < r + nr \/ ncols M < c + nc -> get_sub M r c nr nc S sr sc = Throw.
Proof.
  intros H. unfold get_sub. destruct (Z.ltb_spec (nrows M) (r + nr)); [reflexivity|]. destruct (Z.ltb_spec (ncols M) (c + nc)); [reflexivity|lia].
Qed.
Print Assumptions c28_get_sub_rejects.
(** Its check of the storage is reversed: too small a storage is accepted and written outside, a larger
    one is rejected. *)
Theorem c28_get_sub_storage_refuted :
  (exists M S : mat Z, mat_ok M /\ mat_ok S /\ nrows S < 2 /\ get_sub M 0 0 2 2 S 0 0 = UB) /\
  (exists M S : mat Z, mat_ok M /\ mat_ok S /\ 2 <= nrows S /\ 2 <= ncols S /\ get_sub M 0 0 2 2 S 0 0 = Throw).
Proof.
  split; [exists m33, (zero 1 1) | exists m33, m33]; vm_compute; repeat split; auto; discriminate.
Qed.
Print Assumptions c28_get_sub_storage_refuted.
(** A negative start is not rejected: undefined behaviour, or a change of another element. *)
Theorem c28_negative_start_refuted :
  (exists M S : mat Z, mat_ok M /\ mat_ok S /\ set_sub M (-1) 0 S 0 0 1 1 = UB) /\
  (exists M S M' : mat Z, mat_ok M /\ mat_ok S /\ set_sub M (-1) 1 S 0 0 1 1 = Ok M' /\ entry M 2 0 <> entry M' 2 0).
Proof. split; [exists m33, m23; vm_compute; auto|]. exists m33, (zero 1 1). eexists. split; [vm_compute; auto|]. split; [vm_compute; auto|]. split; [vm_compute; reflexivity|]. vm_compute. discriminate. Qed.
Print Assumptions c28_negative_start_refuted.
(** GetSub of a range of rows (columns) and listed columns (rows), or all but the listed. *)
Theorem c28_get_sub_listed {A} (M S : mat A) first count idx (first_is_row : bool) sr sc (exclude : bool) :
  mat_ok M -> mat_ok S -> 0 <= sr -> 0 <= sc -> 0 <= first ->
  (first + count <= if first_is_row then nrows M else ncols M) ->
  Forall (fun j => 0 <= j < if first_is_row then ncols M else nrows M) idx -> (exclude = true -> NoDup idx) ->
  let ix := selected M first_is_row exclude idx in let n := Z.of_nat (length ix) in
  nrows S = sr + (if first_is_row then count else n) -> ncols S = sc + (if first_is_row then n else count) ->
  exists S', get_sub_idx M first count idx first_is_row S sr sc exclude = Ok S' /\
    becomes S (fun i j => if in_block sr sc (if first_is_row then count else n) (if first_is_row then n else count) i j
        then (if first_is_row then entry M (first + (i - sr)) (at_index ix (j - sc)) else entry M (at_index ix (i - sr)) (first + (j - sc)))
        else entry S i j) S'.
Proof.
  exact (get_sub_idx_ok M S first count idx first_is_row sr sc exclude).
Qed.
Print Assumptions c28_get_sub_listed.
Theorem c28_get_sub_lists {A} (M S : mat A) ri ci sr sc : mat_ok M -> mat_ok S -> 0 <= sr -> 0 <= sc ->
  Forall (fun i => 0 <= i < nrows M) ri -> Forall (fun j => 0 <= j < ncols M) ci ->
  nrows S = sr + Z.of_nat (length ri) -> ncols S = sc + Z.of_nat (length ci) ->
  exists S', get_sub_lists M ri ci S sr sc = Ok S' /\
    becomes S (fun i j => if in_block sr sc (Z.of_nat (length ri)) (Z.of_nat (length ci)) i j
                          then entry M (at_index ri (i - sr)) (at_index ci (j - sc)) else entry S i j) S'.
Proof. exact (get_sub_lists_ok M S ri ci sr sc). Qed.
Print Assumptions c28_get_sub_lists.
(** Listed indexes are not checked. *)
Theorem c28_index_not_checked_refuted : exists M S : mat Z, mat_ok M /\ mat_ok S /\ get_sub_lists M [7] [0] S 0 0 = UB.
Proof. exists m23, (zero 1 1). vm_compute. auto. Qed.
Print Assumptions c28_index_not_checked_refuted.
Theorem c28_set_sub_vector {A} (M S : mat A) s ss n : mat_ok M -> mat_ok S -> 0 <= s -> 0 <= ss -> s + n <= nrows M -> 0 < ncols M -> ss + n <= mlength S ->
  exists M', set_sub_vector M s S ss n = Ok M' /\ rows M' = rows M /\ cols M' = cols M /\
    filled (data M) (data M') s n (fun t => nth_error (data S) (Z.to_nat (ss + t))).
Proof. exact (set_sub_vector_ok M S s ss n). Qed.
Print Assumptions c28_set_sub_vector.
Theorem c28_get_sub_vector {A} (M S : mat A) s ss n : mat_ok M -> mat_ok S -> 0 <= s -> 0 <= ss -> ncols M = 1 -> 0 < ncols S -> nrows S = ss + n -> s + n <= nrows M ->
  exists S', get_sub_vector M s n S ss = Ok S' /\ rows S' = rows S /\ cols S' = cols S /\
    filled (data S) (data S') ss n (fun t => nth_error (data M) (Z.to_nat (s + t))).
Proof.
  intros WM WS Hs Hss HC HCS HR Hn. unfold get_sub_vector. replace (ncols M =? 1) with true by lia. replace (nrows S =? n + ss) with true by lia. cbn [negb].
  apply set_sub_vector_ok; auto; try lia. unfold mlength. rewrite HC. lia.
Qed.
Print Assumptions c28_get_sub_vector.

(** Rows. *)
Theorem c28_set_row_value {A} (M : mat A) i v : mat_ok M -> 0 <= i < nrows M ->
  exists M', set_row_value M i v = Ok M' /\ becomes M (fun a b => if a =? i then Some v else entry M a b) M'.
Proof. exact (set_row_value_ok M i v). Qed.
Print Assumptions c28_set_row_value.
Theorem c28_set_row {A} (M S : mat A) i : mat_ok M -> mat_ok S -> 0 <= i < nrows M -> ncols M <= mlength S ->
  exists M', set_row M i S = Ok M' /\ becomes M (fun a b => if a =? i then nth_error (data S) (Z.to_nat b) else entry M a b) M'.
Proof. exact (set_row_ok M S i). Qed.
Print Assumptions c28_set_row.
Theorem c28_set_row_from_row {A} (M S : mat A) i k : mat_ok M -> mat_ok S -> 0 <= i < nrows M -> 0 <= k < nrows S -> ncols M <= ncols S ->
  exists M', set_row_from_row M i S k = Ok M' /\ becomes M (fun a b => if a =? i then entry S k b else entry M a b) M'.
Proof. exact (set_row_from_row_ok M S i k). Qed.
Print Assumptions c28_set_row_from_row.
Theorem c28_set_row_from_diag {A} (M S : mat A) i : mat_ok M -> mat_ok S -> 0 <= i < nrows M -> nrows S = ncols M -> ncols S = ncols M ->
  exists M', set_row_from_diag M i S = Ok M' /\ becomes M (fun a b => if a =? i then entry S b b else entry M a b) M'.
Proof. exact (set_row_from_diag_ok M S i). Qed.
Print Assumptions c28_set_row_from_diag.
Theorem c28_set_sub_row {A} (M S : mat A) row c len : mat_ok M -> mat_ok S -> 0 <= row < nrows M -> 0 <= c -> c + len <= ncols M -> len <= mlength S ->
  exists M', set_sub_row M row c S len = Ok M' /\
    becomes M (fun a b => if (a =? row) && (c <=? b) && (b <? c + len) then nth_error (data S) (Z.to_nat (b - c)) else entry M a b) M'.
Proof. exact (set_sub_row_ok M S row c len). Qed.
Print Assumptions c28_set_sub_row.
Theorem c28_get_row {A} (M S : mat A) i : mat_ok M -> mat_ok S -> 0 <= i < nrows M -> mlength S = ncols M ->
  exists S', get_row M i S = Ok S' /\ rows S' = rows S /\ cols S' = cols S /\ filled (data S) (data S') 0 (ncols M) (fun j => entry M i j).
Proof. exact (get_row_ok M S i). Qed.
Print Assumptions c28_get_row.
(** Columns. *)
Theorem c28_set_column_value {A} (M : mat A) j v : mat_ok M -> 0 <= j < ncols M ->
  exists M', set_column_value M j v = Ok M' /\ becomes M (fun a b => if b =? j then Some v else entry M a b) M'.
Proof. exact (set_column_value_ok M j v). Qed.
Print Assumptions c28_set_column_value.
Theorem c28_set_column {A} (M S : mat A) j : mat_ok M -> mat_ok S -> 0 <= j < ncols M -> nrows M <= mlength S ->
  exists M', set_column M j S = Ok M' /\ becomes M (fun a b => if b =? j then nth_error (data S) (Z.to_nat a) else entry M a b) M'.
Proof. exact (set_column_ok M S j). Qed.
Print Assumptions c28_set_column.
Theorem c28_set_column_from_column {A} (M S : mat A) j k : mat_ok M -> mat_ok S -> 0 <= j < ncols M -> 0 <= k < ncols S -> nrows M = nrows S ->
  exists M', set_column_from_column M j S k = Ok M' /\ becomes M (fun a b => if b =? j then entry S a k else entry M a b) M'.
Proof. exact (set_column_from_column_ok M S j k). Qed.
Print Assumptions c28_set_column_from_column.
Theorem c28_set_column_from_row {A} (M S : mat A) j k : mat_ok M -> mat_ok S -> 0 <= j < ncols M -> 0 <= k < nrows S -> nrows M = ncols M -> nrows M <= ncols S ->
  exists M', set_column_from_row M j S k = Ok M' /\ becomes M (fun a b => if b =? j then entry S k a else entry M a b) M'.
Proof. exact (set_column_from_row_ok M S j k). Qed.
Print Assumptions c28_set_column_from_row.
Theorem c28_set_column_from_diag {A} (M S : mat A) j : mat_ok M -> mat_ok S -> 0 <= j < ncols M -> nrows S = nrows M -> ncols S = nrows M ->
  exists M', set_column_from_diag M j S = Ok M' /\ becomes M (fun a b => if b =? j then entry S a a else entry M a b) M'.
Proof. exact (set_column_from_diag_ok M S j). Qed.
Print Assumptions c28_set_column_from_diag.
Theorem c28_get_column {A} (M S : mat A) j : mat_ok M -> mat_ok S -> 0 <= j < ncols M -> mlength S = nrows M ->
  exists S', get_column M j S = Ok S' /\ rows S' = rows S /\ cols S' = cols S /\ filled (data S) (data S') 0 (nrows M) (fun i => entry M i j).
Proof. exact (get_column_ok M S j). Qed.
Print Assumptions c28_get_column.
Theorem c28_get_diag {A} (M S : mat A) : mat_ok M -> mat_ok S -> nrows M = ncols M -> nrows M <= mlength S ->
  exists S', get_diag M S = Ok S' /\ rows S' = rows S /\ cols S' = cols S /\ filled (data S) (data S') 0 (nrows M) (fun i => entry M i i).
Proof. exact (get_diag_ok M S). Qed.
Print Assumptions c28_get_diag.
(** A row or column number outside the matrix is an error everywhere. *)
Theorem c28_bad_numbers {A} (M S : mat A) i k v c len :
  (~ 0 <= i < nrows M -> set_row_value M i v = Throw /\ set_row M i S = Throw /\ set_row_from_row M i S k = Throw /\
      set_row_from_diag M i S = Throw /\ set_sub_row M i c S len = Throw /\ get_row M i S = Throw) /\
  (~ 0 <= i < ncols M -> set_column_value M i v = Throw /\ set_column M i S = Throw /\ set_column_from_row M i S k = Throw /\
      set_column_from_column M i S k = Throw /\ set_column_from_diag M i S = Throw /\ get_column M i S = Throw) /\
  (~ 0 <= k < nrows S -> set_row_from_row M i S k = Throw /\ set_column_from_row M i S k = Throw) /\
  (~ 0 <= k < ncols S -> set_column_from_column M i S k = Throw).
Proof.
  assert (G : forall n x, ~ 0 <= x < n -> bad n x = true) by (intros n x H; unfold bad; lia).
  split; [|split; [|split]]; intros H; apply G in H;
    unfold set_row_value, set_row, set_row_from_row, set_row_from_diag, set_sub_row, get_row, set_column_value, set_column, set_column_from_row, set_column_from_column, set_column_from_diag, get_column;
    rewrite ?H; auto 10; repeat split; auto.
  - destruct (bad (nrows M) i); auto.
  - destruct (bad (ncols M) i); auto.
  - destruct (bad (ncols M) i); auto.
Qed.
Print Assumptions c28_bad_numbers.
(** SetColumnFromRow of a matrix that is not square: elements are missed, or other columns are written. *)
Theorem c28_set_column_from_row_refuted :
  (exists M S M' : mat Z, mat_ok M /\ mat_ok S /\ nrows M <= ncols S /\ set_column_from_row M 0 S 0 = Ok M' /\ entry M' 2 0 <> entry S 0 2) /\
  (exists M S M' : mat Z, mat_ok M /\ mat_ok S /\ nrows M <= ncols S /\ set_column_from_row M 0 S 0 = Ok M' /\ entry M' 0 1 <> entry M 0 1).
Proof.
  split.
  - exists (zero 3 2), m23. eexists. split; [vm_compute; auto|]. split; [vm_compute; auto|]. split; [vm_compute; discriminate|]. split; [vm_compute; reflexivity|]. vm_compute. discriminate.
  - exists (zero 2 3), m33. eexists. split; [vm_compute; auto|]. split; [vm_compute; auto|]. split; [vm_compute; discriminate|]. split; [vm_compute; reflexivity|]. vm_compute. discriminate.
Qed.
Print Assumptions c28_set_column_from_row_refuted.
(** SetColumnFromColumn from a matrix with another number of rows takes elements of other columns. *)
Theorem c28_set_column_from_column_refuted : exists M S M' : mat Z, mat_ok M /\ mat_ok S /\ nrows M <= nrows S /\
  set_column_from_column M 0 S 1 = Ok M' /\ entry M' 0 0 <> entry S 0 1.
Proof. exists (zero 2 2), m33. eexists. split; [vm_compute; auto|]. split; [vm_compute; auto|]. split; [vm_compute; discriminate|]. split; [vm_compute; reflexivity|]. vm_compute. discriminate. Qed.
Print Assumptions c28_set_column_from_column_refuted.
(** A source that is too short is not rejected. *)
Theorem c28_short_source_refuted : exists M S : mat Z, mat_ok M /\ mat_ok S /\ set_row M 0 S = UB /\ set_column M 0 S = UB /\
  set_row_from_row M 0 S 0 = UB /\ set_sub_vector M 0 S 0 2 = UB.
Proof. exists m33, (zero 1 1). vm_compute. auto 10. Qed.
Print Assumptions c28_short_source_refuted.
Example c28_case : (exists M', set_sub m33 1 1 m23 0 1 2 2 = Ok M' /\ data M' = [1; 4; 7; 2; 2; 5; 3; 3; 6]) /\
  (exists S', get_sub_idx m33 1 2 [1] true (zero 2 2) 0 0 true = Ok S' /\ data S' = [4; 7; 6; 9]) /\
  (exists S', get_sub_lists m33 [2; 0] [1] (zero 2 1) 0 0 = Ok S' /\ data S' = [8; 2]) /\
  (exists S', get_row m33 1 (zero 3 1) = Ok S' /\ data S' = [4; 5; 6]) /\ (exists S', get_diag m33 (zero 1 3) = Ok S' /\ data S' = [1; 5; 9]).
Proof. repeat split; eexists; (split; [vm_compute; reflexivity|]); reflexivity. Qed.

(** ** C70 *)
(** RemoveNanVector_in keeps exactly the other elements, in order, as a row or column vector. *)
Theorem c70_remove_nan_vector {A} (skip : A -> bool) (M : mat A) : mat_ok M ->
  exists M', remove_nan_vector skip M = Ok M' /\
    firstn (rows M' * cols M') (data M') = filter (fun x => negb (skip x)) (firstn (rows M * cols M) (data M)) /\
    (rows M' * cols M')%nat = length (filter (fun x => negb (skip x)) (firstn (rows M * cols M) (data M))) /\
    (if (1 <? cols M)%nat then rows M' = 1%nat else cols M' = 1%nat) /\
    length (data M') = length (data M) /\
    (forall k, (rows M * cols M <= k)%nat -> nth_error (data M') k = nth_error (data M) k).
Proof. exact (remove_nan_vector_ok skip M). Qed.
Print Assumptions c70_remove_nan_vector.
(** RemoveColumnsIn keeps exactly the columns that are not listed, unchanged and in order. *)
Theorem c70_remove_columns {A} (M : mat A) (cs : list Z) : mat_ok M ->
  exists M', remove_columns M cs = Ok M' /\ rows M' = rows M /\ length (data M') = length (data M) /\
    columns M' = map (column M) (filter (fun j => negb (existsb (Z.eqb (Z.of_nat j)) cs)) (seq 0 (cols M))) /\
    (forall k, (rows M * cols M <= k)%nat -> nth_error (data M') k = nth_error (data M) k).
Proof. exact (remove_columns_ok M cs). Qed.
Print Assumptions c70_remove_columns.
(** RemoveColumnsAnyNan_in keeps exactly the columns without NaN (or infinity), unchanged and in order. *)
Theorem c70_remove_columns_any_nan {A} (skip : A -> bool) (M : mat A) : mat_ok M ->
  exists M', remove_columns_any_nan skip M = Ok M' /\ rows M' = rows M /\ length (data M') = length (data M) /\
    columns M' = map (column M) (filter (fun j => negb (existsb skip (column M j))) (seq 0 (cols M))) /\
    (forall k, (rows M * cols M <= k)%nat -> nth_error (data M') k = nth_error (data M) k).
Proof. exact (remove_columns_any_nan_ok skip M). Qed.
Print Assumptions c70_remove_columns_any_nan.
Example c70_case : let nan := fun x => x =? 0 in let M := Mat 2 4 [1; 2; 0; 3; 4; 5; 6; 0] in mat_ok M /\
  (exists M', remove_columns_any_nan nan M = Ok M' /\ columns M' = [[1; 2]; [4; 5]]) /\
  (exists M', remove_columns M [0; 2] = Ok M' /\ columns M' = [[0; 3]; [6; 0]]) /\
  (exists M', remove_nan_vector nan M = Ok M' /\ rows M' = 1%nat /\ cols M' = 6%nat).
Proof. split; [vm_compute; auto|]. split; [|split]; eexists; (split; [vm_compute; reflexivity|]); vm_compute; auto. Qed.
