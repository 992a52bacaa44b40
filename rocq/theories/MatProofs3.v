(** Rows, columns, diagonals, vectors and transposition into another matrix. *)
From Verif Require Import MatSpec MatModel MatProofs MatProofs2.
From Coq Require Import ZifyBool.
Local Open Scope Z_scope.

Lemma bad_spec n i : bad n i = false <-> 0 <= i < n.
Proof. unfold bad. lia. Qed.
Ltac chk := repeat match goal with
  | |- context [bad ?n ?i] => rewrite (proj2 (bad_spec n i)) by lia
  end.
Lemma rd_data {A} (S : mat A) k : mat_ok S -> 0 <= k < mlength S -> exists v, rd (data S) k = Ok v /\ nth_error (data S) (Z.to_nat k) = Some v.
Proof.
  intros W H. destruct (rd_ok (data S) k) as (v & E & R); eauto. unfold mat_ok, mlength, nrows, ncols in *. nia.
Qed.

Lemma set_row_value_ok {A} (M : mat A) i v : mat_ok M -> 0 <= i < nrows M ->
  exists M', set_row_value M i v = Ok M' /\ becomes M (fun a b => if a =? i then Some v else entry M a b) M'.
Proof.
  intros W Hi. unfold set_row_value. chk.
  apply (line_ok M (ncols M) (fun _ => i) (fun t => t) (fun _ => Ok v) (fun a _ => a =? i) (fun _ _ => Some v)); auto.
  - intros t Ht. split; [unfold inside; lia|]. split; [lia|]. eauto.
  - intros a b (Ha & Hb) E. exists b. lia.
Qed.
Lemma set_column_value_ok {A} (M : mat A) j v : mat_ok M -> 0 <= j < ncols M ->
  exists M', set_column_value M j v = Ok M' /\ becomes M (fun a b => if b =? j then Some v else entry M a b) M'.
Proof.
  intros W Hi. unfold set_column_value. chk.
  apply (line_ok M (nrows M) (fun t => t) (fun _ => j) (fun _ => Ok v) (fun _ b => b =? j) (fun _ _ => Some v)); auto.
  - intros t Ht. split; [unfold inside; lia|]. split; [lia|]. eauto.
  - intros a b (Ha & Hb) E. exists a. lia.
Qed.
Lemma set_row_ok {A} (M S : mat A) i : mat_ok M -> mat_ok S -> 0 <= i < nrows M -> ncols M <= mlength S ->
  exists M', set_row M i S = Ok M' /\ becomes M (fun a b => if a =? i then nth_error (data S) (Z.to_nat b) else entry M a b) M'.
Proof.
  intros W WS Hi HL. unfold set_row. chk.
  apply (line_ok M (ncols M) (fun _ => i) (fun t => t) (fun t => rd (data S) t) (fun a _ => a =? i) (fun _ b => nth_error (data S) (Z.to_nat b))); auto.
  - intros t Ht. split; [unfold inside; lia|]. split; [lia|]. destruct (rd_data S t WS) as (v & ? & ?); [lia|]. eauto.
  - intros a b (Ha & Hb) E. exists b. lia.
Qed.
Lemma set_column_ok {A} (M S : mat A) j : mat_ok M -> mat_ok S -> 0 <= j < ncols M -> nrows M <= mlength S ->
  exists M', set_column M j S = Ok M' /\ becomes M (fun a b => if b =? j then nth_error (data S) (Z.to_nat a) else entry M a b) M'.
Proof.
  intros W WS Hi HL. unfold set_column. chk.
  apply (line_ok M (nrows M) (fun t => t) (fun _ => j) (fun t => rd (data S) t) (fun _ b => b =? j) (fun a _ => nth_error (data S) (Z.to_nat a))); auto.
  - intros t Ht. split; [unfold inside; lia|]. split; [lia|]. destruct (rd_data S t WS) as (v & ? & ?); [lia|]. eauto.
  - intros a b (Ha & Hb) E. exists a. lia.
Qed.
Lemma set_row_from_row_ok {A} (M S : mat A) i k : mat_ok M -> mat_ok S -> 0 <= i < nrows M -> 0 <= k < nrows S -> ncols M <= ncols S ->
  exists M', set_row_from_row M i S k = Ok M' /\ becomes M (fun a b => if a =? i then entry S k b else entry M a b) M'.
Proof.
  intros W WS Hi Hk HL. unfold set_row_from_row. chk.
  apply (line_ok M (ncols M) (fun _ => i) (fun t => t) (fun t => get0 S k t) (fun a _ => a =? i) (fun _ b => entry S k b)); auto.
  - intros t Ht. split; [unfold inside; lia|]. split; [lia|]. destruct (get0_ok S k t WS) as (v & ? & ?); [unfold inside; lia|]. eauto.
  - intros a b (Ha & Hb) E. exists b. lia.
Qed.
Lemma set_column_from_column_ok {A} (M S : mat A) j k : mat_ok M -> mat_ok S -> 0 <= j < ncols M -> 0 <= k < ncols S -> nrows M = nrows S ->
  exists M', set_column_from_column M j S k = Ok M' /\ becomes M (fun a b => if b =? j then entry S a k else entry M a b) M'.
Proof.
  intros W WS Hi Hk HL. unfold set_column_from_column. chk.
  apply (line_ok M (nrows M) (fun t => t) (fun _ => j) (fun t => rd (data S) (nrows M * k + t)) (fun _ b => b =? j) (fun a _ => entry S a k)); auto.
  - intros t Ht. split; [unfold inside; lia|]. split; [lia|]. destruct (get0_ok S t k WS) as (v & ? & E); [unfold inside; lia|].
    exists v. split; auto. unfold get0, pos in E. rewrite HL. rewrite Z.add_comm. auto.
  - intros a b (Ha & Hb) E. exists a. lia.
Qed.
Lemma set_column_from_row_ok {A} (M S : mat A) j k : mat_ok M -> mat_ok S -> 0 <= j < ncols M -> 0 <= k < nrows S -> nrows M = ncols M -> nrows M <= ncols S ->
  exists M', set_column_from_row M j S k = Ok M' /\ becomes M (fun a b => if b =? j then entry S k a else entry M a b) M'.
Proof.
  intros W WS Hi Hk HE HL. unfold set_column_from_row. chk.
  apply (line_ok M (ncols M) (fun t => t) (fun _ => j) (fun t => get0 S k t) (fun _ b => b =? j) (fun a _ => entry S k a)); auto.
  - intros t Ht. split; [unfold inside; lia|]. split; [lia|]. destruct (get0_ok S k t WS) as (v & ? & E); [unfold inside; lia|]. eauto.
  - intros a b (Ha & Hb) E. exists a. lia.
Qed.
Lemma diag_rd {A} (S : mat A) t : mat_ok S -> nrows S = ncols S -> 0 <= t < nrows S -> exists v, rd (data S) (t * (nrows S + 1)) = Ok v /\ entry S t t = Some v.
Proof.
  intros W HE Ht. destruct (get0_ok S t t W) as (v & E1 & E2); [unfold inside; lia|]. exists v. split; auto.
  replace (t * (nrows S + 1)) with (pos S t t) by (unfold pos; lia). auto.
Qed.
Lemma set_row_from_diag_ok {A} (M S : mat A) i : mat_ok M -> mat_ok S -> 0 <= i < nrows M -> nrows S = ncols M -> ncols S = ncols M ->
  exists M', set_row_from_diag M i S = Ok M' /\ becomes M (fun a b => if a =? i then entry S b b else entry M a b) M'.
Proof.
  intros W WS Hi H1 H2. unfold set_row_from_diag. chk. replace (_ || _) with false by lia.
  apply (line_ok M (ncols M) (fun _ => i) (fun t => t) (fun t => rd (data S) (t * (nrows S + 1))) (fun a _ => a =? i) (fun _ b => entry S b b)); auto.
  - intros t Ht. split; [unfold inside; lia|]. split; [lia|]. apply diag_rd; auto; lia.
  - intros a b (Ha & Hb) E. exists b. lia.
Qed.
Lemma set_column_from_diag_ok {A} (M S : mat A) j : mat_ok M -> mat_ok S -> 0 <= j < ncols M -> nrows S = nrows M -> ncols S = nrows M ->
  exists M', set_column_from_diag M j S = Ok M' /\ becomes M (fun a b => if b =? j then entry S a a else entry M a b) M'.
Proof.
  intros W WS Hi H1 H2. unfold set_column_from_diag. chk. replace (_ || _) with false by lia.
  apply (line_ok M (nrows M) (fun t => t) (fun _ => j) (fun t => rd (data S) (t * (nrows S + 1))) (fun _ b => b =? j) (fun a _ => entry S a a)); auto.
  - intros t Ht. split; [unfold inside; lia|]. split; [lia|]. apply diag_rd; auto; lia.
  - intros a b (Ha & Hb) E. exists a. lia.
Qed.
Lemma set_sub_row_ok {A} (M S : mat A) row c len : mat_ok M -> mat_ok S -> 0 <= row < nrows M -> 0 <= c -> c + len <= ncols M -> len <= mlength S ->
  exists M', set_sub_row M row c S len = Ok M' /\
    becomes M (fun a b => if (a =? row) && (c <=? b) && (b <? c + len) then nth_error (data S) (Z.to_nat (b - c)) else entry M a b) M'.
Proof.
  intros W WS Hi Hc H1 H2. unfold set_sub_row. chk. destruct (Z.ltb_spec (ncols M) (c + len)); [lia|]. destruct (Z.ltb_spec (mlength S) len); [lia|].
  apply (line_ok M len (fun _ => row) (fun t => c + t) (fun t => rd (data S) t) (fun a b => (a =? row) && (c <=? b) && (b <? c + len)) (fun _ b => nth_error (data S) (Z.to_nat (b - c)))); auto.
  - intros t Ht. split; [unfold inside; lia|]. split; [lia|]. replace (c + t - c) with t by lia. destruct (rd_data S t WS) as (v & ? & ?); [lia|]. eauto.
  - intros a b (Ha & Hb) E. exists (b - c). lia.
Qed.

(** ** Vectors: the elements of a storage matrix in storage order. *)
Lemma mwrites_vec {A} (S : mat A) s n (val : Z -> res A) (v : Z -> option A) : 0 <= s -> s + n <= Z.of_nat (length (data S)) ->
  (forall t, 0 <= t < n -> exists x, val t = Ok x /\ v t = Some x) ->
  exists S', mwrites S (map (fun t => (s + t, val t)) (zrange 0 n)) = Ok S' /\ rows S' = rows S /\ cols S' = cols S /\ filled (data S) (data S') s n v.
Proof.
  intros Hs Hn HV. destruct (vec_ok (data S) s n val v Hs Hn HV) as (d' & E & L & N). unfold mwrites. rewrite E. cbn [bind].
  eexists. split; [reflexivity|]. cbn [with_data rows cols data]. repeat split; auto.
Qed.
Lemma storage_len {A} (S : mat A) n : mat_ok S -> n <= mlength S -> n <= Z.of_nat (length (data S)).
Proof. unfold mat_ok, mlength, nrows, ncols. nia. Qed.
Lemma get_row_ok {A} (M S : mat A) i : mat_ok M -> mat_ok S -> 0 <= i < nrows M -> mlength S = ncols M ->
  exists S', get_row M i S = Ok S' /\ rows S' = rows S /\ cols S' = cols S /\ filled (data S) (data S') 0 (ncols M) (fun j => entry M i j).
Proof.
  intros W WS Hi HL. unfold get_row. chk. replace (mlength S =? ncols M) with true by lia. cbn [negb].
  apply (mwrites_vec S 0 (ncols M) (fun j => get0 M i j)); [lia|apply storage_len; auto; lia|].
  intros t Ht. destruct (get0_ok M i t W) as (v & ? & ?); [unfold inside; lia|]. eauto.
Qed.
Lemma get_column_ok {A} (M S : mat A) j : mat_ok M -> mat_ok S -> 0 <= j < ncols M -> mlength S = nrows M ->
  exists S', get_column M j S = Ok S' /\ rows S' = rows S /\ cols S' = cols S /\ filled (data S) (data S') 0 (nrows M) (fun i => entry M i j).
Proof.
  intros W WS Hi HL. unfold get_column. chk. replace (mlength S =? nrows M) with true by lia. cbn [negb].
  apply (mwrites_vec S 0 (nrows M) (fun i => get0 M i j)); [lia|apply storage_len; auto; lia|].
  intros t Ht. destruct (get0_ok M t j W) as (v & ? & ?); [unfold inside; lia|]. eauto.
Qed.
Lemma get_diag_ok {A} (M S : mat A) : mat_ok M -> mat_ok S -> nrows M = ncols M -> nrows M <= mlength S ->
  exists S', get_diag M S = Ok S' /\ rows S' = rows S /\ cols S' = cols S /\ filled (data S) (data S') 0 (nrows M) (fun i => entry M i i).
Proof.
  intros W WS HE HL. unfold get_diag. replace (nrows M =? ncols M) with true by lia. cbn [negb]. destruct (Z.ltb_spec (mlength S) (nrows M)); [lia|].
  apply (mwrites_vec S 0 (nrows M) (fun i => rd (data M) (i * (nrows M + 1)))); [lia|apply storage_len; auto; lia|].
  intros t Ht. apply diag_rd; auto; lia.
Qed.
Lemma set_sub_vector_ok {A} (M S : mat A) s ss n : mat_ok M -> mat_ok S -> 0 <= s -> 0 <= ss -> s + n <= nrows M -> (0 < ncols M) -> ss + n <= mlength S ->
  exists M', set_sub_vector M s S ss n = Ok M' /\ rows M' = rows M /\ cols M' = cols M /\
    filled (data M) (data M') s n (fun t => nth_error (data S) (Z.to_nat (ss + t))).
Proof.
  intros W WS Hs Hss H1 HC H2. unfold set_sub_vector. destruct (Z.ltb_spec (nrows M) (s + n)); [lia|].
  apply (mwrites_vec M s n (fun t => rd (data S) (ss + t))); [lia| |].
  - pose proof (storage_len M (s + n) W) as G. apply G. unfold mlength. assert (0 <= nrows M) by (unfold nrows; lia). assert (nrows M <= nrows M * ncols M) by nia. lia.
  - intros t Ht. destruct (rd_data S (ss + t) WS) as (v & ? & ?); [lia|]. eauto.
Qed.

(** ** Transposition into another matrix *)
Lemma transpose_to_ok {A} (M S : mat A) : mat_ok M -> mat_ok S ->
  if (nrows S =? ncols M) && (ncols S =? nrows M) then
    exists S', transpose_to M S = Ok S' /\ becomes S (fun i j => entry M j i) S'
  else transpose_to M S = Throw.
Proof.
  intros W WS. unfold transpose_to. destruct ((nrows S =? ncols M) && (ncols S =? nrows M)) eqn:E.
  - replace (_ || _) with false by lia. apply mwrites_ok; auto.
    + intros p e H. apply in_flat_map in H. destruct H as (i & Hi & H). apply in_map_iff in H. destruct H as (j & C & Hj). injection C as <- <-.
      apply in_zrange in Hi. apply in_zrange in Hj. destruct (get0_ok M i j W) as (v & E1 & E2); [unfold inside; lia|].
      exists j, i, v. split; [unfold inside; lia|]. auto.
    + intros i j (Hi & Hj). left. apply in_map_iff. exists (pos S i j, get0 M j i). split; auto. apply in_flat_map. exists j. split; [apply in_zrange; lia|].
      apply in_map_iff. exists i. split; auto. apply in_zrange. lia.
  - replace (_ || _) with true by lia. reflexivity.
Qed.
