(** Kronecker and diagonal products, packed symmetric matrices: proofs. *)
From Verif Require Import MatSpec MatProofs MatProofs2 MatProofs3.
From Coq Require Import Lia ZifyBool.
Local Open Scope Z_scope.

Lemma list_prod_nth {A B} (l1 : list A) (l2 : list B) : forall i j, (j < length l2)%nat ->
  nth_error (list_prod l1 l2) (i * length l2 + j) =
  match nth_error l1 i, nth_error l2 j with Some a, Some b => Some (a, b) | _, _ => None end.
Proof.
  induction l1 as [|a l1 IH]; intros i j Hj.
  - cbn [list_prod]. destruct i; cbn [nth_error]; destruct (_ + _)%nat; reflexivity.
  - cbn [list_prod]. destruct i as [|i].
    + cbn [Nat.mul Nat.add nth_error]. rewrite nth_error_app1 by (rewrite map_length; lia).
      rewrite nth_error_map. destruct (nth_error l2 j); reflexivity.
    + rewrite nth_error_app2 by (rewrite map_length; lia). rewrite map_length.
      replace (S i * length l2 + j - length l2)%nat with (i * length l2 + j)%nat by lia. rewrite IH by auto. reflexivity.
Qed.
Lemma outer_in m p k a b : 0 <= m -> 0 <= p ->
  In (k, (a, b)) (outer m p) <-> 0 <= k < m * p /\ a = k / p /\ b = k mod p.
Proof.
  intros Hm Hp. unfold outer. rewrite enum_in. split.
  - intros (Hk & H). assert (L : (Z.to_nat k < length (list_prod (zrange 0 m) (zrange 0 p)))%nat) by (apply nth_error_Some; congruence).
    rewrite prod_length, !zrange_length in L. assert (0 < p) by nia.
    pose proof (Z.div_mod k p ltac:(lia)) as D. pose proof (Z.mod_pos_bound k p ltac:(lia)) as Bm. pose proof (Z.div_pos k p ltac:(lia) ltac:(lia)).
    replace (Z.to_nat k) with (Z.to_nat (k / p) * length (zrange 0 p) + Z.to_nat (k mod p))%nat in H by (rewrite zrange_length; nia).
    rewrite list_prod_nth in H by (rewrite zrange_length; lia).
    rewrite !zrange_nth in H by nia. injection H as <- <-. split; [nia|]. lia.
  - intros (Hk & -> & ->). split; [lia|]. assert (0 < p) by nia.
    pose proof (Z.div_mod k p ltac:(lia)) as D. pose proof (Z.mod_pos_bound k p ltac:(lia)) as Bm. pose proof (Z.div_pos k p ltac:(lia) ltac:(lia)).
    replace (Z.to_nat k) with (Z.to_nat (k / p) * length (zrange 0 p) + Z.to_nat (k mod p))%nat by (rewrite zrange_length; nia).
    rewrite list_prod_nth by (rewrite zrange_length; lia). rewrite !zrange_nth by nia. do 2 f_equal; lia.
Qed.

Lemma kron_loop_ok m p n q (S : mat Qc) val f : 0 <= m -> 0 <= p -> 0 <= n -> 0 <= q -> mat_ok S ->
  nrows S = m * p -> ncols S = n * q ->
  (forall i j, inside S i j -> exists v, val (i / p, i mod p) (j / q, j mod q) = Ok v /\ f i j = Some v) ->
  exists S', kron_loop m p n q S val = Ok S' /\ becomes S f S'.
Proof.
  intros Hm Hp Hn Hq W HR HC Hv. unfold kron_loop. apply mwrites_ok; auto.
  - intros k e H. apply in_flat_map in H. destruct H as ([i (a, b)] & H1 & H2). apply in_map_iff in H2. destruct H2 as ([j (a', b')] & E & H2).
    apply outer_in in H1; auto. apply outer_in in H2; auto. destruct H1 as (H1 & -> & ->). destruct H2 as (H2 & -> & ->). cbn [fst snd] in E. injection E as <- <-.
    destruct (Hv i j) as (v & E1 & E2); [unfold inside; lia|]. exists i, j, v. split; [unfold inside; lia|]. auto.
  - intros i j (Hi & Hj). left. apply in_map_iff. exists (pos S i j, val (i / p, i mod p) (j / q, j mod q)). split; auto.
    apply in_flat_map. exists (i, (i / p, i mod p)). split; [apply outer_in; auto; lia|]. apply in_map_iff. exists (j, (j / q, j mod q)).
    split; auto. apply outer_in; auto; lia.
Qed.

Lemma div_bound i p m : 0 <= p -> 0 <= i < m * p -> 0 < p /\ 0 <= i / p < m /\ 0 <= i mod p < p.
Proof.
  intros Hp H. assert (p <> 0) by (intros ->; rewrite Z.mul_0_r in H; lia). assert (0 < p) by lia. split; auto. split; [|apply Z.mod_pos_bound; auto]. split; [apply Z.div_pos; lia|].
  apply Z.div_lt_upper_bound; lia.
Qed.

Lemma nrows_nonneg {A} (M : mat A) : 0 <= nrows M. Proof. unfold nrows; lia. Qed.
Lemma ncols_nonneg {A} (M : mat A) : 0 <= ncols M. Proof. unfold ncols; lia. Qed.
Lemma kron_ok (M B S : mat Qc) : mat_ok M -> mat_ok B -> mat_ok S ->
  if (nrows S =? nrows M * nrows B) && (ncols S =? ncols M * ncols B) then
    exists S', kron M B S = Ok S' /\ becomes S (kron_entry (entry M) (entry B) (nrows B) (ncols B)) S'
  else kron M B S = Throw.
Proof.
  intros WM WB WS. unfold kron. destruct (_ && _) eqn:E.
  - replace (_ || _) with false by lia. apply kron_loop_ok; auto using nrows_nonneg, ncols_nonneg; try lia.
    intros i j (Hi & Hj). destruct (div_bound i (nrows B) (nrows M)) as (? & ? & ?); [first [lia|apply nrows_nonneg|apply ncols_nonneg] | lia |]. destruct (div_bound j (ncols B) (ncols M)) as (? & ? & ?); [first [lia|apply nrows_nonneg|apply ncols_nonneg] | lia |].
    cbn [fst snd]. unfold kron_entry.
    destruct (get0_ok M (i / nrows B) (j / ncols B) WM) as (v & E1 & E2); [split; auto|].
    destruct (get0_ok B (i mod nrows B) (j mod ncols B) WB) as (w & E3 & E4); [split; auto|].
    exists (v * w)%Qc. unfold times. rewrite E2, E4, E1, E3. split; reflexivity.
  - replace (_ || _) with true by lia. reflexivity.
Qed.
Lemma identity_in h i j : 0 <= i < h -> 0 <= j < h -> identity h i j = Some (delta i j).
Proof. intros Hi Hj. unfold identity, delta. replace (_ && _) with true by lia. reflexivity. Qed.
Lemma kron_iden_ok (M : mat Qc) h (S : mat Qc) : mat_ok M -> mat_ok S -> 0 <= h ->
  if (nrows S =? nrows M * h) && (ncols S =? ncols M * h) then
    exists S', kron_iden M h S = Ok S' /\ becomes S (kron_entry (entry M) (identity h) h h) S'
  else kron_iden M h S = Throw.
Proof.
  intros WM WS Hh. unfold kron_iden. destruct (_ && _) eqn:E.
  - replace (_ || _) with false by lia. apply kron_loop_ok; auto using nrows_nonneg, ncols_nonneg; try lia.
    intros i j (Hi & Hj). destruct (div_bound i h (nrows M)) as (? & ? & ?); [first [lia|apply nrows_nonneg|apply ncols_nonneg] | lia |]. destruct (div_bound j h (ncols M)) as (? & ? & ?); [first [lia|apply nrows_nonneg|apply ncols_nonneg] | lia |].
    cbn [fst snd]. unfold kron_entry. rewrite identity_in by auto.
    destruct (get0_ok M (i / h) (j / h) WM) as (v & E1 & E2); [split; auto|].
    eexists. unfold times. rewrite E2, E1. split; reflexivity.
  - replace (_ || _) with true by lia. reflexivity.
Qed.
Lemma iden_kron_ok (M : mat Qc) h (S : mat Qc) : mat_ok M -> mat_ok S -> 0 <= h ->
  if (nrows S =? nrows M * h) && (ncols S =? ncols M * h) then
    exists S', iden_kron M h S = Ok S' /\ becomes S (kron_entry (identity h) (entry M) (nrows M) (ncols M)) S'
  else iden_kron M h S = Throw.
Proof.
  intros WM WS Hh. unfold iden_kron. destruct (_ && _) eqn:E.
  - replace (_ || _) with false by lia. apply kron_loop_ok; auto using nrows_nonneg, ncols_nonneg; try lia.
    intros i j (Hi & Hj). destruct (div_bound i (nrows M) h) as (? & ? & ?); [first [lia|apply nrows_nonneg|apply ncols_nonneg] | lia |]. destruct (div_bound j (ncols M) h) as (? & ? & ?); [first [lia|apply nrows_nonneg|apply ncols_nonneg] | lia |].
    cbn [fst snd]. unfold kron_entry. rewrite identity_in by auto.
    destruct (get0_ok M (i mod nrows M) (j mod ncols M) WM) as (v & E1 & E2); [split; auto|].
    eexists. unfold times. rewrite E2, E1. cbn [bind]. split; [reflexivity|]. f_equal. apply Qcmult_comm.
  - replace (_ || _) with true by lia. reflexivity.
Qed.
Lemma tr_kron_iden_ok (M : mat Qc) h (S : mat Qc) : mat_ok M -> mat_ok S -> 0 <= h ->
  if (nrows S =? ncols M * h) && (ncols S =? nrows M * h) then
    exists S', tr_kron_iden M h S = Ok S' /\ becomes S (kron_entry (fun i j => entry M j i) (identity h) h h) S'
  else tr_kron_iden M h S = Throw.
Proof.
  intros WM WS Hh. unfold tr_kron_iden. destruct (_ && _) eqn:E.
  - replace (_ || _) with false by lia. apply kron_loop_ok; auto using nrows_nonneg, ncols_nonneg; try lia.
    intros i j (Hi & Hj). destruct (div_bound i h (ncols M)) as (? & ? & ?); [first [lia|apply nrows_nonneg|apply ncols_nonneg] | lia |]. destruct (div_bound j h (nrows M)) as (? & ? & ?); [first [lia|apply nrows_nonneg|apply ncols_nonneg] | lia |].
    cbn [fst snd]. unfold kron_entry. rewrite identity_in by auto.
    destruct (get0_ok M (j / h) (i / h) WM) as (v & E1 & E2); [split; auto|].
    eexists. unfold times. rewrite E2, E1. split; reflexivity.
  - replace (_ || _) with true by lia. reflexivity.
Qed.

(** ** Diagonal products *)
Lemma diag_dot_ok (M B S : mat Qc) : mat_ok M -> mat_ok B -> mat_ok S ->
  nrows B = mlength M -> nrows S = mlength M -> ncols S = ncols B ->
  exists S', diag_dot M B S = Ok S' /\ becomes S (fun i j => omult (nth_error (data M) (Z.to_nat i)) (entry B i j)) S'.
Proof.
  intros WM WB WS H1 H2 H3. unfold diag_dot. replace (nrows B =? mlength M) with true by lia. cbn [negb].
  replace (_ || _) with false by lia. apply mwrites_ok; auto.
  - intros k e H. apply in_flat_map in H. destruct H as (i & Hi & H). apply in_map_iff in H. destruct H as (j & E & Hj). injection E as <- <-.
    apply in_zrange in Hi. apply in_zrange in Hj. destruct (rd_data M i WM) as (v & E1 & E2); [lia|]. destruct (get0_ok B i j WB) as (w & E3 & E4); [unfold inside; lia|].
    exists i, j, (v * w)%Qc. split; [unfold inside; lia|]. split; auto. unfold times, omult. rewrite E1, E2, E3, E4. auto.
  - intros i j (Hi & Hj). left. apply in_map_iff. eexists (pos S i j, _). split; [reflexivity|]. apply in_flat_map. exists i. split; [apply in_zrange; lia|].
    apply in_map_iff. exists j. split; [reflexivity|]. apply in_zrange; lia.
Qed.
Lemma dot_diag_ok (M B S : mat Qc) : mat_ok M -> mat_ok B -> mat_ok S ->
  ncols M = mlength B -> nrows S = nrows M -> ncols S = mlength B -> nrows M = ncols M ->
  exists S', dot_diag M B S = Ok S' /\ becomes S (fun i j => omult (nth_error (data B) (Z.to_nat j)) (entry M i j)) S'.
Proof.
  intros WM WB WS H1 H2 H3 H4. unfold dot_diag. replace (ncols M =? mlength B) with true by lia. cbn [negb].
  replace (_ || _) with false by lia. apply mwrites_ok; auto.
  - intros k e H. apply in_flat_map in H. destruct H as (j & Hj & H). apply in_map_iff in H. destruct H as (i & E & Hi). injection E as <- <-.
    apply in_zrange in Hi. apply in_zrange in Hj. destruct (rd_data B j WB) as (v & E1 & E2); [lia|]. destruct (get0_ok M i j WM) as (w & E3 & E4); [unfold inside; lia|].
    exists i, j, (v * w)%Qc. split; [unfold inside; lia|]. split; auto. unfold times, omult. rewrite E1, E2, E3, E4. auto.
  - intros i j (Hi & Hj). left. apply in_map_iff. eexists (pos S i j, _). split; [reflexivity|]. apply in_flat_map. exists j. split; [apply in_zrange; lia|].
    apply in_map_iff. exists i. split; [reflexivity|]. apply in_zrange; lia.
Qed.

(** ** Packed symmetric matrices *)
Lemma quot2 x y : x = 2 * y -> Z.quot x 2 = y.
Proof. intros ->. rewrite Z.mul_comm. apply Z.quot_mul. lia. Qed.
Lemma even_prod k : exists y, k * (k + 1) = 2 * y.
Proof.
  destruct (Z.Even_or_Odd k) as [(y & ->)|(y & ->)]; [exists (y * (2 * y + 1)) | exists ((2 * y + 1) * (y + 1))]; ring.
Qed.
Lemma sym_length_val diag n : 2 * sym_length diag n = if diag then n * (n + 1) else n * (n - 1).
Proof.
  unfold sym_length. destruct diag.
  - destruct (even_prod n) as (y & E). rewrite (quot2 _ y); lia.
  - destruct (even_prod (n - 1)) as (y & E). replace (n - 1 + 1) with n in E by ring. rewrite (quot2 _ y); lia.
Qed.
Definition lo (i j : Z) := Z.min i j.
Definition hi (i j : Z) := Z.max i j.
Lemma sym_index_val diag n i j :
  2 * sym_index diag n i j = if diag then 2 * (lo i j * n + hi i j) - lo i j * (lo i j + 1)
                             else 2 * (lo i j * n + hi i j) - (lo i j + 1) * (lo i j + 2).
Proof.
  unfold sym_index, lo, hi. destruct diag.
  - destruct (Z.ltb_spec j i).
    + destruct (even_prod j) as (y & E). rewrite (quot2 _ y) by lia. rewrite Z.min_r, Z.max_l by lia. lia.
    + destruct (even_prod i) as (y & E). rewrite (quot2 _ y) by lia. rewrite Z.min_l, Z.max_r by lia. lia.
  - destruct (Z.ltb_spec j i).
    + destruct (even_prod (j + 1)) as (y & E). replace (j + 1 + 1) with (j + 2) in E by ring. rewrite (quot2 _ y) by lia. rewrite Z.min_r, Z.max_l by lia. lia.
    + destruct (even_prod (i + 1)) as (y & E). replace (i + 1 + 1) with (i + 2) in E by ring. rewrite (quot2 _ y) by lia. rewrite Z.min_l, Z.max_r by lia. lia.
Qed.
Lemma sym_index_comm diag n i j : sym_index diag n i j = sym_index diag n j i.
Proof.
  pose proof (sym_index_val diag n i j). pose proof (sym_index_val diag n j i). unfold lo, hi in *.
  rewrite (Z.min_comm j i), (Z.max_comm j i) in H0. lia.
Qed.
Lemma sym_index_range diag n i j : sym_pair diag n i j -> 0 <= sym_index diag n i j < sym_length diag n.
Proof.
  intros (Hi & Hj & Hd). pose proof (sym_index_val diag n i j) as E. pose proof (sym_length_val diag n) as L.
  assert (0 <= lo i j <= hi i j /\ hi i j < n) by (unfold lo, hi; lia). destruct diag.
  - split; nia.
  - assert (lo i j < hi i j) by (unfold lo, hi; destruct Hd; [discriminate|lia]). split; nia.
Qed.
Lemma sym_index_inj diag n i j i' j' : sym_pair diag n i j -> sym_pair diag n i' j' ->
  sym_index diag n i j = sym_index diag n i' j' -> i = i' /\ j = j' \/ i = j' /\ j = i'.
Proof.
  intros (Hi & Hj & Hd) (Hi' & Hj' & Hd') E. pose proof (sym_index_val diag n i j) as E1. pose proof (sym_index_val diag n i' j') as E2.
  enough (lo i j = lo i' j' /\ hi i j = hi i' j') by (unfold lo, hi in *; lia).
  assert (Ha : 0 <= lo i j <= hi i j /\ hi i j < n) by (unfold lo, hi; lia). assert (Hb : 0 <= lo i' j' <= hi i' j' /\ hi i' j' < n) by (unfold lo, hi; lia).
  assert (Sa : diag = true \/ lo i j < hi i j) by (unfold lo, hi; destruct Hd; auto; right; lia).
  assert (Sb : diag = true \/ lo i' j' < hi i' j') by (unfold lo, hi; destruct Hd'; auto; right; lia).
  set (a := lo i j) in *. set (b := hi i j) in *. set (c := lo i' j') in *. set (d := hi i' j') in *. clearbody a b c d.
  rewrite E in E1. clear Hi Hj Hi' Hj' Hd Hd' E.
  assert (a = c); [|split; auto; subst c; destruct diag; nia].
  destruct (Z.lt_trichotomy a c) as [|[|]]; auto; exfalso; destruct diag.
  - nia.
  - destruct Sa as [|Sa]; [discriminate|]. destruct Sb as [|Sb]; [discriminate|]. nia.
  - nia.
  - destruct Sa as [|Sa]; [discriminate|]. destruct Sb as [|Sb]; [discriminate|]. nia.
Qed.
