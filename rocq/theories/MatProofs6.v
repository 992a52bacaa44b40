(** Removal of columns and of NaN in place: proofs. *)
From Verif Require Import MatSpec MatProofs MatProofs2 MatProofs3 MatProofs4.
From Coq Require Import Lia ZifyBool.
Local Open Scope Z_scope.

Lemma zrange_cons s n : 0 < n -> zrange s n = s :: zrange (s + 1) (n - 1).
Proof.
  intros H. unfold zrange. replace (Z.to_nat n) with (S (Z.to_nat (n - 1))) by lia. cbn [seq map]. f_equal; [lia|].
  rewrite <- seq_shift, map_map. apply map_ext. intros. lia.
Qed.
Lemma zrange_nil s n : n <= 0 -> zrange s n = [].
Proof. intros H. unfold zrange. replace (Z.to_nat n) with 0%nat by lia. reflexivity. Qed.

Lemma copy_col_ok {A} (stop : A -> bool) r j w : forall n s (d : list A), n = r - s -> 0 <= s <= r -> 0 <= w <= j -> j * r + r <= Z.of_nat (length d) ->
  exists d' b, copy_col stop (zrange s n) r j w d = Ok (d', b) /\ length d' = length d /\
    (forall x, 0 <= x -> ~ (w * r + s <= x < w * r + r) -> at_ d' x = at_ d x) /\
    (w = j -> forall x, 0 <= x -> at_ d' x = at_ d x) /\
    (if b : bool then exists i v, s <= i < r /\ at_ d (j * r + i) = Some v /\ stop v = true
     else forall i, s <= i < r -> at_ d' (w * r + i) = at_ d (j * r + i) /\ exists v, at_ d (j * r + i) = Some v /\ stop v = false).
Proof.
  intros n s d Hn. remember (Z.to_nat (r - s)) as m eqn:Em. revert n s d Hn Em. induction m as [|m IH]; intros n s d Hn Em Hs Hw Hd.
  - rewrite zrange_nil by lia. exists d, false. cbn [copy_col]. repeat split; auto; lia.
  - rewrite zrange_cons by lia. cbn [copy_col].
    destruct (rd_ok d (j * r + s)) as (v & Ev & ->); [nia|]. cbn [bind]. fold (at_ d (j * r + s)) in Ev.
    destruct (stop v) eqn:Es.
    + exists d, true. repeat split; auto. exists s, v. repeat split; auto; lia.
    + rewrite wr_ok by nia. cbn [bind].
      destruct (IH (n - 1) (s + 1) (upd (Z.to_nat (w * r + s)) v d)) as (d' & b & -> & L & O & Se & B); try lia; [rewrite upd_length; auto|].
      rewrite upd_length in L.
      assert (U : forall x, 0 <= x -> at_ (upd (Z.to_nat (w * r + s)) v d) x = if x =? w * r + s then Some v else at_ d x) by (intros; apply at_upd; nia).
      exists d', b. split; auto. split; auto. split; [|split].
      * intros x Hx Hn'. rewrite O by lia. rewrite U by auto. destruct (Z.eqb_spec x (w * r + s)); auto. lia.
      * intros E x Hx. rewrite Se by auto. rewrite U by auto. destruct (Z.eqb_spec x (w * r + s)) as [-> |]; auto. subst w. auto.
      * destruct b.
        { destruct B as (i & v' & Hi & E1 & E2). exists i, v'. rewrite U in E1 by nia. destruct (Z.eqb_spec (j * r + i) (w * r + s)); [nia|]. repeat split; auto; lia. }
        intros i Hi. destruct (Z.eq_dec i s) as [-> |].
        { split; [|eauto]. rewrite Ev. rewrite O by nia. rewrite U by nia. rewrite Z.eqb_refl. auto. }
        destruct (B i) as (B1 & v' & B2 & B3); [lia|]. rewrite U in B1, B2 by nia. destruct (Z.eqb_spec (j * r + i) (w * r + s)); [nia|].
        split; auto. exists v'. auto.
Qed.

Lemma filter_length_le' {A} (p : A -> bool) l : (length (filter p l) <= length l)%nat.
Proof. induction l as [|a l IH]; cbn; auto. destruct (p a); cbn; lia. Qed.
(** The first columns of [d] are the columns [K] of [D]. *)
Definition packed {A} (D : list A) (r : Z) (K : list Z) (d : list A) : Prop :=
  forall t k, nth_error K t = Some k -> forall i, 0 <= i < r -> at_ d (Z.of_nat t * r + i) = at_ D (k * r + i).
Lemma packed_snoc {A} (D d d' : list A) r K j : 0 <= r -> packed D r K d ->
  (forall x, 0 <= x < Z.of_nat (length K) * r -> at_ d' x = at_ d x) ->
  (forall i, 0 <= i < r -> at_ d' (Z.of_nat (length K) * r + i) = at_ D (j * r + i)) -> packed D r (K ++ [j]) d'.
Proof.
  intros Hr P O E t k Ht i Hi. destruct (Nat.lt_ge_cases t (length K)) as [L|L].
  - rewrite nth_error_app1 in Ht by auto. rewrite O by nia. apply (P t k Ht i Hi).
  - assert (t = length K) as ->. { assert (t < length (K ++ [j]))%nat by (apply nth_error_Some; congruence). rewrite app_length in H. cbn [length] in H. lia. }
    rewrite nth_error_app2, Nat.sub_diag in Ht by auto. injection Ht as <-. auto.
Qed.

Lemma remove_cols_loop_ok {A} (del : Z -> bool) (D : list A) r c : 0 <= r -> c * r <= Z.of_nat (length D) ->
  forall n j K (d : list A), n = c - j -> 0 <= j <= c -> length d = length D -> Z.of_nat (length K) <= j ->
  packed D r K d -> (forall x, j * r <= x -> at_ d x = at_ D x) ->
  exists d', remove_cols_loop del (zrange j n) r (Z.of_nat (length K)) d = Ok (d', Z.of_nat (length (K ++ filter (fun k => negb (del k)) (zrange j n)))) /\
    length d' = length D /\ packed D r (K ++ filter (fun k => negb (del k)) (zrange j n)) d' /\
    (forall x, c * r <= x -> at_ d' x = at_ D x).
Proof.
  intros Hr HD n j K d Hn. remember (Z.to_nat (c - j)) as m eqn:Em. revert n j K d Hn Em.
  induction m as [|m IH]; intros n j K d Hn Em Hj Ld HK P O.
  - rewrite zrange_nil by lia. cbn [filter remove_cols_loop]. rewrite app_nil_r. exists d. repeat split; auto. intros x Hx. apply O. nia.
  - rewrite zrange_cons by lia. cbn [filter remove_cols_loop]. destruct (del j) eqn:Dj; cbn [negb].
    + apply IH; auto; try lia. intros x Hx. apply O. nia.
    + destruct (copy_col_ok (fun _ : A => false) r j (Z.of_nat (length K)) r 0 d) as (d1 & b & -> & L1 & O1 & _ & B); try lia; [nia|]. cbn [bind].
      assert (P1 : packed D r (K ++ [j]) d1).
      { apply (packed_snoc D d); auto.
        - intros x Hx. apply O1; lia.
        - intros i Hi. destruct b; [destruct B as (? & ? & _ & _ & F); discriminate|].
          destruct (B i) as (B1 & _); [lia|]. rewrite B1. apply O. lia. }
      replace (Z.of_nat (length K) + 1) with (Z.of_nat (length (K ++ [j]))) by (rewrite app_length; cbn [length]; lia).
      destruct (IH (n - 1) (j + 1) (K ++ [j]) d1) as (d' & E & L' & P' & O'); try lia; auto.
      * rewrite app_length; cbn [length]. lia.
      * intros x Hx. rewrite O1 by nia. apply O. nia.
      * rewrite <- app_assoc in E, P'. exists d'. rewrite E. auto.
Qed.

Lemma remove_nan_cols_loop_ok {A} (skip : A -> bool) (D : list A) r c (dirty : Z -> bool) : 0 <= r -> c * r <= Z.of_nat (length D) ->
  (forall k, 0 <= k < c -> dirty k = true <-> exists i v, 0 <= i < r /\ at_ D (k * r + i) = Some v /\ skip v = true) ->
  forall n j K (d : list A), n = c - j -> 0 <= j <= c -> length d = length D -> Z.of_nat (length K) <= j ->
  packed D r K d -> (forall x, j * r <= x -> at_ d x = at_ D x) ->
  exists d', remove_nan_cols_loop skip (zrange j n) r (Z.of_nat (length K)) d = Ok (d', Z.of_nat (length (K ++ filter (fun k => negb (dirty k)) (zrange j n)))) /\
    length d' = length D /\ packed D r (K ++ filter (fun k => negb (dirty k)) (zrange j n)) d' /\
    (forall x, c * r <= x -> at_ d' x = at_ D x).
Proof.
  intros Hr HD Hdirty n j K d Hn. remember (Z.to_nat (c - j)) as m eqn:Em. revert n j K d Hn Em.
  induction m as [|m IH]; intros n j K d Hn Em Hj Ld HK P O.
  - rewrite zrange_nil by lia. cbn [filter remove_nan_cols_loop]. rewrite app_nil_r. exists d. repeat split; auto. intros x Hx. apply O. nia.
  - rewrite zrange_cons by lia. cbn [filter remove_nan_cols_loop].
    destruct (copy_col_ok skip r j (Z.of_nat (length K)) r 0 d) as (d1 & b & -> & L1 & O1 & _ & B); try lia; [nia|]. cbn [bind].
    destruct b.
    + assert (dirty j = true) as ->.
      { apply Hdirty; [lia|]. destruct B as (i & v & Hi & E & Sv). exists i, v. rewrite O in E by nia. auto. }
      cbn [negb]. apply IH; auto; try lia.
      * intros t k Ht i Hi. assert (t < length K)%nat by (apply nth_error_Some; congruence). rewrite O1 by nia. apply (P t k Ht i Hi).
      * intros x Hx. rewrite O1 by nia. apply O. nia.
    + assert (dirty j = false) as ->.
      { apply not_true_is_false. intros F. apply Hdirty in F; [|lia]. destruct F as (i & v & Hi & E & Sv).
        destruct (B i) as (_ & v' & E' & Sv'); [lia|]. rewrite O in E' by nia. congruence. }
      cbn [negb].
      assert (P1 : packed D r (K ++ [j]) d1).
      { apply (packed_snoc D d); auto.
        - intros x Hx. apply O1; lia.
        - intros i Hi. destruct (B i) as (B1 & _); [lia|]. rewrite B1. apply O. lia. }
      replace (Z.of_nat (length K) + 1) with (Z.of_nat (length (K ++ [j]))) by (rewrite app_length; cbn [length]; lia).
      destruct (IH (n - 1) (j + 1) (K ++ [j]) d1) as (d' & E & L' & P' & O'); try lia; auto.
      * rewrite app_length; cbn [length]. lia.
      * intros x Hx. rewrite O1 by nia. apply O. nia.
      * rewrite <- app_assoc in E, P'. exists d'. rewrite E. auto.
Qed.

Lemma compact_ok {A} (skip : A -> bool) (D : list A) c : c <= Z.of_nat (length D) ->
  forall n i K (d : list A), n = c - i -> 0 <= i <= c -> length d = length D -> Z.of_nat (length K) <= i ->
  K = filter (fun x => negb (skip x)) (firstn (Z.to_nat i) D) ->
  (forall t, (t < length K)%nat -> nth_error d t = nth_error K t) -> (forall x, i <= x -> at_ d x = at_ D x) ->
  exists d', compact skip (zrange i n) d (Z.of_nat (length K)) = Ok (d', Z.of_nat (length (filter (fun x => negb (skip x)) (firstn (Z.to_nat c) D)))) /\
    length d' = length D /\
    (forall t, (t < length (filter (fun x => negb (skip x)) (firstn (Z.to_nat c) D)))%nat -> nth_error d' t = nth_error (filter (fun x => negb (skip x)) (firstn (Z.to_nat c) D)) t) /\
    (forall x, c <= x -> at_ d' x = at_ D x).
Proof.
  intros HD n i K d Hn. remember (Z.to_nat (c - i)) as m eqn:Em. revert n i K d Hn Em.
  induction m as [|m IH]; intros n i K d Hn Em Hi Ld HK EK P O.
  - rewrite zrange_nil by lia. cbn [compact]. assert (i = c) by lia. subst i. rewrite <- EK. exists d. repeat split; auto.
  - rewrite zrange_cons by lia. cbn [compact]. destruct (rd_ok d i) as (v & Ev & ->); [lia|]. cbn [bind].
    fold (at_ d i) in Ev. rewrite O in Ev by lia. unfold at_ in Ev.
    assert (F : firstn (Z.to_nat (i + 1)) D = firstn (Z.to_nat i) D ++ [v]).
    { replace (Z.to_nat (i + 1)) with (S (Z.to_nat i)) by lia. clear - Ev. revert D Ev. induction (Z.to_nat i) as [|k IHk]; intros [|a D] E; try discriminate.
      - cbn in E. injection E as ->. reflexivity.
      - cbn [nth_error] in E. cbn [firstn app]. f_equal. apply IHk; auto. }
    destruct (skip v) eqn:Sv.
    + apply IH; auto; try lia.
      * rewrite F, filter_app. cbn [filter]. rewrite Sv. cbn [negb]. rewrite app_nil_r. auto.
      * intros x Hx. apply O. lia.
    + rewrite wr_ok by lia. cbn [bind].
      replace (Z.of_nat (length K) + 1) with (Z.of_nat (length (K ++ [v]))) by (rewrite app_length; cbn [length]; lia).
      apply IH; auto; try lia.
      * rewrite upd_length; auto.
      * rewrite app_length; cbn [length]. lia.
      * rewrite F, filter_app. cbn [filter]. rewrite Sv. cbn [negb]. rewrite <- EK. auto.
      * intros t Ht. rewrite app_length in Ht; cbn [length] in Ht. rewrite Nat2Z.id. destruct (Nat.eq_dec t (length K)) as [-> |].
        { rewrite nth_error_upd_same by lia. rewrite nth_error_app2, Nat.sub_diag by lia. reflexivity. }
        rewrite nth_error_upd_other by lia. rewrite nth_error_app1 by lia. apply P. lia.
      * intros x Hx. rewrite at_upd by lia. destruct (Z.eqb_spec x (Z.of_nat (length K))); [lia|]. apply O. lia.
Qed.

(** ** In terms of columns *)
Lemma nth_firstn {A} (l : list A) : forall n i, (i < n)%nat -> nth_error (firstn n l) i = nth_error l i.
Proof. induction l as [|a l IH]; intros [|n] [|i] H; cbn; auto; try lia. apply IH. lia. Qed.
Lemma nth_skipn {A} (l : list A) : forall n i, nth_error (skipn n l) i = nth_error l (n + i).
Proof. induction l as [|a l IH]; intros [|n] i; cbn; auto. destruct i; reflexivity. Qed.
Lemma column_nth {A} (M : mat A) j i : (i < rows M)%nat -> nth_error (column M j) i = nth_error (data M) (j * rows M + i).
Proof. intros H. unfold column. rewrite nth_firstn by auto. apply nth_skipn. Qed.
Lemma column_length {A} (M : mat A) j : mat_ok M -> (j < cols M)%nat -> length (column M j) = rows M.
Proof. intros W H. unfold column. rewrite firstn_length, skipn_length. unfold mat_ok in W. nia. Qed.

Lemma zrange0 n : zrange 0 (Z.of_nat n) = map Z.of_nat (seq 0 n).
Proof. unfold zrange. rewrite Nat2Z.id. apply map_ext. intros; lia. Qed.
Lemma filter_map_comm {A B} (f : A -> B) (p : B -> bool) l : filter p (map f l) = map f (filter (fun x => p (f x)) l).
Proof. induction l as [|a l IH]; cbn; auto. destruct (p (f a)); cbn; rewrite IH; auto. Qed.

Lemma packed_columns {A} (M : mat A) d (keep : nat -> bool) : mat_ok M -> length d = length (data M) ->
  packed (data M) (nrows M) (map Z.of_nat (filter keep (seq 0 (cols M)))) d ->
  columns (Mat (rows M) (length (filter keep (seq 0 (cols M)))) d) = map (column M) (filter keep (seq 0 (cols M))).
Proof.
  intros W L P. unfold columns. cbn [cols].
  set (K := filter keep (seq 0 (cols M))) in *.
  assert (HK : (length K <= cols M)%nat). { unfold K. rewrite <- (seq_length (cols M) 0) at 2. apply filter_length_le'. }
  apply list_ext_nth_error. intros t. rewrite !nth_error_map.
  destruct (nth_error K t) as [k|] eqn:E.
  - assert (Lt : (t < length K)%nat) by (apply nth_error_Some; congruence).
    rewrite (nth_error_nth' _ 0%nat) by (rewrite seq_length; auto). rewrite seq_nth by auto. cbn [option_map Nat.add]. f_equal.
    assert (Kin : (k < cols M)%nat). { apply nth_error_In in E. apply filter_In in E. destruct E as (E & _). apply in_seq in E. lia. }
    set (M' := Mat (rows M) (length K) d).
    assert (W' : mat_ok M'). { unfold mat_ok, M' in *. cbn [rows cols data]. nia. }
    apply list_ext_nth_error. intros i. destruct (Nat.lt_ge_cases i (rows M)) as [Hi|Hi].
    + rewrite !column_nth by auto. specialize (P t (Z.of_nat k)). rewrite nth_error_map, E in P. specialize (P eq_refl (Z.of_nat i)).
      unfold at_, nrows in P. unfold M'. cbn [data rows]. replace (t * rows M + i)%nat with (Z.to_nat (Z.of_nat t * Z.of_nat (rows M) + Z.of_nat i)) by nia.
      rewrite P by lia. f_equal. nia.
    + pose proof (column_length M' t W' Lt) as L1. pose proof (column_length M k W Kin) as L2. change (rows M') with (rows M) in L1.
      transitivity (@None A); [|symmetry]; apply nth_error_None; lia.
  - rewrite (proj2 (nth_error_None _ _)); [reflexivity|]. rewrite seq_length. apply nth_error_None. auto.
Qed.

Lemma remove_columns_ok {A} (M : mat A) (cs : list Z) : mat_ok M ->
  exists M', remove_columns M cs = Ok M' /\ rows M' = rows M /\ length (data M') = length (data M) /\
    columns M' = map (column M) (filter (fun j => negb (existsb (Z.eqb (Z.of_nat j)) cs)) (seq 0 (cols M))) /\
    (forall k, (rows M * cols M <= k)%nat -> nth_error (data M') k = nth_error (data M) k).
Proof.
  intros W. unfold remove_columns. destruct cs as [|c0 cs'] eqn:Ecs.
  - exists M. repeat split; auto. unfold columns. f_equal. symmetry. rewrite (filter_ext _ (fun _ => true)) by (intros; reflexivity).
    induction (seq 0 (cols M)) as [|a l IH]; cbn; auto. f_equal; auto.
  - rewrite <- Ecs. clear Ecs c0 cs'.
    destruct (remove_cols_loop_ok (fun j => existsb (Z.eqb j) cs) (data M) (nrows M) (ncols M)) with (n := ncols M) (j := 0) (K := @nil Z) (d := data M)
      as (d' & E & L & P & O); auto; try (unfold nrows, ncols, mat_ok in *; cbn [length]; nia).
    { intros t k H. destruct t; discriminate. }
    cbn [length app] in E, P. change (Z.of_nat 0) with 0 in E. rewrite E. cbn [bind]. eexists. split; [reflexivity|]. cbn [rows data cols]. split; auto. split; auto.
    assert (FK : filter (fun k => negb (existsb (Z.eqb k) cs)) (zrange 0 (ncols M)) = map Z.of_nat (filter (fun j => negb (existsb (Z.eqb (Z.of_nat j)) cs)) (seq 0 (cols M)))).
    { unfold ncols. rewrite zrange0. rewrite filter_map_comm. reflexivity. }
    rewrite FK in *. split.
    + rewrite map_length, Nat2Z.id. apply packed_columns; auto.
    + intros k Hk. specialize (O (Z.of_nat k)). unfold at_ in O. rewrite Nat2Z.id in O. apply O. unfold nrows, ncols. nia.
Qed.

Lemma remove_columns_any_nan_ok {A} (skip : A -> bool) (M : mat A) : mat_ok M ->
  exists M', remove_columns_any_nan skip M = Ok M' /\ rows M' = rows M /\ length (data M') = length (data M) /\
    columns M' = map (column M) (filter (fun j => negb (existsb skip (column M j))) (seq 0 (cols M))) /\
    (forall k, (rows M * cols M <= k)%nat -> nth_error (data M') k = nth_error (data M) k).
Proof.
  intros W. unfold remove_columns_any_nan.
  destruct (remove_nan_cols_loop_ok skip (data M) (nrows M) (ncols M) (fun k => existsb skip (column M (Z.to_nat k)))) with (n := ncols M) (j := 0) (K := @nil Z) (d := data M)
    as (d' & E & L & P & O); auto; try (unfold nrows, ncols, mat_ok in *; cbn [length]; nia).
  { intros k Hk. rewrite existsb_exists. unfold nrows. assert (Lc : length (column M (Z.to_nat k)) = rows M) by (apply column_length; auto; unfold ncols in Hk; lia). split.
    - intros (v & Hv & Sv). apply In_nth_error in Hv. destruct Hv as (i & Hi). assert (i < rows M)%nat by (rewrite <- Lc; apply nth_error_Some; congruence).
      rewrite column_nth in Hi by auto. exists (Z.of_nat i), v. split; [lia|]. split; auto. unfold at_. rewrite <- Hi. f_equal. nia.
    - intros (i & v & Hi & Ev & Sv). exists v. split; auto. apply (nth_error_In _ (Z.to_nat i)). rewrite column_nth by lia. unfold at_ in Ev. rewrite <- Ev. f_equal. nia. }
  { intros t k H. destruct t; discriminate. }
  cbn [length app] in E, P. change (Z.of_nat 0) with 0 in E. rewrite E. cbn [bind]. eexists. split; [reflexivity|]. cbn [rows data cols]. split; auto. split; auto.
  assert (FK : filter (fun k => negb (existsb skip (column M (Z.to_nat k)))) (zrange 0 (ncols M)) = map Z.of_nat (filter (fun j => negb (existsb skip (column M j))) (seq 0 (cols M)))).
  { unfold ncols. rewrite zrange0. rewrite filter_map_comm. f_equal. apply filter_ext. intros j. rewrite Nat2Z.id. auto. }
  rewrite FK in *. split.
  - rewrite map_length, Nat2Z.id. apply packed_columns; auto.
  - intros k Hk. specialize (O (Z.of_nat k)). unfold at_ in O. rewrite Nat2Z.id in O. apply O. unfold nrows, ncols. nia.
Qed.

Lemma remove_nan_vector_ok {A} (skip : A -> bool) (M : mat A) : mat_ok M ->
  exists M', remove_nan_vector skip M = Ok M' /\
    firstn (rows M' * cols M') (data M') = filter (fun x => negb (skip x)) (firstn (rows M * cols M) (data M)) /\
    (rows M' * cols M')%nat = length (filter (fun x => negb (skip x)) (firstn (rows M * cols M) (data M))) /\
    (if (1 <? cols M)%nat then rows M' = 1%nat else cols M' = 1%nat) /\
    length (data M') = length (data M) /\
    (forall k, (rows M * cols M <= k)%nat -> nth_error (data M') k = nth_error (data M) k).
Proof.
  intros W. unfold remove_nan_vector.
  assert (HM : mlength M = Z.of_nat (rows M * cols M)) by (unfold mlength, nrows, ncols; lia).
  destruct (compact_ok skip (data M) (mlength M)) with (n := mlength M) (i := 0) (K := @nil A) (d := data M) as (d' & E & L & P & O);
    auto; try (cbn [length]; unfold mat_ok in W; lia).
  cbn [length] in E. change (Z.of_nat 0) with 0 in E. rewrite E. cbn [bind]. rewrite Nat2Z.id. rewrite HM, Nat2Z.id in *.
  set (K := filter (fun x => negb (skip x)) (firstn (rows M * cols M) (data M))) in *.
  assert (LK : (length K <= length (data M))%nat). { unfold K. etransitivity; [apply filter_length_le'|]. rewrite firstn_length. lia. }
  assert (F : firstn (length K) d' = K).
  { apply list_ext_nth_error. intros t. destruct (Nat.lt_ge_cases t (length K)).
    - rewrite nth_firstn by auto. apply P; auto.
    - transitivity (@None A); [|symmetry]; apply nth_error_None; auto. rewrite firstn_length. lia. }
  eexists. split; [reflexivity|].
  replace (1 <? ncols M) with (1 <? cols M)%nat by (unfold ncols; lia).
  assert (B : forall k, (rows M * cols M <= k)%nat -> nth_error d' k = nth_error (data M) k).
  { intros k Hk. specialize (O (Z.of_nat k)). unfold at_ in O. rewrite Nat2Z.id in O. apply O. lia. }
  destruct (1 <? cols M)%nat; cbn [rows cols data]; rewrite ?Nat.mul_1_l, ?Nat.mul_1_r; auto 10.
Qed.
