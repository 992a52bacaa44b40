From Verif Require Import MatSpec MatModel MatProofs.
From Coq Require Import ZifyBool.
Local Open Scope Z_scope.

Lemma line_ok {A} (M : mat A) n fi fj (val : Z -> res A) (hit : Z -> Z -> bool) (f : Z -> Z -> option A) : mat_ok M ->
  (forall t, 0 <= t < n -> inside M (fi t) (fj t) /\ hit (fi t) (fj t) = true /\ exists v, val t = Ok v /\ f (fi t) (fj t) = Some v) ->
  (forall i j, inside M i j -> hit i j = true -> exists t, 0 <= t < n /\ i = fi t /\ j = fj t) ->
  exists M', mwrites M (map (fun t => (pos M (fi t) (fj t), val t)) (zrange 0 n)) = Ok M' /\
    becomes M (fun i j => if hit i j then f i j else entry M i j) M'.
Proof.
  intros W H1 H2. apply mwrites_ok; auto.
  - intros p e H. apply in_map_iff in H. destruct H as (t & E & Ht). injection E as <- <-. apply in_zrange in Ht.
    destruct (H1 t ltac:(lia)) as (Hin & Hh & v & E1 & E2). exists (fi t), (fj t), v. rewrite Hh. auto.
  - intros i j Hin. destruct (hit i j) eqn:E; auto. left. destruct (H2 i j Hin E) as (t & Ht & -> & ->).
    rewrite map_map. cbn [fst]. apply in_map_iff. exists t. split; auto. apply in_zrange. lia.
Qed.

(** Consecutive places of a storage. *)
Lemma vec_ok {A} (d : list A) s n (val : Z -> res A) (v : Z -> option A) : 0 <= s -> s + n <= Z.of_nat (length d) ->
  (forall t, 0 <= t < n -> exists x, val t = Ok x /\ v t = Some x) ->
  exists d', writes (map (fun t => (s + t, val t)) (zrange 0 n)) d = Ok d' /\ length d' = length d /\
    forall k, nth_error d' k = if (s <=? Z.of_nat k) && (Z.of_nat k <? s + n) then v (Z.of_nat k - s) else nth_error d k.
Proof.
  intros Hs Hn HV. destruct (Z.le_gt_cases n 0) as [Hn0|Hn0].
  { exists d. replace (zrange 0 n) with (@nil Z) by (unfold zrange; replace (Z.to_nat n) with 0%nat by lia; reflexivity).
    split; auto. split; auto. intros k. destruct ((s <=? Z.of_nat k) && (Z.of_nat k <? s + n)) eqn:E; auto. lia. }
  unfold zrange. set (m := Z.to_nat n). assert (Em : n = Z.of_nat m) by lia. clearbody m. subst n. clear Hn0.
  (* generalise over the first iteration *)
  assert (G : forall m0 a (e : list A), (a + m0 <= m)%nat -> length e = length d ->
    exists d', writes (map (fun t => (s + t, val t)) (map (fun k => 0 + Z.of_nat k) (seq a m0))) e = Ok d' /\ length d' = length d /\
      forall k, nth_error d' k = if (s + Z.of_nat a <=? Z.of_nat k) && (Z.of_nat k <? s + Z.of_nat (a + m0)) then v (Z.of_nat k - s) else nth_error e k).
  { induction m0 as [|m0 IH]; intros a e Ha He.
    - exists e. split; auto. split; auto. intros k. destruct (_ && _) eqn:E; auto. lia.
    - cbn [seq map writes]. destruct (HV (0 + Z.of_nat a) ltac:(lia)) as (x & E1 & E2). rewrite E1. cbn [bind].
      rewrite wr_ok by lia. cbn [bind]. destruct (IH (S a) (upd (Z.to_nat (s + (0 + Z.of_nat a))) x e) ltac:(lia)) as (d' & E & L & N).
      { rewrite upd_length. auto. }
      exists d'. split; auto. split; auto. intros k. rewrite N.
      destruct ((s + Z.of_nat (S a) <=? Z.of_nat k) && (Z.of_nat k <? s + Z.of_nat (S a + m0))) eqn:C1.
      + replace ((s + Z.of_nat a <=? Z.of_nat k) && (Z.of_nat k <? s + Z.of_nat (a + S m0))) with true by lia. reflexivity.
      + destruct ((s + Z.of_nat a <=? Z.of_nat k) && (Z.of_nat k <? s + Z.of_nat (a + S m0))) eqn:C2.
        * assert (Z.of_nat k = s + Z.of_nat a) by lia. replace (Z.of_nat k - s) with (0 + Z.of_nat a) by lia. rewrite E2.
          replace k with (Z.to_nat (s + (0 + Z.of_nat a))) by lia. apply nth_error_upd_same. lia.
        * apply nth_error_upd_other. lia. }
  destruct (G m 0%nat d ltac:(lia) eq_refl) as (d' & E & L & N). exists d'. split; auto. split; auto. intros k. rewrite N.
  replace (s + Z.of_nat 0) with s by lia. replace (0 + m)%nat with m by lia. reflexivity.
Qed.

Lemma becomes_ext {A} (M M' : mat A) f g : becomes M f M' -> (forall i j, inside M i j -> f i j = g i j) -> becomes M g M'.
Proof. intros [B1 B2 B3 B4 B5] H. constructor; auto. intros i j Hin. rewrite <- H; auto. Qed.
Lemma entry_in {A} (M : mat A) i j v : entry M i j = Some v -> inside M i j.
Proof. intros E. apply inside_b. unfold entry in E. destruct (insideb M i j); auto. discriminate. Qed.
Lemma becomes_ok {A} (M M' : mat A) f : mat_ok M -> becomes M f M' -> mat_ok M'.
Proof. intros W [B1 B2 B3 _ _]. unfold mat_ok in *. rewrite B1, B2, B3. exact W. Qed.

(** ** Element access *)
Lemma get_spec {A} (M : mat A) i j : mat_ok M -> get M i j = match entry M i j with Some v => Ok v | None => Throw end.
Proof.
  intros W. unfold get. destruct (outside M i j) eqn:E.
  - replace (entry M i j) with (@None A); auto. unfold entry. replace (insideb M i j) with false; auto. unfold outside in E. unfold insideb. lia.
  - destruct (get0_ok M i j W) as (v & -> & ->); auto. unfold outside in E. unfold inside. lia.
Qed.
Lemma set_spec {A} (M : mat A) i j v : mat_ok M ->
  (inside M i j /\ exists M', set M i j v = Ok M' /\ becomes M (fun a b => if (a =? i) && (b =? j) then Some v else entry M a b) M') \/
  (~ inside M i j /\ set M i j v = Throw).
Proof.
  intros W. unfold set. destruct (outside M i j) eqn:E.
  - right. split; auto. unfold outside in E. unfold inside. lia.
  - left. assert (H : inside M i j) by (unfold outside in E; unfold inside; lia). split; auto. apply mwrites_ok; auto.
    + intros p e [C|[]]. injection C as <- <-. exists i, j, v. rewrite !Z.eqb_refl. auto.
    + intros a b _. simpl. destruct ((a =? i) && (b =? j)) eqn:C; auto. left. left. f_equal; lia.
Qed.
Lemma translate_spec {A} (M : mat A) i j : inside M i j -> translate_index M (i + nrows M * j) = Ok (i, j).
Proof.
  intros (H1 & H2). unfold translate_index. destruct (Z.eqb_spec (nrows M) 0); [lia|].
  rewrite Z.rem_mod_nonneg, Z.quot_div_nonneg by nia. f_equal. f_equal.
  - replace (i + nrows M * j) with (i + j * nrows M) by lia. rewrite Z.mod_add by lia. apply Z.mod_small. lia.
  - replace (i + nrows M * j) with (i + j * nrows M) by lia. rewrite Z.div_add by lia. rewrite Z.div_small; lia.
Qed.
Lemma get1_spec {A} (M : mat A) i j : mat_ok M -> inside M i j -> get1 M (i + nrows M * j) = get M i j.
Proof.
  intros W H. rewrite get_spec by auto. destruct (get0_ok M i j W H) as (v & -> & G). unfold get1.
  destruct (pos_range M i j W H) as (P & P2). unfold pos in *. unfold mlength.
  destruct ((i + nrows M * j <? 0) || (nrows M * ncols M <=? i + nrows M * j)) eqn:E; [unfold nrows, ncols in *; lia|]. exact G.
Qed.

(** ** Sub-matrices *)
Lemma set_sub_ok {A} (M S : mat A) r c sr sc nr nc : mat_ok M -> mat_ok S -> 0 <= r -> 0 <= c -> 0 <= sr -> 0 <= sc ->
  if (r + nr <=? nrows M) && (c + nc <=? ncols M) && (sr + nr <=? nrows S) && (sc + nc <=? ncols S) then
    exists M', set_sub M r c S sr sc nr nc = Ok M' /\
      becomes M (fun i j => if in_block r c nr nc i j then entry S (sr + (i - r)) (sc + (j - c)) else entry M i j) M'
  else set_sub M r c S sr sc nr nc = Throw.
Proof.
  intros WM WS Hr Hc Hsr Hsc. destruct (_ && _ && _ && _) eqn:E.
  - unfold set_sub. destruct (Z.ltb_spec (nrows M) (r + nr)); [lia|]. destruct (Z.ltb_spec (ncols M) (c + nc)); [lia|].
    destruct (Z.ltb_spec (nrows S) (sr + nr)); [lia|]. destruct (Z.ltb_spec (ncols S) (sc + nc)); [lia|].
    apply (grid_ok M r c nr nc _ (fun i j => entry S (sr + (i - r)) (sc + (j - c)))); auto; try lia.
    intros i j Hi Hj. destruct (get0_ok S (sr + (i - r)) (sc + (j - c)) WS) as (v & E1 & E2); [unfold inside; lia|]. eauto.
  - unfold set_sub. destruct (Z.ltb_spec (nrows M) (r + nr)); auto. destruct (Z.ltb_spec (ncols M) (c + nc)); auto.
    destruct (Z.ltb_spec (nrows S) (sr + nr)); auto. destruct (Z.ltb_spec (ncols S) (sc + nc)); auto. lia.
Qed.
Lemma set_sub_t_ok {A} (M S : mat A) r c sr sc nr nc : mat_ok M -> mat_ok S -> 0 <= r -> 0 <= c -> 0 <= sr -> 0 <= sc ->
  if (r + nr <=? nrows M) && (c + nc <=? ncols M) && (sc + nr <=? ncols S) && (sr + nc <=? nrows S) then
    exists M', set_sub_t M r c S sr sc nr nc = Ok M' /\
      becomes M (fun i j => if in_block r c nr nc i j then entry S (sr + (j - c)) (sc + (i - r)) else entry M i j) M'
  else set_sub_t M r c S sr sc nr nc = Throw.
Proof.
  intros WM WS Hr Hc Hsr Hsc. destruct (_ && _ && _ && _) eqn:E.
  - unfold set_sub_t. destruct (Z.ltb_spec (nrows M) (r + nr)); [lia|]. destruct (Z.ltb_spec (ncols M) (c + nc)); [lia|].
    destruct (Z.ltb_spec (ncols S) (sc + nr)); [lia|]. destruct (Z.ltb_spec (nrows S) (sr + nc)); [lia|].
    apply (grid_ok M r c nr nc _ (fun i j => entry S (sr + (j - c)) (sc + (i - r)))); auto; try lia.
    intros i j Hi Hj. destruct (get0_ok S (sr + (j - c)) (sc + (i - r)) WS) as (v & E1 & E2); [unfold inside; lia|]. eauto.
  - unfold set_sub_t. destruct (Z.ltb_spec (nrows M) (r + nr)); auto. destruct (Z.ltb_spec (ncols M) (c + nc)); auto.
    destruct (Z.ltb_spec (ncols S) (sc + nr)); auto. destruct (Z.ltb_spec (nrows S) (sr + nc)); auto. lia.
Qed.
(** GetSub of a block that fits exactly into the rest of the storage matrix. *)
Lemma get_sub_ok {A} (M S : mat A) r c nr nc sr sc : mat_ok M -> mat_ok S -> 0 <= r -> 0 <= c -> 0 <= sr -> 0 <= sc ->
  r + nr <= nrows M -> c + nc <= ncols M -> nrows S = sr + nr -> ncols S = sc + nc ->
  exists S', get_sub M r c nr nc S sr sc = Ok S' /\
    becomes S (fun i j => if in_block sr sc nr nc i j then entry M (r + (i - sr)) (c + (j - sc)) else entry S i j) S'.
Proof.
  intros WM WS Hr Hc Hsr Hsc H1 H2 H3 H4. unfold get_sub.
  destruct (Z.ltb_spec (nrows M) (r + nr)); [lia|]. destruct (Z.ltb_spec (ncols M) (c + nc)); [lia|].
  replace ((nr + sr <? nrows S) || (nc + sc <? ncols S)) with false by lia.
  apply (grid_ok S sr sc nr nc _ (fun i j => entry M (r + (i - sr)) (c + (j - sc)))); auto; try lia.
  intros i j Hi Hj. destruct (get0_ok M (r + (i - sr)) (c + (j - sc)) WM) as (v & E1 & E2); [unfold inside; lia|]. eauto.
Qed.

(** ** Loops over vectors of indexes *)
Lemma enum_in {A} (l : list A) k x : In (k, x) (enum l) <-> 0 <= k /\ nth_error l (Z.to_nat k) = Some x.
Proof.
  unfold enum. split.
  - intros H. apply In_nth_error in H. destruct H as (n & H).
    assert (L : (n < length l)%nat).
    { assert (n < length (combine (zrange 0 (Z.of_nat (length l))) l))%nat by (apply nth_error_Some; congruence).
      rewrite combine_length in H0. lia. }
    assert (G : forall (l1 : list Z) (l2 : list A) n p, nth_error (combine l1 l2) n = Some p -> nth_error l1 n = Some (fst p) /\ nth_error l2 n = Some (snd p)).
    { induction l1 as [|a l1 IH]; intros [|b l2] [|m] p Hp; simpl in *; try discriminate; [injection Hp as <-; auto|]. apply IH; auto. }
    apply G in H. cbn [fst snd] in H. destruct H as (H1 & H2). rewrite zrange_nth in H1 by lia. injection H1 as <-.
    split; [lia|]. rewrite Nat2Z.id. auto.
  - intros (Hk & H). assert (L : (Z.to_nat k < length l)%nat) by (apply nth_error_Some; congruence).
    apply (nth_error_In _ (Z.to_nat k)).
    assert (G : forall (l1 : list Z) (l2 : list A) n a b, nth_error l1 n = Some a -> nth_error l2 n = Some b -> nth_error (combine l1 l2) n = Some (a, b)).
    { induction l1 as [|a l1 IH]; intros [|b l2] [|m] a' b' Ha Hb; simpl in *; try discriminate; [congruence|]. apply IH; auto. }
    apply G; auto. rewrite zrange_nth by lia. f_equal. lia.
Qed.
Lemma at_index_nth l k : 0 <= k < Z.of_nat (length l) -> nth_error l (Z.to_nat k) = Some (at_index l k).
Proof. intros H. unfold at_index. apply nth_error_nth'. lia. Qed.

Lemma get_sub_lists_ok {A} (M S : mat A) ri ci sr sc : mat_ok M -> mat_ok S -> 0 <= sr -> 0 <= sc ->
  Forall (fun i => 0 <= i < nrows M) ri -> Forall (fun j => 0 <= j < ncols M) ci ->
  nrows S = sr + Z.of_nat (length ri) -> ncols S = sc + Z.of_nat (length ci) ->
  exists S', get_sub_lists M ri ci S sr sc = Ok S' /\
    becomes S (fun i j => if in_block sr sc (Z.of_nat (length ri)) (Z.of_nat (length ci)) i j
                          then entry M (at_index ri (i - sr)) (at_index ci (j - sc)) else entry S i j) S'.
Proof.
  intros WM WS Hsr Hsc FR FC H1 H2. unfold get_sub_lists.
  replace (nrows S =? Z.of_nat (length ri) + sr) with true by lia. replace (ncols S =? Z.of_nat (length ci) + sc) with true by lia. cbn [negb].
  rewrite Forall_forall in FR, FC. apply mwrites_ok; auto.
  - intros p e H. apply in_flat_map in H. destruct H as ([t i] & Ht & H). apply in_map_iff in H. destruct H as ([u j] & E & Hu). cbn [fst snd] in E.
    injection E as <- <-. apply enum_in in Ht. apply enum_in in Hu. destruct Ht as (Ht & Ei). destruct Hu as (Hu & Ej).
    assert (t < Z.of_nat (length ri)) by (assert (Z.to_nat t < length ri)%nat by (apply nth_error_Some; congruence); lia).
    assert (u < Z.of_nat (length ci)) by (assert (Z.to_nat u < length ci)%nat by (apply nth_error_Some; congruence); lia).
    destruct (get0_ok M i j WM) as (v & E1 & E2). { split; [apply FR|apply FC]; eapply nth_error_In; eauto. }
    exists (sr + t), (sc + u), v. split; [unfold inside; lia|]. split; auto. split; auto.
    replace (in_block _ _ _ _ _ _) with true by (unfold in_block; lia).
    replace (sr + t - sr) with t by lia. replace (sc + u - sc) with u by lia.
    rewrite at_index_nth in Ei by lia. rewrite at_index_nth in Ej by lia. injection Ei as ->. injection Ej as ->. auto.
  - intros i j Hin. destruct (in_block _ _ _ _ _ _) eqn:E; auto. left. unfold in_block in E. apply in_map_iff.
    exists (pos S (sr + (i - sr)) (sc + (j - sc)), get0 M (at_index ri (i - sr)) (at_index ci (j - sc))). split; [cbn [fst]; f_equal; lia|].
    apply in_flat_map. exists (i - sr, at_index ri (i - sr)). split; [apply enum_in; split; [lia|apply at_index_nth; lia]|].
    apply in_map_iff. exists (j - sc, at_index ci (j - sc)). split; auto. apply enum_in. split; [lia|apply at_index_nth; lia].
Qed.

Definition chosen {A} (M : mat A) (first_is_row exclude : bool) (idx : list Z) : list Z :=
  if exclude then filter (fun j => negb (existsb (Z.eqb j) idx)) (zrange 0 (if first_is_row then ncols M else nrows M)) else idx.
Lemma excluded_length n idx : NoDup idx -> Forall (fun j => 0 <= j < Z.of_nat n) idx ->
  Z.of_nat (length (excluded n idx)) = Z.of_nat n - Z.of_nat (length idx).
Proof.
  intros ND F. unfold excluded. set (z := zrange 0 (Z.of_nat n)).
  assert (NDz : NoDup z). { unfold z, zrange. apply FinFun.Injective_map_NoDup; [intros a b; lia|apply seq_NoDup]. }
  assert (P : Permutation z (filter (fun j => existsb (Z.eqb j) idx) z ++ filter (fun j => negb (existsb (Z.eqb j) idx)) z)).
  { clear. induction z as [|a z IH]; simpl; auto. destruct (existsb (Z.eqb a) idx); simpl; [constructor; auto|].
    rewrite IH at 1. apply Permutation_middle. }
  assert (Q : Permutation (filter (fun j => existsb (Z.eqb j) idx) z) idx).
  { apply NoDup_Permutation; auto; [apply NoDup_filter; auto|]. intros x. rewrite filter_In, existsb_exists. split.
    - intros (_ & y & Hy & E). apply Z.eqb_eq in E. subst. auto.
    - intros H. rewrite Forall_forall in F. split; [unfold z; apply in_zrange; apply F in H; lia|]. exists x. split; auto. apply Z.eqb_refl. }
  apply Permutation_length in P. apply Permutation_length in Q. rewrite app_length in P. unfold z in P at 1. rewrite zrange_length in P.
  fold z. lia.
Qed.
Lemma get_sub_idx_ok {A} (M S : mat A) first count idx (fr : bool) sr sc (ex : bool) : mat_ok M -> mat_ok S -> 0 <= sr -> 0 <= sc -> 0 <= first ->
  (first + count <= if fr then nrows M else ncols M) ->
  Forall (fun j => 0 <= j < if fr then ncols M else nrows M) idx -> (ex = true -> NoDup idx) ->
  let ix := chosen M fr ex idx in let n := Z.of_nat (length ix) in
  nrows S = sr + (if fr then count else n) -> ncols S = sc + (if fr then n else count) ->
  exists S', get_sub_idx M first count idx fr S sr sc ex = Ok S' /\
    becomes S (fun i j => if in_block sr sc (if fr then count else n) (if fr then n else count) i j
        then (if fr then entry M (first + (i - sr)) (at_index ix (j - sc)) else entry M (at_index ix (i - sr)) (first + (j - sc)))
        else entry S i j) S'.
Proof.
  intros WM WS Hsr Hsc Hf Hc F ND ix n H1 H2. unfold get_sub_idx.
  assert (EI : (if ex then excluded (if fr then cols M else rows M) idx else idx) = ix).
  { unfold ix, chosen, excluded. destruct ex, fr; reflexivity. }
  assert (EN : (if ex then (if fr then ncols M else nrows M) - Z.of_nat (length idx) else Z.of_nat (length idx)) = n).
  { unfold n. rewrite <- EI. destruct ex; auto. rewrite excluded_length; auto; [destruct fr; reflexivity|].
    eapply Forall_impl; [|exact F]. intros a Ha. destruct fr; exact Ha. }
  rewrite EN. assert (BI : forall j, In j ix -> 0 <= j < if fr then ncols M else nrows M).
  { intros j Hj. rewrite <- EI in Hj. destruct ex.
    - unfold excluded in Hj. apply filter_In in Hj. destruct Hj as (Hj & _). apply in_zrange in Hj. destruct fr; unfold ncols, nrows; lia.
    - rewrite Forall_forall in F. auto. }
  destruct fr; cbv iota beta zeta.
  - replace (nrows S =? count + sr) with true by lia. replace (ncols S =? n + sc) with true by lia. cbn [negb orb].
    unfold get_sub_idx0. cbv zeta. cbv iota. rewrite EI. apply mwrites_ok; auto.
    + intros p e H. apply in_flat_map in H. destruct H as (t & Ht & H). apply in_map_iff in H. destruct H as ([u j] & E & Hu). cbn [fst snd] in E.
      injection E as <- <-. apply in_zrange in Ht. apply enum_in in Hu. destruct Hu as (Hu & Ej).
      assert (u < n) by (assert (Z.to_nat u < length ix)%nat by (apply nth_error_Some; congruence); lia).
      destruct (get0_ok M (first + t) j WM) as (v & E1 & E2). { split; [lia|]. apply BI. eapply nth_error_In; eauto. }
      exists (sr + t), (sc + u), v. split; [unfold inside; lia|]. split; auto. split; auto.
      replace (in_block _ _ _ _ _ _) with true by (unfold in_block; lia).
      replace (sr + t - sr) with t by lia. replace (sc + u - sc) with u by lia.
      rewrite at_index_nth in Ej by lia. injection Ej as ->. auto.
    + intros i j Hin. destruct (in_block _ _ _ _ _ _) eqn:E; auto. left. unfold in_block in E. apply in_map_iff.
      exists (pos S (sr + (i - sr)) (sc + (j - sc)), get0 M (first + (i - sr)) (at_index ix (j - sc))). split; [cbn [fst]; f_equal; lia|].
      apply in_flat_map. exists (i - sr). split; [apply in_zrange; lia|].
      apply in_map_iff. exists (j - sc, at_index ix (j - sc)). split; auto. apply enum_in. split; [lia|apply at_index_nth; lia].
  - replace (nrows S =? n + sr) with true by lia. replace (ncols S =? count + sc) with true by lia. cbn [negb orb].
    unfold get_sub_idx0. cbv zeta. cbv iota. rewrite EI. apply mwrites_ok; auto.
    + intros p e H. apply in_flat_map in H. destruct H as (u & Hu & H). apply in_map_iff in H. destruct H as ([t i] & E & Ht). cbn [fst snd] in E.
      injection E as <- <-. apply in_zrange in Hu. apply enum_in in Ht. destruct Ht as (Ht & Ei).
      assert (t < n) by (assert (Z.to_nat t < length ix)%nat by (apply nth_error_Some; congruence); lia).
      destruct (get0_ok M i (first + u) WM) as (v & E1 & E2). { split; [|lia]. apply BI. eapply nth_error_In; eauto. }
      exists (sr + t), (sc + u), v. split; [unfold inside; lia|]. split; auto. split; auto.
      replace (in_block _ _ _ _ _ _) with true by (unfold in_block; lia).
      replace (sr + t - sr) with t by lia. replace (sc + u - sc) with u by lia.
      rewrite at_index_nth in Ei by lia. injection Ei as ->. auto.
    + intros i j Hin. destruct (in_block _ _ _ _ _ _) eqn:E; auto. left. unfold in_block in E. apply in_map_iff.
      exists (pos S (sr + (i - sr)) (sc + (j - sc)), get0 M (at_index ix (i - sr)) (first + (j - sc))). split; [cbn [fst]; f_equal; lia|].
      apply in_flat_map. exists (j - sc). split; [apply in_zrange; lia|].
      apply in_map_iff. exists (i - sr, at_index ix (i - sr)). split; auto. apply enum_in. split; [lia|apply at_index_nth; lia].
Qed.
