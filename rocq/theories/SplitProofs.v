From Verif Require Import SplitSpec SplitModel MatProofs MatProofs2 MatProofs3 MatProofs4 MatProofs5 MatProofs6 DataProofs.
From Coq Require Import Lia ZifyBool.
Local Open Scope Z_scope.

Definition in_fst {B} (p : Z) (l : list (Z * B)) : bool := existsb (fun x => Z.eqb p (fst x)) l.
Lemma writes_fun {A} (g : Z -> option A) : forall l (d : list A),
  (forall p e, In (p, e) l -> 0 <= p < Z.of_nat (length d) /\ exists v, e = Ok v /\ g p = Some v) ->
  exists d', writes l d = Ok d' /\ length d' = length d /\
    forall k, nth_error d' k = if in_fst (Z.of_nat k) l then g (Z.of_nat k) else nth_error d k.
Proof.
  induction l as [|[p e] l IH]; intros d H.
  - exists d. split; auto.
  - destruct (H p e (or_introl eq_refl)) as (Hp & v & -> & Hg). cbn [writes bind]. rewrite (wr_ok _ _ _ Hp). cbn [bind].
    destruct (IH (upd (Z.to_nat p) v d)) as (d' & E & L & N).
    { intros p' e' Hin. rewrite upd_length. apply H. right. auto. }
    rewrite upd_length in L. exists d'. split; auto. split; auto. intros k. rewrite N. unfold in_fst. cbn [existsb fst].
    destruct (existsb (fun x => Z.of_nat k =? fst x) l) eqn:E2; [rewrite orb_true_r; auto|]. rewrite orb_false_r.
    destruct (Z.of_nat k =? p) eqn:E3.
    + assert (k = Z.to_nat p) by lia. subst k. rewrite nth_error_upd_same by lia. rewrite <- Hg. f_equal. lia.
    + rewrite nth_error_upd_other by lia. auto.
Qed.
Lemma writes_app {A} : forall l1 l2 (d : list A), writes (l1 ++ l2) d = bind (writes l1 d) (writes l2).
Proof. induction l1 as [|[p e] l1 IH]; intros l2 d; [reflexivity|]. cbn [writes app]. destruct e; cbn [bind]; auto. destruct (wr d p a); cbn [bind]; auto. Qed.

Section Core.
Variable M : mat Qc.
Hypothesis W : mat_ok M.
Notation c := (ncols M).
(** Row assignments: sample (true: training), place, source. *)
Definition expand (n0 n1 : Z) (AL : list (bool * Z * Z)) : list (Z * res Qc) :=
  flat_map (fun x => let '(s, i, v) := x in put_row M (if s : bool then 0 else n0 * c) (if s then n0 else n1) i (Ok v)) AL.
(** The assignments put the rows [tr] into the training and [te] into the test sample. *)
Definition assigns (AL : list (bool * Z * Z)) (tr te : list Z) : Prop :=
  (forall s i v, In (s, i, v) AL -> 0 <= i /\ nth_error (if s : bool then tr else te) (Z.to_nat i) = Some v) /\
  (forall (s : bool) i v, nth_error (if s then tr else te) i = Some v -> In (s, Z.of_nat i, v) AL).

Lemma core AL tr te n0 n1 (d : list Qc) : assigns AL tr te -> n0 = Z.of_nat (length tr) -> n1 = Z.of_nat (length te) -> 0 <= n0 -> 0 <= n1 ->
  Forall (fun v => 0 <= v < nrows M) (tr ++ te) -> (n0 + n1) * c <= Z.of_nat (length d) ->
  exists d', writes (expand n0 n1 AL) d = Ok d' /\ length d' = length d /\
    rows_of (Mat (Z.to_nat n0) (cols M) d') = map (row_of M) tr /\
    rows_of (Mat (Z.to_nat n1) (cols M) (skipn (Z.to_nat (n0 * c)) d')) = map (row_of M) te /\
    skipn (Z.to_nat ((n0 + n1) * c)) d' = skipn (Z.to_nat ((n0 + n1) * c)) d.
Proof.
  intros (A1 & A2) E0 E1 P0 P1 F Hd. assert (Hc : 0 <= c) by (unfold ncols; lia).
  set (g := fun p => if p <? n0 * c then entry M (at_index tr (p mod n0)) (p / n0)
                     else entry M (at_index te ((p - n0 * c) mod n1)) ((p - n0 * c) / n1)).
  assert (FV : forall v, In v tr \/ In v te -> 0 <= v < nrows M).
  { intros v Hv. rewrite Forall_forall in F. apply F. apply in_or_app. auto. }
  assert (PLACE : forall s i v j, In (s, i, v) AL -> 0 <= j < c ->
     let p := (if s : bool then 0 else n0 * c) + (i + (if s then n0 else n1) * j) in
     0 <= i < (if s then n0 else n1) /\ 0 <= v < nrows M /\ 0 <= p < (n0 + n1) * c /\ (p <? n0 * c) = s /\ g p = entry M v j).
  { intros s i v j Hin Hj p. destruct (A1 s i v Hin) as (Hi & Hn).
    assert (Hl : (Z.to_nat i < length (if s then tr else te))%nat) by (apply nth_error_Some; congruence).
    assert (Hv : 0 <= v < nrows M). { apply FV. apply nth_error_In in Hn. destruct s; auto. }
    assert (Hat : at_index (if s then tr else te) i = v) by (unfold at_index; erewrite nth_error_nth; eauto).
    split; [destruct s; lia|]. split; auto. destruct s; unfold p; cbv iota.
    - assert (Ei : i + n0 * j = j * n0 + i) by ring. assert (HH : 0 <= i < n0) by lia.
      assert (0 + (i + n0 * j) < n0 * c) by nia. split; [nia|]. assert (LT : (0 + (i + n0 * j) <? n0 * c) = true) by lia. split; auto.
      unfold g. rewrite LT. rewrite Z.add_0_l, Ei. rewrite (Z.add_comm (j * n0)), Z.mod_add, Z.div_add by lia. rewrite Z.mod_small, Z.div_small by lia. rewrite Hat, Z.add_0_l. auto.
    - assert (HH : 0 <= i < n1) by lia. assert (i + n1 * j < n1 * c) by nia. assert (0 <= i + n1 * j) by nia. split; [nia|]. assert (LT : (n0 * c + (i + n1 * j) <? n0 * c) = false) by lia. split; auto.
      unfold g. rewrite LT. replace (n0 * c + (i + n1 * j) - n0 * c) with (i + j * n1) by ring. rewrite Z.mod_add, Z.div_add by lia. rewrite Z.mod_small, Z.div_small by lia. rewrite Hat, Z.add_0_l. auto. }
  destruct (writes_fun g (expand n0 n1 AL) d) as (d' & E & L & N).
  { intros p e H. apply in_flat_map in H. destruct H as (((s, i), v) & Hin & H). apply in_map_iff in H. destruct H as (j & Eq & Hj). injection Eq as <- <-.
    apply in_zrange in Hj. destruct (PLACE s i v j Hin ltac:(lia)) as (Hi & Hv & Hp & _ & Hg). split; [lia|].
    destruct (get0_ok M v j W) as (x & Ex & Gx); [split; lia|]. exists x. cbn [bind]. rewrite Hg. auto. }
  exists d'. split; auto. split; auto.
  assert (COV : forall s i v j, In (s, i, v) AL -> 0 <= j < c -> nth_error d' (Z.to_nat ((if s : bool then 0 else n0 * c) + (i + (if s then n0 else n1) * j))) = entry M v j).
  { intros s i v j Hin Hj. destruct (PLACE s i v j Hin Hj) as (Hi & Hv & Hp & _ & Hg). rewrite N.
    replace (in_fst _ _) with true; [rewrite Z2Nat.id by lia; auto|]. symmetry. unfold in_fst. apply existsb_exists.
    exists ((if s then 0 else n0 * c) + (i + (if s then n0 else n1) * j), do x <- Ok v; get0 M x j). split; [|cbn [fst]; lia].
    unfold expand. apply in_flat_map. exists (s, i, v). split; auto. apply in_map_iff. exists j. split; auto. apply in_zrange. lia. }
  assert (ROWS : forall (s : bool) (S : mat Qc), nrows S = (if s then n0 else n1) -> ncols S = c ->
     (forall i j, inside S i j -> entry S i j = nth_error d' (Z.to_nat ((if s then 0 else n0 * c) + (i + (if s then n0 else n1) * j)))) ->
     rows_of S = map (row_of M) (if s then tr else te)).
  { intros s S R C HE. unfold rows_of. apply list_ext_nth_error. intros k. rewrite !nth_error_map. unfold upto. rewrite nth_error_map, R.
    destruct (nth_error (if s then tr else te) k) as [v|] eqn:Ev.
    - assert (Hk : (k < length (if s then tr else te))%nat) by (apply nth_error_Some; congruence).
      assert (Hk2 : (k < Z.to_nat (if s then n0 else n1))%nat) by (destruct s; lia).
      rewrite (nth_error_nth' _ 0%nat) by (rewrite seq_length; auto). rewrite seq_nth by auto. cbn [option_map Nat.add]. f_equal.
      unfold row_of. rewrite C. apply map_ext_in. intros j Hj. apply (in_zrange 0) in Hj. rewrite HE by (split; lia).
      apply COV; [apply A2; auto|lia].
    - apply nth_error_None in Ev. replace (nth_error (seq 0 (Z.to_nat (if s then n0 else n1))) k) with (@None nat); auto. symmetry. apply nth_error_None. rewrite seq_length. destruct s; lia. }
  split; [|split].
  - apply (ROWS true); [rewrite nrows_mk; lia|reflexivity|]. intros i j Hin. unfold entry. rewrite (proj2 (inside_b _ _ _) Hin). cbn [data]. f_equal. rewrite nrows_mk, Z2Nat.id by lia. f_equal. ring.
  - apply (ROWS false); [rewrite nrows_mk; lia|reflexivity|]. intros i j Hin. unfold entry. rewrite (proj2 (inside_b _ _ _) Hin). cbn [data]. rewrite nth_skipn. f_equal. rewrite nrows_mk, Z2Nat.id by lia.
    destruct Hin as (Hi & Hj). rewrite <- Z2Nat.inj_add by nia. f_equal. ring.
  - apply list_ext_nth_error. intros k. rewrite !nth_skipn. rewrite N. replace (in_fst _ _) with false; auto. symmetry. unfold in_fst. apply not_true_iff_false. intros H. apply existsb_exists in H.
    destruct H as ((p & e) & Hin & Hp). cbn [fst] in Hp. apply in_flat_map in Hin. destruct Hin as (((s, i), v) & Hin & H). apply in_map_iff in H. destruct H as (j & Eq & Hj). injection Eq as <- <-.
    apply in_zrange in Hj. destruct (PLACE s i v j Hin ltac:(lia)) as (_ & _ & Hp2 & _). nia.
Qed.
End Core.

(** DataSplit. *)
Lemma perm_in_range w n : Permutation w (zrange 0 n) -> forall v, In v w -> 0 <= v < n.
Proof. intros P v H. apply (Permutation_in _ P) in H. apply in_zrange in H. lia. Qed.
Lemma put_row_ext M off r i s1 s2 : s1 = s2 -> put_row M off r i s1 = put_row M off r i s2. Proof. intros ->. auto. Qed.
Lemma flat_map_map {A B C} (f : A -> B) (g : B -> list C) l : flat_map g (map f l) = flat_map (fun x => g (f x)) l.
Proof. induction l; cbn; auto. rewrite IHl. auto. Qed.
Lemma flat_map_ext_in {A B} (f g : A -> list B) l : (forall x, In x l -> f x = g x) -> flat_map f l = flat_map g l.
Proof. induction l; intros H; cbn; auto. rewrite (H a (or_introl eq_refl)), IHl; auto. intros x Hx. apply H. right. auto. Qed.
Lemma rd_at l i : 0 <= i < Z.of_nat (length l) -> rd l i = Ok (at_index l i).
Proof. intros H. unfold rd. replace (i <? 0) with false by lia. rewrite at_index_nth by auto. auto. Qed.

Lemma split_ok M n0 w storage : mat_ok M -> 0 < n0 < nrows M -> Permutation w (zrange 0 (nrows M)) -> nrows M * ncols M <= Z.of_nat (length storage) ->
  exists d', split_shuffle M n0 (nrows M - n0) w storage = Ok d' /\ length d' = length storage /\
    rows_of (Mat (Z.to_nat n0) (cols M) d') = map (row_of M) (firstn (Z.to_nat n0) w) /\
    rows_of (Mat (Z.to_nat (nrows M - n0)) (cols M) (skipn (Z.to_nat (n0 * ncols M)) d')) = map (row_of M) (skipn (Z.to_nat n0) w).
Proof.
  intros WM H0 P Hs. assert (Lw : Z.of_nat (length w) = nrows M) by (rewrite (Permutation_length P), zrange_length; lia).
  set (tr := firstn (Z.to_nat n0) w). set (te := skipn (Z.to_nat n0) w).
  assert (Ltr : Z.of_nat (length tr) = n0) by (unfold tr; rewrite firstn_length; lia).
  assert (Lte : Z.of_nat (length te) = nrows M - n0) by (unfold te; rewrite skipn_length; lia).
  destruct (core M WM (map (fun i => (true, i, at_index w i)) (zrange 0 n0) ++ map (fun i => (false, i, at_index w (n0 + i))) (zrange 0 (nrows M - n0))) tr te n0 (nrows M - n0) storage) as (d' & E & L & R0 & R1 & _); auto; try lia.
  - split.
    + intros s i v H. apply in_app_or in H. destruct H as [H|H]; apply in_map_iff in H; destruct H as (x & Eq & Hx); injection Eq as <- <- <-; apply in_zrange in Hx; (split; [lia|]).
      * unfold tr. rewrite nth_firstn by lia. apply at_index_nth. lia.
      * unfold te. rewrite nth_skipn. replace (Z.to_nat n0 + Z.to_nat x)%nat with (Z.to_nat (n0 + x)) by lia. apply at_index_nth. lia.
    + intros s i v H. assert (Hl : (i < length (if s then tr else te))%nat) by (apply nth_error_Some; congruence). apply in_or_app. destruct s; [left|right]; apply in_map_iff; exists (Z.of_nat i).
      * split; [|apply in_zrange; lia]. f_equal. unfold tr in H. rewrite nth_firstn in H by lia. unfold at_index. rewrite Nat2Z.id. apply nth_error_nth. auto.
      * split; [|apply in_zrange; lia]. f_equal. unfold te in H. rewrite nth_skipn in H. unfold at_index. replace (Z.to_nat (n0 + Z.of_nat i)) with (Z.to_nat n0 + i)%nat by lia. apply nth_error_nth. auto.
  - unfold tr, te. rewrite firstn_skipn. apply Forall_forall. intros v Hv. apply (perm_in_range _ _ P v Hv).
  - exists d'. split; [|auto]. unfold split_shuffle. rewrite <- E. f_equal. unfold expand. rewrite flat_map_app, !flat_map_map. f_equal; apply flat_map_ext_in; intros x Hx; apply in_zrange in Hx; apply put_row_ext; apply rd_at; lia.
Qed.
