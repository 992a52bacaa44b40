From Verif Require Import SplitSpec SplitModel SortSpec SortProofs MatProofs MatProofs2 MatProofs3 MatProofs4 MatProofs5 MatProofs6 DataProofs DataProofs2 SplitProofs.
From Coq Require Import Lia ZifyBool.
Local Open Scope Z_scope.

Lemma vat_ok {A} (l : list A) i x : nth_error l i = Some x -> vat l (Z.of_nat i) = Ok x.
Proof. intros H. unfold vat. replace (Z.of_nat i <? 0) with false by lia. rewrite Nat2Z.id, H. auto. Qed.
Lemma vat_in {A} (l : list A) i d : 0 <= i < Z.of_nat (length l) -> vat l i = Ok (nth (Z.to_nat i) l d).
Proof. intros H. unfold vat. replace (i <? 0) with false by lia. rewrite (nth_error_nth' l d) by lia. auto. Qed.
Lemma vat_out {A} (l : list A) i : ~ 0 <= i < Z.of_nat (length l) -> vat l i = Throw.
Proof. intros H. unfold vat. destruct (i <? 0) eqn:E; auto. rewrite (proj2 (nth_error_None _ _)) by lia. auto. Qed.

(** Counting. *)
Definition num (j : Z) (ls : list Z) : Z := Z.of_nat (length (filter (Z.eqb j) ls)).
Lemma count_loop_ok : forall ls c, Forall (fun j => 0 <= j < Z.of_nat (length c)) ls ->
  exists c', count_loop ls c = Ok c' /\ length c' = length c /\ forall j, 0 <= j < Z.of_nat (length c) -> nth (Z.to_nat j) c' 0 = nth (Z.to_nat j) c 0 + num j ls.
Proof.
  induction ls as [|j ls IH]; intros c F.
  - exists c. split; auto. split; auto. intros. unfold num. cbn. lia.
  - apply Forall_cons_iff in F. destruct F as (Hj & F). cbn [count_loop]. rewrite (vat_in c j 0 Hj). cbn [bind].
    destruct (IH (upd (Z.to_nat j) (nth (Z.to_nat j) c 0 + 1) c)) as (c' & E & L & N). { rewrite upd_length. auto. }
    rewrite upd_length in *. exists c'. split; auto. split; auto. intros i Hi. rewrite N by auto. unfold num. cbn [filter].
    destruct (i =? j) eqn:Eij.
    + assert (i = j) by lia. subst i. rewrite nth_upd_same by lia. cbn [length]. lia.
    + rewrite nth_upd_other by lia. auto.
Qed.
Lemma count_loop_throw : forall ls c, Exists (fun j => ~ 0 <= j < Z.of_nat (length c)) ls -> count_loop ls c = Throw.
Proof.
  induction ls as [|j ls IH]; intros c H; [inversion H|]. cbn [count_loop]. destruct (Z_lt_dec j 0); [rewrite vat_out by lia; auto|]. destruct (Z_lt_dec j (Z.of_nat (length c))).
  - rewrite (vat_in c j 0) by lia. cbn [bind]. apply IH. rewrite upd_length. inversion H; subst; auto. lia.
  - rewrite vat_out by lia. auto.
Qed.
Fixpoint places (j : Z) (ls : list Z) (i : Z) : list Z :=
  match ls with [] => [] | x :: t => (if j =? x then [i] else []) ++ places j t (i + 1) end.
Lemma rows_loop_ok : forall ls i r, Forall (fun j => 0 <= j < Z.of_nat (length r)) ls ->
  exists r', rows_loop ls i r = Ok r' /\ length r' = length r /\ forall j, 0 <= j < Z.of_nat (length r) -> nth (Z.to_nat j) r' [] = nth (Z.to_nat j) r [] ++ places j ls i.
Proof.
  induction ls as [|j ls IH]; intros i r F.
  - exists r. split; auto. split; auto. intros. cbn. rewrite app_nil_r. auto.
  - apply Forall_cons_iff in F. destruct F as (Hj & F). cbn [rows_loop]. rewrite (vat_in r j [] Hj). cbn [bind].
    destruct (IH (i + 1) (upd (Z.to_nat j) (nth (Z.to_nat j) r [] ++ [i]) r)) as (r' & E & L & N). { rewrite upd_length. auto. }
    rewrite upd_length in *. exists r'. split; auto. split; auto. intros q Hq. rewrite N by auto. cbn [places].
    destruct (q =? j) eqn:Eij.
    + assert (q = j) by lia. subst q. rewrite nth_upd_same by lia. rewrite <- app_assoc. auto.
    + rewrite nth_upd_other by lia. auto.
Qed.
Lemma places_filter j : forall ls i, places j ls i = filter (fun v => j =? nth (Z.to_nat (v - i)) ls (j - 1)) (zrange i (Z.of_nat (length ls))).
Proof.
  induction ls as [|x ls IH]; intros i; [reflexivity|]. cbn [places]. rewrite IH. rewrite (zrange_cons i) by (cbn [length]; lia). cbn [filter].
  replace (Z.to_nat (i - i)) with 0%nat by lia. cbn [nth]. replace (Z.of_nat (length (x :: ls)) - 1) with (Z.of_nat (length ls)) by (cbn [length]; lia).
  assert (E : filter (fun v => j =? nth (Z.to_nat (v - (i + 1))) ls (j - 1)) (zrange (i + 1) (Z.of_nat (length ls))) =
              filter (fun v => j =? nth (Z.to_nat (v - i)) (x :: ls) (j - 1)) (zrange (i + 1) (Z.of_nat (length ls)))).
  { apply filter_ext_in. intros v Hv. apply in_zrange in Hv. replace (Z.to_nat (v - i)) with (S (Z.to_nat (v - (i + 1)))) by lia. reflexivity. }
  rewrite E. destruct (j =? x); reflexivity.
Qed.

Section Ds.
Variable M : mat Qc.
Hypothesis W : mat_ok M.
Hypothesis HC : 0 < ncols M.
(** The class of row i. *)
Definition cls (i : Z) : Z := match entry M i 0 with Some q => qtrunc q | None => -1 end.
Definition of_class (j : Z) : list Z := filter (fun v => j =? cls v) (zrange 0 (nrows M)).

Lemma row_class i : 0 <= i < nrows M -> class_of_row (row_of M i) = Some (cls i).
Proof.
  intros Hi. unfold row_of, upto. destruct (Z.to_nat (ncols M)) eqn:E; [lia|]. cbn [seq map class_of_row]. change (Z.of_nat 0) with 0.
  destruct (entry_some M i 0 W) as (q & Eq); [split; lia|]. unfold cls. rewrite Eq. reflexivity.
Qed.
Lemma count_rows j l : Forall (fun i => 0 <= i < nrows M) l ->
  length (filter (fun r => match class_of_row r with Some x => x =? j | None => false end) (map (row_of M) l)) = length (filter (fun v => j =? cls v) l).
Proof.
  induction 1 as [|i l Hi F IH]; [reflexivity|]. cbn [map filter]. rewrite row_class by auto. rewrite (Z.eqb_sym (cls i) j). destruct (j =? cls i); cbn [length]; rewrite IH; auto.
Qed.
Lemma class_count_of j : class_count j M = Z.of_nat (length (of_class j)).
Proof. unfold class_count, rows_of. rewrite (count_rows j (upto (nrows M))); [reflexivity|]. apply (zrange_Forall (nrows M)). Qed.

Lemma labels_ok : exists y, rmap (fun i => rd (data M) i) (zrange 0 (nrows M)) = Ok y /\ map qtrunc y = map cls (zrange 0 (nrows M)).
Proof.
  destruct (rmap_ok (fun i => rd (data M) i) (zrange 0 (nrows M))) as (y & E & L & N).
  { intros x Hx. apply in_zrange in Hx. destruct (rd_get M x 0 W) as (v & G & _); [split; lia|]. exists v. rewrite <- G. f_equal. lia. }
  exists y. split; auto. apply list_ext_nth_error. intros k. rewrite !nth_error_map. destruct (nth_error (zrange 0 (nrows M)) k) as [x|] eqn:Ex.
  - destruct (N k x Ex) as (v & Ev & Gv). rewrite Ev. cbn [option_map]. f_equal. apply nth_error_In, in_zrange in Ex.
    destruct (rd_get M x 0 W) as (v' & G & En); [split; lia|]. replace (x + 0 * nrows M) with x in G by lia. unfold cls. rewrite En. congruence.
  - apply nth_error_None in Ex. rewrite (proj2 (nth_error_None y k)) by lia. reflexivity.
Qed.
Lemma num_cls j : num j (map cls (zrange 0 (nrows M))) = Z.of_nat (length (of_class j)).
Proof. unfold num, of_class. rewrite filter_map_comm, map_length. auto. Qed.
Lemma places_cls j : places j (map cls (zrange 0 (nrows M))) 0 = of_class j.
Proof.
  rewrite places_filter. unfold of_class. rewrite map_length, zrange_length, Z2Nat.id by (unfold nrows; lia).
  apply filter_ext_in. intros v Hv. apply in_zrange in Hv. rewrite Z.sub_0_r.
  erewrite nth_error_nth; [reflexivity|]. rewrite nth_error_map, zrange_nth by lia. cbn [option_map]. do 2 f_equal. lia.
Qed.

(** What Calculate computes. *)
Record ds_good (k : nat) (ratio : Qc) (fix_size : Z) (st : ds_state) : Prop := {
  g_n0 : d_n0 st = train_size (nrows M) ratio fix_size;
  g_n1 : d_n1 st = nrows M - train_size (nrows M) ratio fix_size;
  g_ratio : d_ratio st = ratio;
  g_counts : d_counts st = map (fun c => class_count c M) (upto (Z.of_nat k));
  g_rows : d_rows st = map of_class (upto (Z.of_nat k));
  g_order : d_order st = sort_indexes true (map qz (d_counts st));
  g_all : forall c, 0 <= c < Z.of_nat k -> 0 < class_count c M;
  g_lab : forall i, 0 <= i < nrows M -> 0 <= cls i < Z.of_nat k }.
Lemma upto_map_nth {A} (f : Z -> A) n j d : 0 <= j < n -> nth (Z.to_nat j) (map f (upto n)) d = f j.
Proof. intros H. rewrite nth_indep with (d' := f (-1)) by (rewrite map_length, upto_length; lia). rewrite map_nth. f_equal. apply (at_upto n j H). Qed.
Lemma zeros k j : nth j (repeat 0 k) 0 = 0. Proof. apply nth_repeat. Qed.
Lemma ds_calc k ratio fs : (0 < nrows M) ->
  ((forall i, 0 <= i < nrows M -> 0 <= cls i < Z.of_nat k) /\ (forall c, 0 <= c < Z.of_nat k -> 0 < class_count c M) /\
     exists st, ds_calculate M k ratio fs = Ok st /\ ds_good k ratio fs st) \/
  (((exists i, 0 <= i < nrows M /\ ~ 0 <= cls i < Z.of_nat k) \/ (exists c, 0 <= c < Z.of_nat k /\ class_count c M = 0)) /\ ds_calculate M k ratio fs = Throw).
Proof.
  intros HR. destruct labels_ok as (y & Ey & Ly). unfold ds_calculate. rewrite Ey. cbn [bind]. rewrite Ly. set (ls := map cls (zrange 0 (nrows M))) in *.
  destruct (Forall_Exists_dec (fun j => 0 <= j < Z.of_nat k) (fun j => ltac:(destruct (Z_le_dec 0 j); [destruct (Z_lt_dec j (Z.of_nat k)); [left; lia|right; lia]|right; lia])) ls) as [F|F].
  2:{ right. split.
      - left. apply Exists_exists in F. destruct F as (j & Hj & Nj). unfold ls in Hj. apply in_map_iff in Hj. destruct Hj as (i & <- & Hi). apply in_zrange in Hi. exists i. split; [lia|auto].
      - rewrite count_loop_throw; auto. rewrite repeat_length. auto. }
  assert (LAB : forall i, 0 <= i < nrows M -> 0 <= cls i < Z.of_nat k).
  { intros i Hi. rewrite Forall_forall in F. apply F. unfold ls. apply in_map. apply in_zrange. lia. }
  destruct (count_loop_ok ls (repeat 0 k)) as (c & Ec & Lc & Nc). { rewrite repeat_length. auto. }
  rewrite repeat_length in *. rewrite Ec. cbn [bind].
  assert (CC : c = map (fun x => class_count x M) (upto (Z.of_nat k))).
  { apply (list_ext_nth 0). { rewrite map_length, upto_length. lia. }
    intros q Hq. rewrite <- (Nat2Z.id q). rewrite Nc by lia. rewrite zeros. rewrite upto_map_nth by lia. unfold ls. rewrite num_cls, class_count_of. auto. }
  destruct (existsb (Z.eqb 0) c) eqn:EZ.
  - right. split; auto. right. apply existsb_exists in EZ. destruct EZ as (x & Hx & Ex). rewrite CC in Hx. apply in_map_iff in Hx. destruct Hx as (q & Eq & Hq). apply (in_zrange 0) in Hq.
    exists q. split; lia.
  - left. split; auto.
    assert (POS : forall q, 0 <= q < Z.of_nat k -> 0 < class_count q M).
    { intros q Hq. destruct (Z_lt_dec 0 (class_count q M)); auto. exfalso. assert (class_count q M = 0) by (unfold class_count in *; lia).
      assert (existsb (Z.eqb 0) c = true); [|congruence]. apply existsb_exists. exists 0. split; auto. rewrite CC. apply in_map_iff. exists q. split; auto. apply (in_zrange 0). lia. }
    split; auto.
    destruct (rows_loop_ok ls 0 (repeat [] k)) as (r & Er & Lr & Nr). { rewrite repeat_length. auto. }
    rewrite repeat_length in *. rewrite Er. cbn [bind]. eexists. split; [reflexivity|]. constructor; cbn; auto.
    apply (list_ext_nth []). { rewrite map_length, upto_length. lia. }
    intros q Hq. rewrite <- (Nat2Z.id q). rewrite Nr by lia. rewrite nth_repeat. cbn [app]. rewrite upto_map_nth by lia. unfold ls. apply places_cls.
Qed.
End Ds.
