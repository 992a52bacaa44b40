From Verif Require Import StatModel StatSpec SortProofs MatProofs MatProofs2 MatDotProofs DataProofs DataProofs2.
From Coq Require Import Lia ZifyBool Permutation Sorted.
Local Open Scope Z_scope.

(** ** Sorting the columns *)
Definition slt (asc : bool) (a b : Qc) : bool := if asc then qltb a b else qltb b a.
Definition sle (asc : bool) (a b : Qc) : Prop := if asc then (a <= b)%Qc else (b <= a)%Qc.
Section Sorted.
Variable asc : bool.
Local Notation lt := (slt asc).
Local Notation le := (sle asc).
Lemma insert_sorted x l : StronglySorted le l -> StronglySorted le (stable_insert lt x l).
Proof using Type.
  induction 1 as [|y t So IH F]; cbn [stable_insert]; [repeat constructor|]. destruct (lt x y) eqn:E.
  - assert (K : le x y). { unfold slt, sle in *. destruct asc. - destruct (qltb_spec x y); [qlra|discriminate]. - destruct (qltb_spec y x); [qlra|discriminate]. }
    constructor; [constructor; auto|]. constructor; auto. apply Forall_forall. intros z Iz. rewrite Forall_forall in F. specialize (F z Iz). unfold sle in *. destruct asc; qlra.
  - assert (K : le y x). { unfold slt, sle in *. destruct asc. - destruct (qltb_spec x y); [discriminate|qlra]. - destruct (qltb_spec y x); [discriminate|qlra]. }
    constructor; auto. apply Forall_forall. intros z Iz. apply (Permutation_in z (stable_insert_perm lt x t)) in Iz.
    destruct Iz as [<-|Iz]; auto. rewrite Forall_forall in F. auto.
Qed.
Lemma sort_col_sorted l : StronglySorted le (sort_col asc l).
Proof using Type.
  unfold sort_col, stable_sort. change (fun a b => if asc then qltb a b else qltb b a) with lt. assert (G : forall l acc, StronglySorted le acc -> StronglySorted le (fold_left (fun r x => stable_insert lt x r) l acc)).
  { clear l. induction l as [|x t IH]; intros acc So; auto. cbn [fold_left]. apply IH. apply insert_sorted. auto. }
  apply (G l []). constructor.
Qed.
Lemma sort_col_perm l : Permutation (sort_col asc l) l.
Proof using Type. apply stable_sort_perm. Qed.
Lemma sort_col_length l : length (sort_col asc l) = length l.
Proof using Type. apply Permutation_length, sort_col_perm. Qed.

Lemma col_of_length M j : length (col_of M j) = rows M.
Proof using Type. unfold col_of. rewrite map_length, upto_length. unfold nrows. lia. Qed.
Lemma col_of_nth M j k : 0 <= k < nrows M -> nth_error (col_of M j) (Z.to_nat k) = Some (el M k j).
Proof using Type.
  intros H. unfold col_of, upto. rewrite map_map, nth_error_map. unfold nrows in *. rewrite (nth_error_nth' _ 0%nat) by (rewrite seq_length; lia).
  rewrite seq_nth by lia. cbn [option_map]. do 2 f_equal. lia.
Qed.
Lemma read_col (S : mat Qc) j : mat_ok S -> 0 <= j < ncols S -> rmap (fun k => get0 S k j) (zrange 0 (nrows S)) = Ok (col_of S j).
Proof using Type.
  intros W Hj. unfold col_of. change (upto (nrows S)) with (zrange 0 (nrows S)). assert (F := zrange_Forall (nrows S)). induction (zrange 0 (nrows S)) as [|k t IH]; auto.
  apply Forall_cons_iff in F. destruct F as [F1 F2]. cbn [rmap map]. rewrite el_get0 by (auto; split; auto). cbn [bind]. rewrite IH by auto. reflexivity.
Qed.
Lemma sort_cols_ok : forall js (S : mat Qc), mat_ok S -> NoDup js -> Forall (fun j => 0 <= j < ncols S) js ->
  exists S', sort_cols asc js S = Ok S' /\ becomes S (fun i j => if existsb (Z.eqb j) js then nth_error (sort_col asc (col_of S j)) (Z.to_nat i) else entry S i j) S'.
Proof using Type.
  induction js as [|j js IH]; intros S W N F.
  - exists S. split; auto. split; auto.
  - apply Forall_cons_iff in F. destruct F as [Fj F]. apply NoDup_cons_iff in N. destruct N as [Nj N]. cbn [sort_cols]. rewrite read_col by auto. cbn [bind].
    assert (LS : length (sort_col asc (col_of S j)) = rows S) by (rewrite sort_col_length, col_of_length; auto).
    destruct (line_ok S (nrows S) (fun k => k) (fun _ => j) (fun k => rd (sort_col asc (col_of S j)) k) (fun _ q => q =? j) (fun i _ => nth_error (sort_col asc (col_of S j)) (Z.to_nat i))) as (S1 & E & B).
    { auto. }
    { intros t Ht. destruct (rd_ok (sort_col asc (col_of S j)) t) as (v & V1 & V2). { unfold nrows in *. lia. } split; [split; auto|]. split; [apply Z.eqb_refl|]. exists v. split; auto. }
    { intros p q (Hp & Hq) Eq. apply Z.eqb_eq in Eq. exists p. auto. }
    rewrite E. cbn [bind]. assert (W1 := becomes_ok _ _ _ W B). destruct (becomes_dims _ _ _ B) as [R1 C1].
    destruct (IH S1 W1 N) as (S' & E' & B'). { eapply Forall_impl; [|apply F]. cbn. intros. rewrite C1. auto. }
    exists S'. split; auto. destruct B as [b1 b2 b3 b4 b5], B' as [c1 c2 c3 c4 c5]. split; try congruence.
    + intros i q Hin. assert (Hin1 : inside S1 i q) by (destruct Hin; split; lia). rewrite c4 by auto. cbn [existsb].
      destruct (Z.eqb_spec q j) as [->|Nq]; cbn [orb].
      * destruct (existsb (Z.eqb j) js) eqn:Ex. { apply existsb_exists in Ex. destruct Ex as (z & Iz & Ez). apply Z.eqb_eq in Ez. subst z. contradiction. }
        rewrite b4 by auto. rewrite Z.eqb_refl. auto.
      * destruct (existsb (Z.eqb q) js) eqn:Ex.
        -- f_equal. f_equal. unfold col_of. rewrite R1. apply map_ext_in. intros k Ik. apply (proj1 (in_zrange 0 _ k)) in Ik. unfold el. rewrite b4 by (split; [lia|destruct Hin; auto]).
           destruct (Z.eqb_spec q j); [contradiction|auto].
        -- rewrite b4 by auto. destruct (Z.eqb_spec q j); [contradiction|auto].
    + intros k Hk. rewrite c5 by congruence. auto.
Qed.
Lemma mat_sort_ok (M S : mat Qc) : mat_ok M -> mat_ok S -> nrows S = nrows M -> ncols S = ncols M ->
  exists S', mat_sort asc M S = Ok S' /\ becomes S (fun i j => nth_error (sort_col asc (col_of M j)) (Z.to_nat i)) S'.
Proof using Type.
  intros WM WS R C. unfold mat_sort. rewrite R, C, !Z.eqb_refl. cbn [negb orb].
  destruct (copy_to00_ok M S WM WS R C) as (S1 & E & B). rewrite E. cbn [bind]. assert (W1 := becomes_ok _ _ _ WS B). destruct (becomes_dims _ _ _ B) as [R1 C1].
  destruct (sort_cols_ok (zrange 0 (ncols M)) S1 W1) as (S' & E' & B').
  { unfold zrange. apply FinFun.Injective_map_NoDup; [intros a b; lia|apply seq_NoDup]. }
  { rewrite C1, C. apply zrange_Forall. }
  exists S'. split; auto. destruct B as [b1 b2 b3 b4 b5], B' as [c1 c2 c3 c4 c5]. split; try congruence.
  - intros i j Hin. assert (Hin1 : inside S1 i j) by (destruct Hin; split; lia). rewrite c4 by auto.
    destruct (existsb (Z.eqb j) (zrange 0 (ncols M))) eqn:Ex.
    + f_equal. f_equal. unfold col_of. rewrite R1, R. apply map_ext_in. intros k Ik. apply (proj1 (in_zrange 0 _ k)) in Ik. unfold el. rewrite b4 by (split; [lia|destruct Hin; auto]). auto.
    + exfalso. assert (K : existsb (Z.eqb j) (zrange 0 (ncols M)) = true); [|congruence]. apply existsb_exists. exists j. split; [apply in_zrange; destruct Hin; lia|apply Z.eqb_refl].
  - intros k Hk. rewrite c5 by congruence. auto.
Qed.
(** ** The search *)
Fixpoint index_from (v : Qc) (l : list Qc) (k : Z) : option Z :=
  match l with [] => None | w :: t => if qeqb w v then Some k else index_from v t (k + 1) end.
Lemma find_eq_ok v d r : forall l s, 0 <= r + s -> (forall k, (k < length l)%nat -> nth_error d (Z.to_nat (r + s + Z.of_nat k)) = nth_error l k) ->
  find_eq v d r (zrange s (Z.of_nat (length l))) = Ok (index_from v l s).
Proof using Type.
  induction l as [|w t IH]; intros s Hs H; [reflexivity|]. cbn [length]. rewrite MatProofs6.zrange_cons by lia. cbn [find_eq index_from].
  assert (H0 := H 0%nat ltac:(cbn; lia)). cbn [nth_error] in H0. rewrite Z.add_0_r in H0.
  unfold rd. destruct (Z.ltb_spec (r + s) 0); [lia|]. rewrite H0. cbn [bind]. destruct (qeqb w v); auto. replace (Z.of_nat (Datatypes.S (length t)) - 1) with (Z.of_nat (length t)) by lia.
  apply IH; [lia|]. intros k Hk. specialize (H (Datatypes.S k) ltac:(cbn; lia)). cbn [nth_error] in H. rewrite <- H. f_equal. lia.
Qed.
Lemma index_sorted v : forall l s, StronglySorted le l -> In v l -> index_from v l s = Some (s + Z.of_nat (length (filter (fun y => lt y v) l))).
Proof using Type.
  induction l as [|w t IH]; intros s So Iv; [contradiction|]. apply StronglySorted_inv in So. destruct So as [So F]. cbn [index_from filter].
  destruct (qeqb_spec w v) as [->|Nw].
  - replace (lt v v) with false. 2:{ unfold slt. destruct asc; destruct (qltb_spec v v); auto; exfalso; qlra. }
    replace (filter (fun y => lt y v) t) with (@nil Qc); [cbn; f_equal; lia|]. symmetry. clear - F. induction F as [|y u Hy F IH]; auto. cbn [filter].
    replace (lt y v) with false; auto. symmetry. unfold slt, sle in *. destruct asc.
    + destruct (qltb_spec y v); auto; exfalso; qlra.
    + destruct (qltb_spec v y); auto; exfalso; qlra.
  - destruct Iv as [->|Iv]; [congruence|]. rewrite IH by auto. replace (lt w v) with true; [cbn [length]; f_equal; lia|]. symmetry.
    rewrite Forall_forall in F. specialize (F v Iv). unfold slt, sle in *. destruct asc.
    + destruct (qltb_spec w v); auto. exfalso. apply Nw. apply Qcle_antisym; auto. qlra.
    + destruct (qltb_spec v w); auto. exfalso. apply Nw. apply Qcle_antisym; auto. qlra.
Qed.
Lemma filter_perm {A} (p : A -> bool) l l' : Permutation l l' -> length (filter p l) = length (filter p l').
Proof using Type. induction 1; cbn [filter]; auto; try congruence. - destruct (p x); cbn; auto. - destruct (p x), (p y); auto. Qed.
Lemma index_rank v l s : In v l -> index_from v (sort_col asc l) s = Some (s + rank_of asc v l).
Proof using Type.
  intros H. rewrite index_sorted.
  - do 2 f_equal. rewrite (filter_perm _ _ _ (sort_col_perm l)). unfold rank_of, smaller, larger, slt. destruct asc; auto.
  - apply sort_col_sorted.
  - apply (Permutation_in v (Permutation_sym (sort_col_perm l))). auto.
Qed.
(** ** The loop *)
Lemma rank_loop_ok (M So : mat Qc) : mat_ok M -> mat_ok So -> nrows So = nrows M -> ncols So = ncols M ->
  (forall i j, inside M i j -> entry So i j = nth_error (sort_col asc (col_of M j)) (Z.to_nat i)) ->
  forall ij (S : mat Qc), mat_ok S -> nrows S = nrows M -> ncols S = ncols M -> (forall j i, In (j, i) ij -> inside M i j) ->
  exists d, rank_loop (nrows M) M So ij (data S) = Ok d /\
    becomes S (fun i j => if existsb (fun p => (fst p =? j) && (snd p =? i)) ij then Some (qz (rank_of asc (el M i j) (col_of M j))) else entry S i j) (Mat (rows M) (cols M) d).
Proof using Type.
  intros WM WS R C HS. induction ij as [|[j i] ij IH]; intros S W RS CS Hin.
  - exists (data S). split; auto. assert (rows S = rows M) by (unfold nrows in *; lia). assert (cols S = cols M) by (unfold ncols in *; lia). destruct S as [a b e]. cbn [rows cols data] in *. subst. split; auto.
  - cbn [rank_loop]. assert (H0 := Hin j i ltac:(left; auto)). replace (j * nrows M + i) with (i + nrows M * j) by ring. rewrite rd_el by auto. cbn [bind].
    assert (Ln : Z.of_nat (length (sort_col asc (col_of M j))) = nrows M) by (rewrite sort_col_length, col_of_length; reflexivity).
    assert (FE := find_eq_ok (el M i j) (data So) (j * nrows M) (sort_col asc (col_of M j)) 0). rewrite Ln in FE. rewrite FE; clear FE.
    2:{ destruct H0. unfold nrows, ncols in *. nia. }
    2:{ intros k Hk. assert (Hk2 : inside M (Z.of_nat k) j) by (destruct H0; split; lia). specialize (HS (Z.of_nat k) j Hk2). rewrite Nat2Z.id in HS. rewrite <- HS. unfold entry.
        rewrite (proj2 (inside_b So (Z.of_nat k) j)) by (destruct Hk2; split; lia). rewrite R. f_equal. lia. }
    rewrite index_rank. 2:{ unfold col_of. apply in_map_iff. exists i. split; auto. apply (proj2 (in_zrange 0 _ i)). destruct H0; lia. }
    cbn [bind]. rewrite Z.add_0_l.
    destruct (mwrites_ok (fun p q => if (p =? i) && (q =? j) then Some (qz (rank_of asc (el M i j) (col_of M j))) else entry S p q) [(pos S i j, Ok (qz (rank_of asc (el M i j) (col_of M j))))] S W) as (S1 & E1 & B1).
    { intros p e [E|[]]. injection E as <- <-. exists i, j. eexists. split; [destruct H0; split; lia|]. split; auto. split; [reflexivity|]. rewrite !Z.eqb_refl. auto. }
    { intros p q Hpq. destruct ((p =? i) && (q =? j)) eqn:E; auto. left. cbn. left. f_equal; lia. }
    unfold mwrites in E1. cbn [writes bind] in E1. unfold pos in E1. rewrite RS in E1. destruct (wr (data S) (i + nrows M * j) _) as [d1| |] eqn:Ed; try discriminate. cbn [bind] in E1. injection E1 as <-.
    cbn [bind]. destruct (becomes_dims _ _ _ B1) as [R1 C1]. destruct (IH (with_data S d1)) as (d' & E' & B').
    { apply (becomes_ok _ _ _ W B1). } { lia. } { lia. } { intros. apply Hin. right. auto. }
    cbn [data with_data] in E'. rewrite E'. exists d'. split; auto. destruct B1 as [b1 b2 b3 b4 b5], B' as [c1 c2 c3 c4 c5]. split; try congruence.
    + intros p q Hpq. assert (Hin1 : inside (with_data S d1) p q) by (destruct Hpq; split; lia). rewrite c4 by auto. cbn [existsb fst snd].
      destruct (existsb _ ij) eqn:Ex; [rewrite orb_true_r; auto|]. rewrite orb_false_r. rewrite b4 by auto.
      replace ((j =? q) && (i =? p)) with ((p =? i) && (q =? j)) by lia. destruct ((p =? i) && (q =? j)) eqn:E; auto. replace p with i by lia. replace q with j by lia. auto.
    + intros k Hk. rewrite c5 by (rewrite ?b1, ?b2; auto). apply b5. auto.
Qed.
Lemma rank_ok dr dc (M : mat Qc) work storage : mat_ok M -> mlength M <= dr * dc -> mlength M <= Z.of_nat (length work) -> mlength M <= Z.of_nat (length storage) ->
  exists R, rank dr dc M work storage asc = Ok R /\ becomes (Mat (rows M) (cols M) storage) (fun i j => Some (qz (rank_of asc (el M i j) (col_of M j)))) R.
Proof using Type.
  intros W D Hw Hs. unfold rank. destruct (Z.ltb_spec (dr * dc) (mlength M)); [lia|].
  assert (W1 : mat_ok (Mat (rows M) (cols M) work)) by (unfold mat_ok, mlength, nrows, ncols in *; cbn [rows cols data]; lia).
  assert (W2 : mat_ok (Mat (rows M) (cols M) storage)) by (unfold mat_ok, mlength, nrows, ncols in *; cbn [rows cols data]; lia).
  destruct (mat_sort_ok M (Mat (rows M) (cols M) work) W W1 eq_refl eq_refl) as (So & E & B). rewrite E. cbn [bind].
  assert (WS := becomes_ok _ _ _ W1 B). destruct (becomes_dims _ _ _ B) as [R1 C1].
  destruct (rank_loop_ok M So W WS R1 C1 (fun i j Hi => bc_entry _ _ _ B i j Hi) (list_prod (zrange 0 (ncols M)) (zrange 0 (nrows M))) (Mat (rows M) (cols M) storage) W2 eq_refl eq_refl) as (d & E' & B').
  { intros j i Hin. apply in_prod_iff in Hin. destruct Hin as [H1 H2]. apply in_zrange in H1, H2. split; lia. }
  cbn [data] in E'. rewrite E'. cbn [bind]. eexists. split; [reflexivity|]. eapply becomes_ext; [apply B'|]. intros i j Hin. cbn beta.
  destruct (existsb _ _) eqn:Ex; auto. exfalso. assert (K : existsb (fun p : Z * Z => (fst p =? j) && (snd p =? i)) (list_prod (zrange 0 (ncols M)) (zrange 0 (nrows M))) = true); [|congruence].
  apply existsb_exists. exists (j, i). split; [|cbn; rewrite !Z.eqb_refl; auto]. destruct Hin as [H1 H2]. apply in_prod_iff. split; apply in_zrange; unfold nrows, ncols in *; cbn [rows cols] in *; lia.
Qed.
End Sorted.
