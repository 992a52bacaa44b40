From Verif Require Import ColModel ColSpec MatProofs MatProofs2 MatDotProofs DataProofs DataProofs2 SplitProofs DescProofs DescProofs2 MomentsProofs.
Local Open Scope Z_scope.

Lemma values_col (M : mat (option Qc)) j : mat_ok M -> 0 <= j < ncols M -> values M (nrows M * j) (nrows M) = Ok (col_values M j).
Proof.
  intros OM Hj. unfold values, col_values.
  assert (E : zrange (nrows M * j) (nrows M) = map (fun i => nrows M * j + i) (upto (nrows M))).
  { unfold zrange, upto. rewrite map_map. apply map_ext. reflexivity. }
  rewrite E. clear E.
  assert (F : Forall (fun i => 0 <= i < nrows M) (upto (nrows M))) by (apply Forall_forall; intros i Hi; apply (proj1 (in_zrange 0 _ i)) in Hi; lia).
  induction (upto (nrows M)) as [|i t IH]; [reflexivity|]. apply Forall_cons_iff in F. destruct F as [Hi F]. cbn [map rmap].
  rewrite (IH F). replace (nrows M * j + i) with (j * nrows M + i) by lia. rewrite opel_rd; [reflexivity|auto|split; auto].
Qed.
Lemma values_all (M : mat (option Qc)) : mat_ok M -> values M 0 (mlength M) = Ok (elements M).
Proof.
  intros OM. unfold values, elements, mlength. change (zrange 0 ?n) with (upto n).
  assert (F : Forall (fun i => 0 <= i < nrows M * ncols M) (upto (nrows M * ncols M))) by (apply Forall_forall; intros i Hi; apply (proj1 (in_zrange 0 _ i)) in Hi; lia).
  induction (upto (nrows M * ncols M)) as [|i t IH]; [reflexivity|]. apply Forall_cons_iff in F. destruct F as [Hi F]. cbn [map rmap].
  rewrite (IH F).
  assert (0 < nrows M) by (unfold nrows, ncols in *; nia).
  pose proof (Z.mod_pos_bound i (nrows M)) as B. pose proof (Z.div_mod i (nrows M)) as D.
  assert (0 <= i / nrows M < ncols M) by (split; [apply Z.div_pos; lia|apply Z.div_lt_upper_bound; lia]).
  replace (rd (data M) i) with (rd (data M) (i / nrows M * nrows M + i mod nrows M)) by (f_equal; lia).
  rewrite opel_rd; [reflexivity|auto|split; auto; lia].
Qed.
Lemma read_col_ok (M : mat (option Qc)) j : mat_ok M -> 0 <= j < ncols M -> rmap (fun i => get0 M i j) (zrange 0 (nrows M)) = Ok (col_values M j).
Proof.
  intros OM Hj. change (zrange 0 ?n) with (upto n). unfold col_values, get0, pos.
  assert (F : Forall (fun i => 0 <= i < nrows M) (upto (nrows M))) by (apply Forall_forall; intros i Hi; apply (proj1 (in_zrange 0 _ i)) in Hi; lia).
  induction (upto (nrows M)) as [|i t IH]; [reflexivity|]. apply Forall_cons_iff in F. destruct F as [Hi F]. cbn [map rmap].
  rewrite (IH F). replace (i + nrows M * j) with (j * nrows M + i) by lia. rewrite opel_rd; [reflexivity|auto|split; auto].
Qed.
Lemma read_row_ok (M : mat (option Qc)) i : mat_ok M -> 0 <= i < nrows M -> rmap (fun j => get0 M i j) (zrange 0 (ncols M)) = Ok (row_values M i).
Proof.
  intros OM Hi. change (zrange 0 ?n) with (upto n). unfold row_values, get0, pos.
  assert (F : Forall (fun i => 0 <= i < ncols M) (upto (ncols M))) by (apply Forall_forall; intros j Hj; apply (proj1 (in_zrange 0 _ j)) in Hj; lia).
  induction (upto (ncols M)) as [|j t IH]; [reflexivity|]. apply Forall_cons_iff in F. destruct F as [Hj F]. cbn [map rmap].
  rewrite (IH F). replace (i + nrows M * j) with (j * nrows M + i) by lia. rewrite opel_rd; [reflexivity|auto|split; auto].
Qed.

(** Extremes *)
Definition dbetter (bigger : bool) (m : dbl) (v : Qc) : Prop := (if bigger then less m (DFin v) else less (DFin v) m) = true.
Lemma ext_loop_ok bigger : forall l i m idx, match m with DFin _ => True | _ => m = start_of bigger end ->
  (forall k v, oat l k = Some (Some v) -> ~ dbetter bigger m v) /\ ext_loop bigger l i m idx = (m, idx)
  \/ exists v k, first_best bigger l v k /\ dbetter bigger m v /\ ext_loop bigger l i m idx = (DFin v, Some (i + k)).
Proof.
  induction l as [|t r IH]; intros i m idx Hm; cbn [ext_loop].
  - left. split; auto. intros k v H. unfold oat in H. destruct (k <? 0); [discriminate|]. destruct (Z.to_nat k); discriminate.
  - assert (OC : forall k, oat (t :: r) k = if k =? 0 then Some t else oat r (k - 1)).
    { intros k. unfold oat. destruct (Z.ltb_spec k 0).
      - destruct (Z.eqb_spec k 0); [lia|]. destruct (Z.ltb_spec (k - 1) 0); auto; lia.
      - destruct (Z.eqb_spec k 0) as [->|]; auto. destruct (Z.ltb_spec (k - 1) 0); [lia|].
        replace (Z.to_nat k) with (S (Z.to_nat (k - 1))) by lia. reflexivity. }
    destruct t as [x|].
    + cbn [dbl_of]. destruct (if bigger then less m (DFin x) else less (DFin x) m) eqn:C.
      * right. destruct (IH (i + 1) (DFin x) (Some i) I) as [[N E]|(v & k & F & D & E)].
        -- exists x, 0. split; [|split; [exact C|]].
           ++ constructor.
              ** rewrite OC. reflexivity.
              ** intros k' v. rewrite OC. destruct (Z.eqb_spec k' 0).
                 --- intros [= <-]. unfold better. destruct bigger; intros HH; qlra.
                 --- intros H B. apply N in H. apply H. unfold dbetter, better in *. destruct bigger; cbn; apply qltb_lt; auto.
              ** intros k' v L. rewrite OC. destruct (Z.eqb_spec k' 0); [lia|]. unfold oat. destruct (Z.ltb_spec (k' - 1) 0); [discriminate|lia].
           ++ rewrite E. f_equal. f_equal. lia.
        -- exists v, (k + 1). destruct F as [F1 F2 F3]. split; [constructor|split].
           ++ assert (0 <= k) by (unfold oat in F1; destruct (Z.ltb_spec k 0); [discriminate|auto]).
              rewrite OC. destruct (Z.eqb_spec (k + 1) 0); [lia|]. replace (k + 1 - 1) with k by lia. auto.
           ++ intros k' w. rewrite OC. destruct (Z.eqb_spec k' 0).
              ** intros [= <-] B. unfold dbetter, better in *. destruct bigger; cbn in D; apply qltb_lt in D; qlra.
              ** apply F2.
           ++ intros k' w L. rewrite OC. destruct (Z.eqb_spec k' 0).
              ** intros [= <-]. unfold dbetter, better in *. destruct bigger; cbn in D; apply qltb_lt in D; auto.
              ** apply F3. lia.
           ++ unfold dbetter in *. destruct m as [| | |y]; destruct bigger; try discriminate; auto; cbn in *; apply qltb_lt in C; apply qltb_lt in D; apply qltb_lt; qlra.
           ++ rewrite E. f_equal. f_equal. lia.
      * destruct (IH (i + 1) m idx Hm) as [[N E]|(v & k & F & D & E)].
        -- left. split; auto. intros k v. rewrite OC. destruct (Z.eqb_spec k 0); [|apply N]. intros [= <-]. unfold dbetter. rewrite C. discriminate.
        -- right. exists v, (k + 1). destruct F as [F1 F2 F3]. split; [constructor|split; auto].
           ++ assert (0 <= k) by (unfold oat in F1; destruct (Z.ltb_spec k 0); [discriminate|auto]).
              rewrite OC. destruct (Z.eqb_spec (k + 1) 0); [lia|]. replace (k + 1 - 1) with k by lia. auto.
           ++ intros k' w. rewrite OC. destruct (Z.eqb_spec k' 0); [|apply F2].
              intros [= <-] B. unfold dbetter, better in *. destruct m as [| | |y]; destruct bigger; try discriminate; cbn in *; try discriminate.
              all: destruct (qltb_spec x y); destruct (qltb_spec y x); try discriminate; apply qltb_lt in D; qlra.
           ++ intros k' w L. rewrite OC. destruct (Z.eqb_spec k' 0); [|apply F3; lia].
              intros [= <-]. unfold dbetter, better in *. destruct m as [| | |y]; destruct bigger; try discriminate; cbn in *; try discriminate.
              all: destruct (qltb_spec x y); destruct (qltb_spec y x); try discriminate; apply qltb_lt in D; qlra.
           ++ rewrite E. f_equal. f_equal. lia.
    + assert (C : (if bigger then less m (dbl_of None) else less (dbl_of None) m) = false) by (cbn; destruct bigger, m; reflexivity).
      rewrite C. destruct (IH (i + 1) m idx Hm) as [[N E]|(v & k & F & D & E)].
      * left. split; auto. intros k v. rewrite OC. destruct (Z.eqb_spec k 0); [discriminate|apply N].
      * right. exists v, (k + 1). destruct F as [F1 F2 F3]. split; [constructor|split; auto].
        -- assert (0 <= k) by (unfold oat in F1; destruct (Z.ltb_spec k 0); [discriminate|auto]).
           rewrite OC. destruct (Z.eqb_spec (k + 1) 0); [lia|]. replace (k + 1 - 1) with k by lia. auto.
        -- intros k' w. rewrite OC. destruct (Z.eqb_spec k' 0); [discriminate|apply F2].
        -- intros k' w L. rewrite OC. destruct (Z.eqb_spec k' 0); [discriminate|apply F3; lia].
        -- rewrite E. f_equal. f_equal. lia.
Qed.
Lemma ext_ok bigger l i idx :
  no_number l /\ ext_loop bigger l i (start_of bigger) idx = (start_of bigger, idx)
  \/ exists v k, first_best bigger l v k /\ ext_loop bigger l i (start_of bigger) idx = (DFin v, Some (i + k)).
Proof.
  destruct (ext_loop_ok bigger l i (start_of bigger) idx) as [[N E]|(v & k & F & _ & E)]; [destruct bigger; reflexivity| |].
  - left. split; auto. intros x Hx. destruct x as [x|]; auto. apply In_nth_error in Hx. destruct Hx as [n Hn]. exfalso.
    apply (N (Z.of_nat n) x); [unfold oat; destruct (Z.ltb_spec (Z.of_nat n) 0); [lia|]; rewrite Nat2Z.id; auto|]. destruct bigger; reflexivity.
  - right. eauto.
Qed.
Lemma elements_oat (M : mat (option Qc)) k : oat (elements M) k = if (0 <=? k) && (k <? nrows M * ncols M) then Some (opel M (k mod nrows M) (k / nrows M)) else None.
Proof.
  unfold oat, elements. destruct (Z.ltb_spec k 0); [destruct (Z.leb_spec 0 k); [lia|reflexivity]|]. destruct (Z.leb_spec 0 k); [|lia]. cbn [andb].
  rewrite nth_error_map. destruct (Z.ltb_spec k (nrows M * ncols M)).
  - change (upto ?n) with (zrange 0 n). rewrite zrange_nth by lia. cbn [option_map]. do 2 f_equal; f_equal; lia.
  - rewrite (proj2 (nth_error_None _ _)); [reflexivity|]. rewrite upto_length. lia.
Qed.
Lemma opel_inside M i j v : opel M i j = Some v -> inside M i j.
Proof. unfold opel, entry. destruct (insideb M i j) eqn:B; [|discriminate]. intros _. apply inside_b. auto. Qed.
Lemma first_best_matrix bigger M v k : first_best bigger (elements M) v k -> first_best_at bigger M v (k mod nrows M) (k / nrows M).
Proof.
  intros [F1 F2 F3]. rewrite elements_oat in F1. destruct (Z.leb_spec 0 k); [|discriminate]. destruct (Z.ltb_spec k (nrows M * ncols M)); [|discriminate].
  cbn [andb] in F1. injection F1 as F1.
  assert (G : forall i' j' w, opel M i' j' = Some w -> oat (elements M) (j' * nrows M + i') = Some (Some w) /\ inside M i' j').
  { intros i' j' w Hw. pose proof (opel_inside _ _ _ _ Hw) as [Hi Hj]. split; [|split; auto]. rewrite elements_oat.
    replace ((j' * nrows M + i') mod nrows M) with i' by (rewrite Z.add_comm, Z.mod_add, Z.mod_small; lia).
    replace ((j' * nrows M + i') / nrows M) with j' by (rewrite Z.div_add_l, Z.div_small; lia).
    destruct (Z.leb_spec 0 (j' * nrows M + i')); [|nia]. destruct (Z.ltb_spec (j' * nrows M + i') (nrows M * ncols M)); [|nia]. cbn. rewrite Hw. auto. }
  constructor; auto.
  - apply opel_inside with v; auto.
  - intros i' j' w Hw. destruct (G _ _ _ Hw). eauto.
  - intros i' j' w L Hw. destruct (G _ _ _ Hw) as [Ho [Hi Hj]]. apply (F3 (j' * nrows M + i')); auto.
    pose proof (Z.div_mod k (nrows M)). pose proof (Z.mod_pos_bound k (nrows M)). nia.
Qed.
