(** Products and element-wise operations: proofs. *)
From Verif Require Import MatSpec MatDotModel MatProofs MatProofs2 MatProofs3.
From Coq Require Import Lia ZifyBool.
Local Open Scope Z_scope.

Lemma upto_zrange n : zrange 0 n = upto n.
Proof. unfold zrange, upto. apply map_ext. intros; lia. Qed.
Lemma el_get0 (M : mat Qc) i j : mat_ok M -> inside M i j -> get0 M i j = Ok (el M i j).
Proof. intros W H. destruct (get0_ok M i j W H) as (v & E1 & E2). unfold el. rewrite E1. auto. Qed.
Lemma entry_el (M : mat Qc) i j : mat_ok M -> inside M i j -> entry M i j = Some (el M i j).
Proof. intros W H. destruct (entry_some M i j W H) as (v & E). unfold el. rewrite E. auto. Qed.
Lemma rd_el (M : mat Qc) i j : mat_ok M -> inside M i j -> rd (data M) (i + nrows M * j) = Ok (el M i j).
Proof. apply el_get0. Qed.

Lemma dotk_ok k (a b : Z -> res Qc) x y : (forall l, 0 <= l < k -> a l = Ok (x l) /\ b l = Ok (y l)) ->
  dotk k a b = Ok (qsum (map (fun l => x l * y l)%Qc (upto k))).
Proof.
  intros H. unfold dotk. replace (upto k) with (zrange 0 k) by apply upto_zrange.
  assert (G : forall l, In l (zrange 0 k) -> a l = Ok (x l) /\ b l = Ok (y l)) by (intros l Hl; apply H; apply in_zrange in Hl; lia).
  clear H. induction (zrange 0 k) as [|l t IH]; [reflexivity|]. cbn [map rsum].
  destruct (G l (or_introl eq_refl)) as (-> & ->). cbn [times bind]. rewrite IH by (intros; apply G; right; auto). reflexivity.
Qed.

Lemma update_cells_ok (S : mat Qc) ld cs alpha beta val (hit : Z -> Z -> bool) (p : Z -> Z -> Qc) : mat_ok S -> ld = nrows S ->
  (forall i j, In (i, j) cs <-> inside S i j /\ hit i j = true) ->
  (forall i j, inside S i j -> hit i j = true -> val i j = Ok (p i j)) ->
  exists S', in_mat S (update_cells cs alpha beta val (data S) ld) = Ok S' /\
    becomes S (fun i j => if hit i j then scaled alpha beta p S i j else entry S i j) S'.
Proof.
  intros W -> Hc Hv. unfold update_cells. unfold in_mat. apply (mwrites_ok (fun i j => if hit i j then scaled alpha beta p S i j else entry S i j)); auto.
  - intros k e H. apply in_map_iff in H. destruct H as ((i, j) & E & H). cbn [fst snd] in E. injection E as <- <-. apply Hc in H. destruct H as (Hin & Hh).
    exists i, j. eexists. split; auto. split; [reflexivity|]. rewrite Hv by auto. rewrite rd_el by auto. cbn [bind]. rewrite Hh. split; reflexivity.
  - intros i j Hin. destruct (hit i j) eqn:Hh; [left|right; auto]. apply in_map_iff. eexists. split; [|apply in_map_iff; exists (i, j); split; [reflexivity|apply Hc; auto]]. reflexivity.
Qed.
Lemma cells_in m n i j : In (i, j) (cells m n) <-> 0 <= i < m /\ 0 <= j < n.
Proof. unfold cells. rewrite in_prod_iff, !in_zrange. lia. Qed.
Lemma cells_mat (S : mat Qc) m n : m = nrows S -> n = ncols S -> forall i j, In (i, j) (cells m n) <-> inside S i j /\ true = true.
Proof. intros -> -> i j. rewrite cells_in. unfold inside. tauto. Qed.

Ltac size := unfold bad_ld; repeat match goal with |- context [negb (?a =? ?b)] => replace (a =? b) with true by lia end; cbn [negb orb].
Ltac ldok := match goal with |- context [if ?b then Throw else _] => replace b with false by (unfold bad_ld; lia) end.

Section Products.
Context (M B S : mat Qc) (alpha beta : Qc).
Hypothesis WM : mat_ok M.
Hypothesis WB : mat_ok B.
Hypothesis WS : mat_ok S.

Lemma op_n (X : mat Qc) ld i l : mat_ok X -> ld = nrows X -> inside X i l -> op false (data X) ld i l = Ok (el X i l).
Proof. intros W -> H. unfold op. apply rd_el; auto. Qed.
Lemma op_t (X : mat Qc) ld i l : mat_ok X -> ld = nrows X -> inside X l i -> op true (data X) ld i l = Ok (el X l i).
Proof. intros W -> H. unfold op. apply rd_el; auto. Qed.

Lemma dot_ok : ncols M = nrows B -> nrows S = nrows M -> ncols S = ncols B -> 0 < nrows M -> 0 < ncols M ->
  exists S', dot M B S alpha beta = Ok S' /\ becomes S (scaled alpha beta (product (ncols M) (el M) (el B)) S) S'.
Proof.
  intros H1 H2 H3 H4 H5. unfold dot. size. unfold gemm. ldok.
  apply (update_cells_ok S _ _ alpha beta _ (fun _ _ => true)); auto.
  - apply cells_mat; auto.
  - intros i j (Hi & Hj) _. apply dotk_ok. intros l Hl. split; [apply op_n | apply op_n]; auto; split; lia.
Qed.
Lemma dot_tr_ok : ncols M = ncols B -> nrows S = nrows M -> ncols S = nrows B -> 0 < nrows M -> 0 < nrows B ->
  exists S', dot_tr M B S alpha beta = Ok S' /\ becomes S (scaled alpha beta (product (ncols M) (el M) (el_t B)) S) S'.
Proof.
  intros H1 H2 H3 H4 H5. unfold dot_tr. size. unfold gemm. ldok.
  apply (update_cells_ok S _ _ alpha beta _ (fun _ _ => true)); auto.
  - apply cells_mat; auto.
  - intros i j (Hi & Hj) _. apply dotk_ok. intros l Hl. split; [apply op_n | apply op_t]; auto; split; lia.
Qed.
Lemma tr_dot_ok : nrows M = nrows B -> nrows S = ncols M -> ncols S = ncols B -> 0 < nrows M -> 0 < ncols M ->
  exists S', tr_dot M B S alpha beta = Ok S' /\ becomes S (scaled alpha beta (product (nrows M) (el_t M) (el B)) S) S'.
Proof.
  intros H1 H2 H3 H4 H5. unfold tr_dot. size. unfold gemm. ldok.
  apply (update_cells_ok S _ _ alpha beta _ (fun _ _ => true)); auto.
  - apply cells_mat; auto.
  - intros i j (Hi & Hj) _. apply dotk_ok. intros l Hl. split; [apply op_t | apply op_n]; auto; split; lia.
Qed.
Lemma tr_dot_tr_ok : nrows M = ncols B -> nrows S = ncols M -> ncols S = nrows B -> 0 < nrows M -> 0 < ncols M -> 0 < nrows B ->
  exists S', tr_dot_tr M B S alpha beta = Ok S' /\ becomes S (scaled alpha beta (product (nrows M) (el_t M) (el_t B)) S) S'.
Proof.
  intros H1 H2 H3 H4 H5 H6. unfold tr_dot_tr. size. unfold gemm. ldok.
  apply (update_cells_ok S _ _ alpha beta _ (fun _ _ => true)); auto.
  - apply cells_mat; auto.
  - intros i j (Hi & Hj) _. apply dotk_ok. intros l Hl. split; [apply op_t | apply op_t]; auto; split; lia.
Qed.

Lemma vector_dot_vector_ok : ncols M = 1 -> mlength B = mlength M ->
  vector_dot_vector M B = Ok (qsum (map (fun l => vel (data M) l * vel (data B) l)%Qc (upto (mlength M)))).
Proof.
  intros H1 H2. unfold vector_dot_vector, is_vector. size. apply dotk_ok. intros l Hl.
  split.
  - destruct (rd_data M l WM) as (v & -> & E); [lia|]. unfold vel. rewrite (nth_error_nth _ _ _ E). auto.
  - destruct (rd_data B l WB) as (v & -> & E); [lia|]. unfold vel. rewrite (nth_error_nth _ _ _ E). auto.
Qed.
Lemma rd_vec (X : mat Qc) k : mat_ok X -> ncols X = 1 -> 0 <= k < nrows X -> rd (data X) k = Ok (el X k 0).
Proof. intros W H Hk. replace k with (k + nrows X * 0) at 1 by ring. apply rd_el; auto. split; lia. Qed.
Lemma update_vec ld alpha' beta' n val (p : Z -> Qc) : ncols S = 1 -> n = nrows S ->
  (forall i, 0 <= i < n -> val i 0 = Ok (p i)) ->
  exists S', in_mat S (update_cells (cells n 1) alpha' beta' val (data S) ld) = Ok S' /\
    becomes S (scaled alpha' beta' (fun i _ => p i) S) S'.
Proof.
  intros HC Hn Hv. unfold update_cells, in_mat. apply mwrites_ok; auto.
  - intros k e H. apply in_map_iff in H. destruct H as ((i, j) & E & H). cbn [fst snd] in E. injection E as <- <-. apply cells_in in H.
    assert (j = 0) by lia. subst j. rewrite Z.mul_0_r, Z.add_0_r. exists i, 0. eexists. split; [split; lia|]. split; [unfold pos; lia|].
    rewrite Hv by lia. rewrite rd_vec by (auto; lia). cbn [bind]. split; reflexivity.
  - intros i j (Hi & Hj). left. assert (j = 0) by lia. subst j. apply in_map_iff. eexists.
    split; [|apply in_map_iff; exists (i, 0); split; [reflexivity|apply cells_in; lia]]. cbn [fst snd]. unfold pos. lia.
Qed.
Lemma dot_vector_ok : ncols B = 1 -> ncols S = 1 -> ncols M = nrows B -> nrows S = nrows M -> 0 < nrows M ->
  exists S', dot_vector M B S alpha beta = Ok S' /\ becomes S (scaled alpha beta (product (ncols M) (el M) (el B)) S) S'.
Proof.
  intros H1 H2 H3 H4 H5. unfold dot_vector, is_vector. size. unfold gemv. ldok.
  destruct (update_vec 0 alpha beta (nrows M) (fun i _ => dotk (ncols M) (fun l => op false (data M) (nrows M) i l) (fun l => rd (data B) l))
    (fun i => product (ncols M) (el M) (el B) i 0)) as (S' & E & G); auto.
  - intros i Hi. apply dotk_ok. intros l Hl. split; [apply op_n; auto; split; lia | apply rd_vec; auto; lia].
  - exists S'. split; auto. eapply becomes_ext; [exact G|]. intros i j (Hi & Hj). assert (j = 0) by lia. subst j. reflexivity.
Qed.
Lemma t_dot_vector_ok : ncols B = 1 -> ncols S = 1 -> nrows M = nrows B -> nrows S = ncols M -> 0 < nrows M ->
  exists S', t_dot_vector M B S alpha beta = Ok S' /\ becomes S (scaled alpha beta (product (nrows M) (el_t M) (el B)) S) S'.
Proof.
  intros H1 H2 H3 H4 H5. unfold t_dot_vector, is_vector. size. unfold gemv. ldok.
  destruct (update_vec 0 alpha beta (ncols M) (fun i _ => dotk (nrows M) (fun l => op true (data M) (nrows M) i l) (fun l => rd (data B) l))
    (fun i => product (nrows M) (el_t M) (el B) i 0)) as (S' & E & G); auto.
  - intros i Hi. apply dotk_ok. intros l Hl. split; [apply op_t; auto; split; lia | apply rd_vec; auto; lia].
  - exists S'. split; auto. eapply becomes_ext; [exact G|]. intros i j (Hi & Hj). assert (j = 0) by lia. subst j. reflexivity.
Qed.

(** ** Symmetric results *)
Lemma syrk_cells n i j : n = nrows S -> n = ncols S -> In (i, j) (filter (fun ij => fst ij <=? snd ij) (cells n n)) <-> inside S i j /\ (i <=? j) = true.
Proof. intros E1 E2. rewrite filter_In, cells_in. cbn [fst snd]. unfold inside. rewrite <- E1, <- E2. tauto. Qed.
Lemma el_becomes (X X' : mat Qc) g i j : becomes X g X' -> inside X i j -> el X' i j = match g i j with Some v => v | None => 0%Qc end.
Proof. intros H Hin. unfold el. rewrite (bc_entry _ _ _ H) by auto. reflexivity. Qed.
Lemma set_lower_ok (X : mat Qc) n : mat_ok X -> n = nrows X -> n = ncols X ->
  exists X', set_lower n X = Ok X' /\ becomes X (fun i j => if i <=? j then entry X i j else entry X j i) X'.
Proof.
  intros W E1 E2. unfold set_lower. apply mwrites_ok; auto.
  - intros k e H. apply in_map_iff in H. destruct H as ((i, j) & E & H). cbn [fst snd] in E. injection E as <- <-. apply filter_In in H. destruct H as (H & Hn).
    apply cells_in in H. cbn [fst snd] in Hn. destruct (get0_ok X j i W) as (v & E3 & E4); [split; lia|]. exists i, j, v.
    split; [split; lia|]. split; auto. split; auto. destruct (i <=? j); [discriminate|auto].
  - intros i j (Hi & Hj). destruct (i <=? j) eqn:Hl; [right; auto|left]. apply in_map_iff. eexists.
    split; [|apply in_map_iff; exists (i, j); split; [reflexivity|apply filter_In; split; [apply cells_in; lia|cbn [fst snd]; rewrite Hl; auto]]]. reflexivity.
Qed.
Lemma sym_finish (lower : bool) n p S1 : n = nrows S -> n = ncols S -> mat_ok S1 ->
  becomes S (fun i j => if i <=? j then scaled alpha beta p S i j else entry S i j) S1 ->
  exists S', (if lower then set_lower n S1 else Ok S1) = Ok S' /\ becomes S (sym_result alpha beta S lower p) S'.
Proof.
  intros E1 E2 W1 Bc. destruct lower.
  - assert (R1 : nrows S1 = nrows S) by (unfold nrows; rewrite (bc_rows _ _ _ Bc); auto). assert (C1 : ncols S1 = ncols S) by (unfold ncols; rewrite (bc_cols _ _ _ Bc); auto).
    destruct (set_lower_ok S1 n W1) as (S' & E & G); try congruence. exists S'. split; auto. destruct G, Bc. constructor; try congruence.
    + intros i j (Hi & Hj). rewrite bc_entry by (split; lia). unfold sym_result. destruct (Z.leb_spec i j).
      * rewrite bc_entry0 by (split; lia). replace (i <=? j) with true by lia. auto.
      * rewrite bc_entry0 by (split; lia). replace (j <=? i) with true by lia. auto.
    + intros k Hk. rewrite bc_behind by (rewrite bc_rows0, bc_cols0; auto). auto.
  - exists S1. split; auto.
Qed.
Lemma dot_aat_ok lower : nrows S = nrows M -> ncols S = nrows M -> 0 < nrows M ->
  exists S', dot_aat M S lower alpha beta = Ok S' /\ becomes S (sym_result alpha beta S lower (product (ncols M) (el M) (el_t M))) S'.
Proof.
  intros H1 H2 H3. unfold dot_aat. size. unfold syrk. ldok.
  destruct (update_cells_ok S (nrows M) (filter (fun ij => fst ij <=? snd ij) (cells (nrows M) (nrows M))) alpha beta
    (fun i j => dotk (ncols M) (fun l => op false (data M) (nrows M) i l) (fun l => op false (data M) (nrows M) j l)) (fun i j => i <=? j) (product (ncols M) (el M) (el_t M)))
    as (S1 & E & G); auto.
  - intros i j. apply syrk_cells; auto.
  - intros i j (Hi & Hj) _. apply dotk_ok. intros l Hl. split; apply op_n; auto; split; lia.
  - rewrite E. cbn [bind]. apply sym_finish; auto. eapply becomes_ok; eauto.
Qed.
Lemma dot_ata_ok lower : nrows S = ncols M -> ncols S = ncols M -> 0 < nrows M -> 0 < ncols M ->
  exists S', dot_ata M S lower alpha beta = Ok S' /\ becomes S (sym_result alpha beta S lower (product (nrows M) (el_t M) (el M))) S'.
Proof.
  intros H1 H2 H3 H4. unfold dot_ata. size. unfold syrk. ldok.
  destruct (update_cells_ok S (ncols M) (filter (fun ij => fst ij <=? snd ij) (cells (ncols M) (ncols M))) alpha beta
    (fun i j => dotk (nrows M) (fun l => op true (data M) (nrows M) i l) (fun l => op true (data M) (nrows M) j l)) (fun i j => i <=? j) (product (nrows M) (el_t M) (el M)))
    as (S1 & E & G); auto.
  - intros i j. apply syrk_cells; auto.
  - intros i j (Hi & Hj) _. apply dotk_ok. intros l Hl. split; apply op_t; auto; split; lia.
  - rewrite E. cbn [bind]. apply sym_finish; auto. eapply becomes_ok; eauto.
Qed.
Lemma sym_el_ok (X : mat Qc) ld up i j : mat_ok X -> ld = nrows X -> nrows X = ncols X -> inside X i j -> sym_el up (data X) ld i j = Ok (el_sym up X i j).
Proof.
  intros W -> E (Hi & Hj). unfold sym_el, el_sym. destruct (Bool.eqb up (i <=? j)); apply rd_el; auto; split; lia.
Qed.
Lemma sym_dot_ok up : nrows M = ncols M -> ncols M = nrows B -> nrows S = nrows M -> ncols S = ncols B -> 0 < nrows M ->
  exists S', sym_dot M B S up alpha beta = Ok S' /\ becomes S (scaled alpha beta (product (ncols M) (el_sym up M) (el B)) S) S'.
Proof.
  intros H1 H2 H3 H4 H5. unfold sym_dot, is_square. size. unfold symm. ldok.
  apply (update_cells_ok S _ _ alpha beta _ (fun _ _ => true)); auto.
  - apply cells_mat; auto.
  - intros i j (Hi & Hj) _. rewrite <- H1. apply dotk_ok. intros l Hl. split; [apply sym_el_ok; auto; split; lia|]. rewrite H1, H2. apply rd_el; auto; split; lia.
Qed.
(** DotSym reads the other triangle. *)
Lemma dot_sym_ok up : nrows B = ncols B -> ncols M = nrows B -> nrows S = nrows M -> ncols S = ncols B -> 0 < nrows M -> 0 < ncols M ->
  exists S', dot_sym M B S up alpha beta = Ok S' /\ becomes S (scaled alpha beta (product (ncols M) (el M) (el_sym (negb up) B)) S) S'.
Proof.
  intros H1 H2 H3 H4 H5 H6. unfold dot_sym, is_square. size. unfold symm. ldok.
  apply (update_cells_ok S _ _ alpha beta _ (fun _ _ => true)); auto.
  - apply cells_mat; auto.
  - intros i j (Hi & Hj) _. replace (ncols S) with (ncols M) by lia. apply dotk_ok. intros l Hl. split; [rewrite H3; apply rd_el; auto; split; lia|]. apply sym_el_ok; auto; split; lia.
Qed.
End Products.

(** ** Sums over pairs without NaN *)
Lemma opel_rd (M : mat (option Qc)) k i : mat_ok M -> inside M k i -> rd (data M) (i * nrows M + k) = Ok (opel M k i).
Proof.
  intros W H. destruct (get0_ok M k i W H) as (v & E1 & E2). unfold get0, pos in E2. replace (i * nrows M + k) with (k + nrows M * i) by ring.
  rewrite E2. unfold opel. rewrite E1. destruct v; auto.
Qed.
Lemma pair_terms_ok (M : mat (option Qc)) i j : mat_ok M -> 0 <= i < ncols M -> 0 <= j < ncols M ->
  pair_terms M i j = Ok (map (fun ab => fst ab * snd ab)%Qc (complete_pairs M i j)).
Proof.
  intros W Hi Hj. unfold pair_terms, complete_pairs. replace (upto (nrows M)) with (zrange 0 (nrows M)) by apply upto_zrange.
  assert (G : forall k, In k (zrange 0 (nrows M)) -> 0 <= k < nrows M) by (intros k Hk; apply in_zrange in Hk; lia).
  induction (zrange 0 (nrows M)) as [|k t IH]; [reflexivity|]. cbn [fold_right flat_map].
  rewrite IH by (intros; apply G; right; auto). cbn [bind]. assert (Hk : 0 <= k < nrows M) by (apply G; left; auto).
  rewrite !opel_rd by (auto; split; auto). cbn [bind]. rewrite map_app. destruct (opel M k i), (opel M k j); reflexivity.
Qed.
Lemma complete_pairs_swap M i j : complete_pairs M j i = map (fun ab => (snd ab, fst ab)) (complete_pairs M i j).
Proof.
  unfold complete_pairs. induction (upto (nrows M)) as [|k t IH]; [reflexivity|]. cbn [flat_map]. rewrite map_app, <- IH. f_equal.
  destruct (opel M k i), (opel M k j); reflexivity.
Qed.
Lemma nan_writes_ok (M : mat (option Qc)) (S : mat Qc) (val : list Qc -> Qc) lower : mat_ok M -> mat_ok S -> nrows S = ncols M -> ncols S = ncols M ->
  exists S', mwrites S (dot_ata_nan_writes M S val lower) = Ok S' /\
    becomes S (fun i j => Some (val (map (fun ab => fst ab * snd ab)%Qc (complete_pairs M i j)))) S'.
Proof.
  intros W WS H1 H2. unfold dot_ata_nan_writes. apply mwrites_ok; auto.
  - intros k e H. apply in_flat_map in H. destruct H as ((i, j) & Hc & H). apply cells_in in Hc. cbn [fst snd] in H.
    assert (Eq : map (fun ab => fst ab * snd ab)%Qc (complete_pairs M j i) = map (fun ab => fst ab * snd ab)%Qc (complete_pairs M i j)).
    { rewrite complete_pairs_swap, map_map. apply map_ext. intros (a, b). apply Qcmult_comm. }
    rewrite pair_terms_ok in H by (auto; lia). cbn [bind] in H. destruct H as [H|H].
    + injection H as <- <-. exists j, i. eexists. split; [split; lia|]. split; [reflexivity|]. split; [reflexivity|]. rewrite Eq. auto.
    + destruct lower; [|destruct H]. destruct H as [H|[]]. injection H as <- <-. exists i, j. eexists. split; [split; lia|]. split; reflexivity || split; reflexivity.
  - intros i j (Hi & Hj). left. apply in_map_iff. eexists. split; [|apply in_flat_map; exists (j, i); split; [apply cells_in; lia|left; reflexivity]]. reflexivity.
Qed.
Lemma dot_ata_nan_ok (M : mat (option Qc)) (S C : mat Qc) lower : mat_ok M -> mat_ok S -> mat_ok C ->
  nrows S = ncols M -> ncols S = ncols M -> nrows C = ncols M -> ncols C = ncols M ->
  exists S' C', dot_ata_nan M S C lower = Ok (S', C') /\
    becomes S (fun i j => Some (qsum (map (fun ab => fst ab * snd ab)%Qc (complete_pairs M i j)))) S' /\
    becomes C (fun i j => Some (qn (length (complete_pairs M i j)))) C'.
Proof.
  intros W WS WC H1 H2 H3 H4. unfold dot_ata_nan. size.
  destruct (nan_writes_ok M S qsum lower W WS H1 H2) as (S' & -> & BS). cbn [bind].
  destruct (nan_writes_ok M C (fun t => qn (length t)) lower W WC H3 H4) as (C' & -> & BC). cbn [bind].
  exists S', C'. split; auto. split; auto. eapply becomes_ext; [exact BC|]. intros i j _. cbn beta. rewrite map_length. auto.
Qed.

(** ** Element-wise operations *)
Lemma vmap_ok (M S : mat Qc) f g : mat_ok M -> mat_ok S -> nrows S = nrows M -> ncols S = ncols M ->
  (forall i j, inside M i j -> exists v, f (i + nrows M * j) (el M i j) = Ok v /\ g i j = Some v) ->
  exists S', vmap M S f = Ok S' /\ becomes S g S'.
Proof.
  intros W WS HR HC Hf. unfold vmap.
  assert (Pos : forall k, 0 <= k < mlength M -> 0 < nrows M /\ inside M (k mod nrows M) (k / nrows M) /\ k = k mod nrows M + nrows M * (k / nrows M)).
  { intros k Hk. unfold mlength in Hk. assert (0 <= nrows M) by (unfold nrows; lia).
    assert (nrows M <> 0) by (intros E; rewrite E in Hk; lia). assert (0 < nrows M) by lia. split; auto.
    pose proof (Z.div_mod k (nrows M) ltac:(lia)). split; [|lia]. split; [apply Z.mod_pos_bound; lia|]. split; [apply Z.div_pos; lia|]. apply Z.div_lt_upper_bound; lia. }
  apply mwrites_ok; auto.
  - intros k e H. apply in_map_iff in H. destruct H as (k' & E & Hk). injection E as <- <-. apply in_zrange in Hk.
    destruct (Pos k') as (P0 & Pin & Pk); [lia|]. destruct (Hf _ _ Pin) as (v & E1 & E2). exists (k' mod nrows M), (k' / nrows M), v.
    split; [destruct Pin; split; lia|]. split; [unfold pos; rewrite HR; auto|]. split; auto. rewrite Pk at 1. rewrite rd_el by auto. cbn [bind]. rewrite Pk at 1. auto.
  - intros i j (Hi & Hj). left. rewrite map_map. cbn [fst]. rewrite map_id. apply in_zrange. unfold pos, mlength. rewrite HR in *. nia.
Qed.
Section Elementwise.
Context (M B S : mat Qc).
Hypothesis WM : mat_ok M.
Hypothesis WB : mat_ok B.
Hypothesis WS : mat_ok S.
Lemma same_size_ok (X : mat Qc) : nrows X = nrows M -> ncols X = ncols M -> same_size M X = true.
Proof. intros. unfold same_size. lia. Qed.
Lemma in_B i j : nrows B = nrows M -> ncols B = ncols M -> inside M i j -> rd (data B) (i + nrows M * j) = Ok (el B i j) /\ entry B i j = Some (el B i j).
Proof. intros R C (Hi & Hj). split; [rewrite <- R; apply rd_el | apply entry_el]; auto; split; lia. Qed.
Lemma ew_scalar_ok f b : nrows S = nrows M -> ncols S = ncols M ->
  exists S', ew_scalar f M b S = Ok S' /\ becomes S (fun i j => option_map (fun x => f x b) (entry M i j)) S'.
Proof.
  intros R C. unfold ew_scalar. rewrite same_size_ok by auto. cbn [negb]. apply vmap_ok; auto.
  intros i j H. eexists. split; [reflexivity|]. rewrite entry_el by auto. reflexivity.
Qed.
Lemma ew_scalar_in_ok f b : exists M', ew_scalar_in f M b = Ok M' /\ becomes M (fun i j => option_map (fun x => f x b) (entry M i j)) M'.
Proof.
  unfold ew_scalar_in. apply vmap_ok; auto. intros i j H. eexists. split; [reflexivity|]. rewrite entry_el by auto. reflexivity.
Qed.
Lemma ew_ok f : nrows S = nrows M -> ncols S = ncols M -> nrows B = nrows M -> ncols B = ncols M ->
  exists S', ew f M B S = Ok S' /\ becomes S (fun i j => omap2 f (entry M i j) (entry B i j)) S'.
Proof.
  intros R C RB CB. unfold ew. rewrite !same_size_ok by auto. cbn [negb]. apply vmap_ok; auto.
  intros i j H. destruct (in_B i j RB CB H) as (-> & ->). eexists. split; [reflexivity|]. rewrite entry_el by auto. reflexivity.
Qed.
Lemma ew_in_ok f : nrows B = nrows M -> ncols B = ncols M ->
  exists M', ew_in f M B = Ok M' /\ becomes M (fun i j => omap2 f (entry M i j) (entry B i j)) M'.
Proof.
  intros RB CB. unfold ew_in. rewrite !same_size_ok by auto. cbn [negb]. apply vmap_ok; auto.
  intros i j H. destruct (in_B i j RB CB H) as (-> & ->). eexists. split; [reflexivity|]. rewrite entry_el by auto. reflexivity.
Qed.
Lemma in_S i j : nrows S = nrows M -> ncols S = ncols M -> inside M i j -> rd (data S) (i + nrows M * j) = Ok (el S i j).
Proof. intros R C (Hi & Hj). rewrite <- R; apply rd_el; auto; split; lia. Qed.
Lemma multiply_scalar_ok b beta : nrows S = nrows M -> ncols S = ncols M ->
  exists S', multiply_scalar M b S beta = Ok S' /\ becomes S (fun i j => Some (el M i j * b + beta * el S i j)%Qc) S'.
Proof.
  intros R C. unfold multiply_scalar. rewrite same_size_ok by auto. cbn [negb]. destruct (qeqb_spec beta 0) as [-> |].
  - apply vmap_ok; auto. intros i j H. eexists. split; [reflexivity|]. f_equal. ring.
  - apply vmap_ok; auto. intros i j H. rewrite in_S by auto. cbn [bind]. eexists. split; reflexivity.
Qed.
Lemma multiply_ok beta : nrows S = nrows M -> ncols S = ncols M -> nrows B = nrows M -> ncols B = ncols M ->
  exists S', multiply M B S beta = Ok S' /\ becomes S (fun i j => Some (el M i j * el B i j + beta * el S i j)%Qc) S'.
Proof.
  intros R C RB CB. unfold multiply. rewrite !same_size_ok by auto. cbn [negb]. destruct (qeqb_spec beta 0) as [-> |].
  - apply vmap_ok; auto. intros i j H. destruct (in_B i j RB CB H) as (-> & _). eexists. split; [reflexivity|]. f_equal. ring.
  - apply vmap_ok; auto. intros i j H. destruct (in_B i j RB CB H) as (-> & _). cbn [bind]. rewrite in_S by auto. cbn [bind]. eexists. split; reflexivity.
Qed.
End Elementwise.
