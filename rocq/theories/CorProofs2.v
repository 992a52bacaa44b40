(** Proofs about CorModel: pairs of columns. *)
From Verif Require Import CorModel CorSpec MatProofs MatProofs2 MatDotProofs MatProofs5 MatProofs6 SplitProofs DataProofs DataProofs2 DescProofs DescProofs2 HistProofs2 ColProofs ColProofs2 ColProofs3 CorProofs.
Local Open Scope Z_scope.

Lemma square_writes {T} (S : mat T) n (lower : bool) (v : Z -> Z -> T) W : mat_ok S -> nrows S = n -> ncols S = n ->
  (forall p e, In (p, e) W -> exists i j, inside S i j /\ p = pos S i j /\ e = Ok (v i j) /\ (i <= j \/ lower = true)) ->
  (forall i j, inside S i j -> i <= j \/ lower = true -> In (pos S i j) (map fst W)) ->
  exists S', mwrites S W = Ok S' /\ length (data S') = length (data S) /\ square_of n lower v S'.
Proof.
  intros OS R C H1 H2. destruct (mwrites_ok (fun i j => if (i <=? j) || lower then Some (v i j) else entry S i j) W S OS) as (S' & E & B).
  - intros p e H. destruct (H1 p e H) as (i & j & HI & P & Q & L). exists i, j, (v i j). repeat split; try apply HI; auto.
    destruct ((i <=? j) || lower) eqn:D; auto. destruct L as [L | ->]; [lia|]. rewrite orb_true_r in D. discriminate.
  - intros i j HI. destruct ((i <=? j) || lower) eqn:D; [left|right; auto]. apply H2; auto. apply orb_true_iff in D. destruct D as [D|D]; auto. left. lia.
  - exists S'. split; auto. split; [apply B|]. destruct (becomes_dims _ _ _ B) as [D1 D2]. split; [lia|]. split; [lia|]. intros i j Hi Hj L.
    rewrite (bc_entry _ _ _ B) by (split; lia). destruct ((i <=? j) || lower) eqn:D; auto. destruct L as [L | ->]; [lia|]. rewrite orb_true_r in D. discriminate.
Qed.
Lemma sym_writes {T} {dg : bool} (d : list T) (n : nat) (v : Z -> Z -> T) W : sym_length dg (Z.of_nat n) <= Z.of_nat (length d) ->
  (forall i j, v i j = v j i) ->
  (forall p e, In (p, e) W -> exists i j, sym_pair dg (Z.of_nat n) i j /\ p = sym_index dg (Z.of_nat n) i j /\ e = Ok (v i j)) ->
  exists d', writes W d = Ok d' /\ length d' = length d /\
    forall i j, sym_pair dg (Z.of_nat n) i j -> (In (sym_index dg (Z.of_nat n) i j) (map fst W) -> sym_get0 dg (Sym n d') i j = Ok (v i j)) /\
      (~ In (sym_index dg (Z.of_nat n) i j) (map fst W) -> sym_get0 dg (Sym n d') i j = sym_get0 dg (Sym n d) i j).
Proof.
  intros L SV H1.
  set (g := fun p => match find (fun ij => (dg || negb (fst ij =? snd ij)) && (sym_index dg (Z.of_nat n) (fst ij) (snd ij) =? p)) (MatDotModel.cells (Z.of_nat n) (Z.of_nat n)) with Some ij => Some (v (fst ij) (snd ij)) | None => None end).
  assert (G : forall i j, sym_pair dg (Z.of_nat n) i j -> g (sym_index dg (Z.of_nat n) i j) = Some (v i j)).
  { intros i j SP. unfold g. destruct (find _ _) as [[a b]|] eqn:F.
    - apply find_some in F. destruct F as [F1 F2]. apply cells_in in F1. cbn [fst snd] in F2. apply andb_true_iff in F2. destruct F2 as [F0 F2]. apply Z.eqb_eq in F2. cbn [fst snd].
      apply sym_index_inj in F2; [|repeat split; try lia; destruct dg; auto; right; lia|auto]. destruct F2 as [[-> ->]|[-> ->]]; auto. rewrite SV. auto.
    - exfalso. destruct SP as (Hi & Hj & Hd). pose proof (find_none _ _ F (i, j) (proj2 (cells_in _ _ i j) (conj Hi Hj))) as Q. cbn [fst snd] in Q. destruct dg; cbn [orb andb] in Q; [lia|]. destruct Hd; [discriminate|]. lia. }
  destruct (writes_fun g W d) as (d' & E & LD & N).
  { intros p e H. destruct (H1 p e H) as (i & j & SP & -> & ->). pose proof (sym_index_range dg _ _ _ SP). split; [lia|]. eauto. }
  exists d'. split; auto. split; auto. intros i j SP. pose proof (sym_index_range dg _ _ _ SP) as R. assert (ND : negb dg && (i =? j) = false) by (destruct SP as (_ & _ & [-> | Hd]); auto; destruct dg; auto; lia). unfold sym_get0. rewrite ND. cbn [srows sdata].
  set (p := sym_index dg (Z.of_nat n) i j) in *. unfold rd. destruct (Z.ltb_spec p 0); [lia|]. rewrite N, Z2Nat.id by lia.
  assert (IF : in_fst p W = true <-> In p (map fst W)).
  { unfold in_fst. rewrite existsb_exists, in_map_iff. split; intros (x & A & B); exists x; [split; auto; lia|]. split; auto; lia. }
  split; intros HI.
  - rewrite (proj2 IF HI). unfold p. rewrite G; auto.
  - destruct (in_fst p W) eqn:EI; [exfalso; apply HI, IF; auto|reflexivity].
Qed.

Lemma complete_swap M i j : complete_pairs M j i = map (fun ab => (snd ab, fst ab)) (complete_pairs M i j).
Proof.
  unfold complete_pairs. induction (upto (nrows M)) as [|k t IH]; auto. cbn [flat_map]. rewrite map_app, IH. f_equal. destruct (opel M k i), (opel M k j); reflexivity.
Qed.
Lemma complete_self M i : complete_pairs M i i = map (fun x => (x, x)) (present (col_values M i)).
Proof.
  unfold complete_pairs, col_values. induction (upto (nrows M)) as [|k t IH]; auto. cbn [flat_map map]. rewrite IH. unfold present. cbn [flat_map]. destruct (opel M k i); reflexivity.
Qed.
Lemma cov_self sample l : covariance_spec sample (map (fun x => (x, x)) l) = variance_spec sample l.
Proof.
  assert (X : xs (map (fun x => (x, x)) l) = l) by (unfold xs; rewrite map_map; apply map_id).
  assert (Y : ys (map (fun x => (x, x)) l) = l) by (unfold ys; rewrite map_map; apply map_id).
  assert (C : codev (map (fun x => (x, x)) l) = dev 2 l) by (unfold codev; rewrite X, Y, dev2_sum, map_map; reflexivity).
  unfold covariance_spec, variance_spec, var_sample, var_pop. destruct l as [|a [|b t]]; destruct sample; try reflexivity; cbn [map] in *; rewrite C; cbn [length]; rewrite ?map_length; reflexivity.
Qed.
Definition enough (M : mat (option Qc)) : Prop := forall i j, 0 <= i < ncols M -> 0 <= j < ncols M -> complete_pairs M i j <> [].
Section NaN.
Variable M : mat (option Qc).
Variable adjust : bool.
Hypothesis OM : mat_ok M.
Hypothesis HR : 2 <= nrows M.
Hypothesis HE : enough M.
Lemma cov_nan_value i j : 0 <= i < ncols M -> 0 <= j < ncols M ->
  exists a b, covariance_column M i j adjust true = Ok (a, b, Z.of_nat (length (complete_pairs M i j)), covariance_spec adjust (complete_pairs M i j)).
Proof using OM HR HE.
  intros Hi Hj. destruct (covariance_column_ok M i j adjust true OM Hi Hj) as (a & b & n & v & E & _ & _ & _ & H). destruct (H HR eq_refl) as (-> & H1 & _).
  assert (N := HE i j Hi Hj). destruct H1 as (_ & _ & ->); [destruct (complete_pairs M i j); [contradiction|cbn [length]; lia]|]. eauto.
Qed.
Lemma var_nan_value i : 0 <= i < ncols M ->
  exists a, variance_column M i adjust true = Ok (a, Z.of_nat (length (complete_pairs M i i)), covariance_spec adjust (complete_pairs M i i)).
Proof using OM HR HE.
  intros Hi. destruct (variance_column_ok M i adjust true OM Hi) as (me & n & v & E & _ & _ & _ & H). destruct (H HR eq_refl) as (-> & H1 & _).
  assert (N := HE i i Hi Hi). rewrite complete_self in *. rewrite cov_self, map_length.
  destruct H1 as (-> & ->); [destruct (present (col_values M i)); [contradiction|cbn [length]; lia]|]. eauto.
Qed.
Lemma pearson_cov_nan_ok sR sC lower : (cols M * cols M <= length sR)%nat -> sym_length true (ncols M) <= Z.of_nat (length sC) ->
  exists S C, pearson_cov_nan M sR sC adjust lower = Ok (S, C) /\ length (data S) = length sR /\ length (sdata C) = length sC /\ srows C = cols M /\
    square_of (ncols M) lower (fun i j => covariance_spec adjust (complete_pairs M i j)) S /\
    forall i j, 0 <= i < ncols M -> 0 <= j < ncols M -> sym_get0 true C i j = Ok (Z.of_nat (length (complete_pairs M i j))).
Proof using OM HR HE.
  intros LR LC. unfold pearson_cov_nan. set (S := Mat (cols M) (cols M) sR).
  assert (NS : nrows S = ncols M /\ ncols S = ncols M) by (split; reflexivity). destruct NS as [NS1 NS2].
  edestruct (square_writes S (ncols M) lower (fun i j => covariance_spec adjust (complete_pairs M i j))) as (S' & ES & LS & SQ); [exact LR|auto|auto| | |rewrite ES; cbn [bind]].
  - intros p e H. apply in_flat_map in H. destruct H as (i & Hi & H). apply in_zrange in Hi. destruct H as [H|H].
    + injection H as <- <-. exists i, i. split; [split; lia|]. split; auto. destruct (var_nan_value i) as (a & ->); [lia|]. split; [reflexivity|left; lia].
    + unfold pair_writes in H. apply in_flat_map in H. destruct H as (j & Hj & H). apply in_zrange in Hj. destruct (Z.ltb_spec i j); [|destruct H].
      destruct (cov_nan_value i j) as (a & b & E); [lia|lia|]. destruct H as [H|H].
      * injection H as <- <-. exists i, j. split; [split; lia|]. split; auto. rewrite E. split; [reflexivity|left; lia].
      * destruct lower; [|destruct H]. destruct H as [H|[]]. injection H as <- <-. exists j, i. split; [split; lia|]. split; auto. rewrite E. split; auto. cbn [bind snd]. rewrite (complete_swap M i j), cov_swap. reflexivity.
  - intros i j (Hi & Hj) L. apply in_map_iff. destruct (Z.lt_trichotomy i j) as [T|[->|T]].
    + eexists. split; [|apply in_flat_map; exists i; split; [apply in_zrange; lia|right; apply in_flat_map; exists j; split; [apply in_zrange; lia|destruct (Z.ltb_spec i j); [left; reflexivity|lia]]]]. reflexivity.
    + eexists. split; [|apply in_flat_map; exists j; split; [apply in_zrange; lia|left; reflexivity]]. reflexivity.
    + destruct L as [L | ->]; [lia|]. eexists. split; [|apply in_flat_map; exists j; split; [apply in_zrange; lia|right; apply in_flat_map; exists i; split; [apply in_zrange; lia|destruct (Z.ltb_spec j i); [right; left; reflexivity|lia]]]]. reflexivity.
  - edestruct (sym_writes (dg := true) sC (cols M) (fun i j => Z.of_nat (length (complete_pairs M i j)))) as (d & ED & LD & V); [exact LC| | |unfold ncols in *; rewrite ED; cbn [bind]].
    + intros i j. rewrite (complete_swap M i j), map_length. auto.
    + intros p e H. apply in_flat_map in H. destruct H as (i & Hi & H). apply in_zrange in Hi. destruct H as [H|H].
      * injection H as <- <-. exists i, i. split; [repeat split; unfold ncols in *; auto; lia|]. split; auto. destruct (var_nan_value i) as (a & ->); [unfold ncols in *; lia|]. reflexivity.
      * apply in_flat_map in H. destruct H as (j & Hj & H). apply in_zrange in Hj. destruct (Z.ltb_spec i j); [|destruct H]. destruct H as [H|[]]. injection H as <- <-.
        exists i, j. split; [repeat split; unfold ncols in *; auto; lia|]. split; auto. destruct (cov_nan_value i j) as (a & b & ->); [unfold ncols in *; lia|unfold ncols in *; lia|]. reflexivity.
    + exists S', (Sym (cols M) d). split; auto. split; auto. split; auto. split; auto. split; auto. intros i j Hi Hj. apply V; [repeat split; auto; lia|].
      assert (Q : forall i j, 0 <= i < Z.of_nat (cols M) -> 0 <= j < Z.of_nat (cols M) -> i <= j -> In (sym_index true (Z.of_nat (cols M)) i j) (map fst (flat_map (fun i0 => (sym_index true (Z.of_nat (cols M)) i0 i0, do r <- variance_column M i0 adjust true; Ok (snd (fst r)))
         :: flat_map (fun j0 => if i0 <? j0 then [(sym_index true (Z.of_nat (cols M)) i0 j0, do r <- covariance_column M i0 j0 adjust true; Ok (snd (fst r)))] else []) (zrange 0 (Z.of_nat (cols M)))) (zrange 0 (Z.of_nat (cols M)))))).
      { intros a b Ha Hb L. apply in_map_iff. destruct (Z.eq_dec a b) as [->|T].
        - eexists. split; [|apply in_flat_map; exists b; split; [apply in_zrange; lia|left; reflexivity]]. reflexivity.
        - eexists. split; [|apply in_flat_map; exists a; split; [apply in_zrange; lia|right; apply in_flat_map; exists b; split; [apply in_zrange; lia|destruct (Z.ltb_spec a b); [left; reflexivity|lia]]]]. reflexivity. }
      destruct (Z.le_ge_cases i j); [apply Q; auto|]. rewrite sym_index_comm. apply Q; auto.
Qed.
End NaN.
