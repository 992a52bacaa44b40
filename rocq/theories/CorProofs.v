(** Proofs about CorModel. *)
From Verif Require Import CorModel CorSpec MatProofs MatProofs2 MatDotProofs MatProofs5 MatProofs6 DataProofs DataProofs2 DescProofs DescProofs2 HistProofs2 ColProofs ColProofs2 ColProofs3.
Local Open Scope Z_scope.

Section Gram.
Context {T : Type} (zero : T) (add mul : T -> T -> T).
(** All elements of C are given by g. *)
Definition gives (C : mat T) (g : Z -> Z -> T) : Prop := forall i j, inside C i j -> entry C i j = Some (g i j).
Definition inner (g : Z -> Z -> T) (n i j : Z) : T := fold_left add (map (fun k => mul (g k i) (g k j)) (upto n)) zero.
Lemma rmap_total {A B} (f : A -> res B) (h : A -> B) l : (forall x, In x l -> f x = Ok (h x)) -> rmap f l = Ok (map h l).
Proof using. induction l as [|a t IH]; intros H; [reflexivity|]. cbn [rmap map]. rewrite (H a) by (left; auto). cbn [bind]. rewrite IH by (intros; apply H; right; auto). reflexivity. Qed.
Lemma column_product_ok C g i j : mat_ok C -> gives C g -> 0 <= i < ncols C -> 0 <= j < ncols C -> column_product zero add mul C i j = Ok (inner g (nrows C) i j).
Proof using.
  intros W G Hi Hj. unfold column_product. rewrite (rmap_total _ (fun k => mul (g k i) (g k j))); [reflexivity|]. intros k Hk. apply in_zrange in Hk.
  destruct (get0_ok C k i W) as (u & E1 & E2); [split; lia|]. destruct (get0_ok C k j W) as (v & E3 & E4); [split; lia|]. unfold get0, pos in E2, E4.
  rewrite E2, E4. cbn [bind]. rewrite G in E1, E3 by (split; lia). injection E1 as ->. injection E3 as ->. reflexivity.
Qed.
Lemma gram_ok C S g (lower : bool) : mat_ok C -> mat_ok S -> gives C g -> 0 < nrows C -> 0 < ncols C -> rows S = cols C -> cols S = cols C ->
  exists S', gram zero add mul C S lower = Ok S' /\ becomes S (fun i j => if i <=? j then Some (inner g (nrows C) i j) else if lower then Some (inner g (nrows C) j i) else entry S i j) S'.
Proof using.
  intros WC WS G HR HC E1 E2. unfold gram, bad_ld. destruct (Z.ltb_spec (nrows C) (Z.max 1 (nrows C))); [lia|]. destruct (Z.ltb_spec (ncols C) (Z.max 1 (ncols C))); [lia|]. cbn [orb].
  assert (N1 : nrows S = ncols C) by (unfold nrows, ncols; congruence). assert (N2 : ncols S = ncols C) by (unfold ncols; congruence).
  edestruct (mwrites_ok (fun i j => if i <=? j then Some (inner g (nrows C) i j) else entry S i j)) with (M := S) as (S1 & ES1 & B1); auto;
    [| |rewrite ES1; cbn [bind]].
  - intros p e H1. apply in_map_iff in H1. destruct H1 as ((i, j) & E & H1). cbn [fst snd] in E. injection E as <- <-. apply filter_In in H1. destruct H1 as (H1 & Hn). cbn [fst snd] in Hn.
    apply cells_in in H1. exists i, j, (inner g (nrows C) i j). split; [split; lia|]. split; [unfold pos; rewrite N1; auto|]. split; [apply column_product_ok; auto; lia|]. rewrite Hn. auto.
  - intros i j (Hi & Hj). destruct (i <=? j) eqn:Hl; [left|right; auto]. apply in_map_iff. eexists.
    split; [|apply in_map_iff; exists (i, j); split; [reflexivity|apply filter_In; split; [apply cells_in; lia|cbn [fst snd]; auto]]]. cbn [fst snd]. unfold pos. rewrite N1. auto.
  - assert (W1 := becomes_ok _ _ _ WS B1). destruct (becomes_dims _ _ _ B1) as [D1 D2].
    destruct lower.
    + edestruct (mwrites_ok (fun i j => if i <=? j then Some (inner g (nrows C) i j) else Some (inner g (nrows C) j i))) with (M := S1) as (S2 & ES2 & B2); [exact W1| | |rewrite ES2].
      * intros p e H1. apply in_map_iff in H1. destruct H1 as ((i, j) & E & H1). cbn [fst snd] in E. injection E as <- <-. apply filter_In in H1. destruct H1 as (H1 & Hn). cbn [fst snd] in Hn.
        apply cells_in in H1. destruct (get0_ok S1 j i W1) as (v & E3 & E4); [split; lia|]. exists i, j, v. split; [split; lia|]. split; auto. split; auto.
        rewrite (bc_entry _ _ _ B1) in E3 by (split; lia). destruct (i <=? j) eqn:L1; [discriminate|]. destruct (j <=? i) eqn:L2; [auto|lia].
      * intros i j (Hi & Hj). destruct (i <=? j) eqn:Hl; [right|left].
        -- rewrite (bc_entry _ _ _ B1) by (split; lia). rewrite Hl. auto.
        -- apply in_map_iff. eexists. split; [|apply in_map_iff; exists (i, j); split; [reflexivity|apply filter_In; split; [apply cells_in; lia|cbn [fst snd]; rewrite Hl; auto]]]. reflexivity.
      * exists S2. split; auto. constructor.
        -- rewrite (bc_rows _ _ _ B2). apply B1.
        -- rewrite (bc_cols _ _ _ B2). apply B1.
        -- rewrite (bc_length _ _ _ B2). apply B1.
        -- intros i j (Hi & Hj). rewrite (bc_entry _ _ _ B2) by (split; lia). auto.
        -- intros k Hk. rewrite (bc_behind _ _ _ B2) by (rewrite (bc_rows _ _ _ B1), (bc_cols _ _ _ B1); auto). apply B1. auto.
    + exists S1. split; auto.
Qed.
Lemma map_in_ok (f : T -> T) S : mat_ok S -> exists S', map_in f S = Ok S' /\ becomes S (fun i j => match entry S i j with Some x => Some (f x) | None => None end) S'.
Proof using.
  intros W. unfold map_in. apply mwrites_ok; auto.
  - intros p e H. apply in_map_iff in H. destruct H as (k & E & Hk). injection E as <- <-. apply in_zrange in Hk. unfold mlength in Hk.
    assert (P : 0 < nrows S) by (assert (0 <= nrows S) by (unfold nrows; lia); assert (0 <= ncols S) by (unfold ncols; lia); destruct (Z.eq_dec (nrows S) 0) as [Z0|]; [rewrite Z0 in Hk|]; lia). assert (IN : inside S (k mod nrows S) (k / nrows S)).
    { split; [apply Z.mod_pos_bound; auto|]. split; [apply Z.div_pos; lia|]. apply Z.div_lt_upper_bound; lia. }
    assert (PK : k = pos S (k mod nrows S) (k / nrows S)) by (unfold pos; rewrite Z.add_comm; apply Z.div_mod; lia).
    destruct (get0_ok S _ _ W IN) as (v & E1 & E2). exists (k mod nrows S), (k / nrows S), (f v). split; auto. split; auto.
    unfold get0 in E2. rewrite <- PK in E2. rewrite E2. split; auto. rewrite E1. auto.
  - intros i j (Hi & Hj). left. apply in_map_iff. exists (pos S i j, do x <- rd (data S) (pos S i j); Ok (f x)). split; auto. apply in_map_iff. exists (pos S i j). split; auto.
    apply in_zrange. unfold pos, mlength. nia.
Qed.
Lemma columnwise_ok (M : mat (option Qc)) (f : Z -> option Qc -> res T) h : mat_ok M -> (forall j x, 0 <= j < ncols M -> f j x = Ok (h j x)) ->
  exists C, columnwise M f = Ok C /\ rows C = rows M /\ cols C = cols M /\ mat_ok C /\ gives C (fun i j => h j (opel M i j)).
Proof using.
  intros W F. unfold columnwise. set (L := list_prod _ _).
  assert (IL : forall j i, In (j, i) L -> 0 <= j < ncols M /\ 0 <= i < nrows M).
  { intros j i H. apply in_prod_iff in H. destruct H as [H1 H2]. apply in_zrange in H1, H2. lia. }
  rewrite (rmap_total _ (fun ji => h (fst ji) (opel M (snd ji) (fst ji)))).
  2:{ intros (j, i) H. apply IL in H. cbn [fst snd]. rewrite opel_rd by (auto; split; lia). cbn [bind]. apply F. lia. }
  cbn [bind]. eexists. split; [reflexivity|]. cbn [rows cols]. split; auto. split; auto.
  assert (LL : length (map (fun ji => h (fst ji) (opel M (snd ji) (fst ji))) L) = (rows M * cols M)%nat).
  { rewrite map_length. unfold L. rewrite prod_length, !zrange_length. unfold nrows, ncols. rewrite !Nat2Z.id. lia. }
  split; [unfold mat_ok; cbn [rows cols data]; rewrite LL; lia|]. intros i j (Hi & Hj). unfold nrows, ncols in Hi, Hj. cbn [rows cols] in Hi, Hj.
  unfold entry. rewrite (proj2 (inside_b _ i j)) by (split; unfold nrows, ncols; cbn [rows cols]; lia). cbn [data].
  rewrite nth_error_map. change (nrows (Mat (rows M) (cols M) _)) with (nrows M).
  assert (NE : nth_error L (Z.to_nat (j * nrows M + i)) = Some (j, i)); [|rewrite NE; reflexivity].
  unfold L. clear LL IL. replace (Z.to_nat (j * nrows M + i)) with (Z.to_nat j * length (zrange 0 (nrows M)) + Z.to_nat i)%nat.
  - rewrite list_prod_nth by (rewrite zrange_length; unfold nrows; lia). rewrite !zrange_nth by (unfold nrows, ncols; lia). repeat f_equal; lia.
  - rewrite zrange_length. unfold nrows. rewrite Nat2Z.id. apply Nat2Z.inj. rewrite Nat2Z.inj_add, Nat2Z.inj_mul, !Z2Nat.id by nia. auto.
Qed.
End Gram.

Lemma cov_sum M j k sample : 0 < nrows M ->
  nan_or_ratio (fsum (map (fun i => (opel M i j -f if_no_nan (col_values M j) mean_spec) *f (opel M i k -f if_no_nan (col_values M k) mean_spec)) (upto (nrows M)))) sample (nrows M) = cov_no_nan sample M j k.
Proof.
  intros HN. set (mj := if_no_nan (col_values M j) mean_spec). set (mk := if_no_nan (col_values M k) mean_spec).
  replace (map _ (upto (nrows M))) with (map (fun p => (fst p -f mj) *f (snd p -f mk)) (map (fun i => (opel M i j, opel M i k)) (upto (nrows M)))) by (rewrite map_map; reflexivity).
  set (l := map (fun i => (opel M i j, opel M i k)) (upto (nrows M))).
  assert (EP : pairs_of l = complete_pairs M j k) by apply pairs_of_columns.
  assert (EN : Z.of_nat (length l) = nrows M) by (unfold l; rewrite map_length, upto_length; unfold nrows; lia).
  assert (EF : map fst l = col_values M j) by apply col_fst. assert (ES : map snd l = col_values M k) by apply col_snd.
  unfold cov_no_nan. destruct (existsb is_nan (col_values M j) || existsb is_nan (col_values M k)) eqn:B.
  - assert (NL : l <> []).
    { intros E. rewrite E in EF, ES. cbn in EF, ES. rewrite <- EF, <- ES in B. discriminate. }
    rewrite fsum_nan; [reflexivity|]. unfold has_nan. destruct l as [|p t]; [contradiction|]. left. cbn beta.
    apply orb_true_iff in B. unfold mj, mk, if_no_nan. destruct B as [-> | ->].
    + destruct p as [[x|] y]; reflexivity.
    + destruct p as [x [y|]]; cbn [fst snd]; match goal with |- ?u *f _ = _ => destruct u; reflexivity end.
  - apply orb_false_iff in B. destruct B as [BJ BK]. unfold mj, mk, if_no_nan. rewrite BJ, BK. rewrite <- EF, <- ES in *.
    destruct (xs_full l BJ BK) as [EX EY]. rewrite <- EX, <- EY. rewrite <- EP. pose proof (pairs_full_len l BJ BK) as PL.
    rewrite (pairs_full l BJ BK) at 1. rewrite map_map. cbn [fst snd]. set (P := pairs_of l) in *.
    destruct P as [|p t] eqn:EPP.
    + cbn in PL. lia.
    + rewrite !mean_spec_ok by discriminate. rewrite cross_terms. fold (codev (p :: t)). rewrite <- EN, <- PL, cov_ratio by discriminate. reflexivity.
Qed.
Lemma pearson_cov_ok M sR sM work adjust lower : mat_ok M -> 0 < nrows M -> 0 < ncols M -> (cols M * cols M <= length sR)%nat -> (cols M <= length sM)%nat -> mlength M <= work ->
  exists S Me, pearson_cov M sR sM work adjust lower = Ok (S, Me) /\ length (data S) = length sR /\ square_of (ncols M) lower (cov_no_nan adjust M) S /\ rows Me = cols M /\ cols Me = 1%nat /\
    filled sM (data Me) 0 (ncols M) (fun j => Some (if_no_nan (col_values M j) mean_spec)).
Proof.
  intros W HR HC LR LM HW. unfold pearson_cov. destruct (Z.ltb_spec work (mlength M)); [lia|]. unfold columns_means.
  replace (mlength (Mat (cols M) 1 sM)) with (ncols M) by (unfold mlength, nrows, ncols; cbn [rows cols]; lia). rewrite Z.eqb_refl. cbn [negb].
  destruct (col_writes M W (Mat (cols M) 1 sM) (mean_of false)) as (Me & E & RM & CM & F); [unfold mat_ok; cbn [rows cols data]; lia|unfold mlength, nrows, ncols; cbn [rows cols]; lia|].
  rewrite E. cbn [bind]. clear E. cbn [rows cols data] in RM, CM, F.
  destruct F as [FL FV].
  destruct (columnwise_ok (T := option Qc) M (fun j x => do m <- rd (data Me) j; Ok (x -f m)) (fun j x => x -f if_no_nan (col_values M j) mean_spec) W) as (C & EC & RC & CC & WC & GC).
  { intros j x Hj. destruct (rd_ok (data Me) j) as (v & E1 & E2); [unfold ncols in Hj; lia|]. rewrite E2. cbn [bind]. rewrite FV in E1. rewrite Z2Nat.id in E1 by lia.
    destruct ((0 <=? j) && (j <? 0 + ncols M)) eqn:B; [|lia]. rewrite Z.sub_0_r, mean_all_spec in E1. injection E1 as <-. reflexivity. }
  rewrite EC. cbn [bind]. assert (NC : nrows C = nrows M /\ ncols C = ncols M) by (unfold nrows, ncols; rewrite RC, CC; auto). destruct NC as [NR NC].
  destruct (gram_ok (T := option Qc) (Some 0%Qc) fadd fmul C (Mat (cols M) (cols M) sR) (fun i j => opel M i j -f if_no_nan (col_values M j) mean_spec) lower WC) as (S1 & E1 & B1); [unfold mat_ok; cbn [rows cols data]; lia|exact GC|lia|lia|cbn; auto|cbn; auto|].
  rewrite E1. cbn [bind]. assert (W1 : mat_ok S1) by (eapply becomes_ok; [|exact B1]; unfold mat_ok; cbn [rows cols data]; lia).
  destruct (map_in_ok (T := option Qc) (fun x => x /f Some (qz (if adjust then nrows M - 1 else nrows M))) S1 W1) as (S2 & E2 & B2). rewrite E2. cbn [bind].
  destruct (becomes_dims _ _ _ B1) as [D1 D2]. destruct (becomes_dims _ _ _ B2) as [D3 D4]. unfold nrows at 2 in D1. unfold ncols at 2 in D2. cbn [rows cols] in D1, D2.
  exists S2, Me. split; auto. split; [rewrite (bc_length _ _ _ B2), (bc_length _ _ _ B1); auto|]. split; [|split; auto; split; auto; split; auto].
  - split; [unfold ncols; lia|]. split; [unfold ncols in *; lia|]. intros i j Hi Hj HL.
    assert (IN : inside S1 i j) by (split; unfold ncols in *; lia). rewrite (bc_entry _ _ _ B2) by auto.
    rewrite (bc_entry _ _ _ B1) by (split; unfold nrows, ncols in *; cbn [rows cols]; lia).
    assert (G : forall i j, inner (Some 0%Qc) fadd fmul (fun i j => opel M i j -f if_no_nan (col_values M j) mean_spec) (nrows C) i j /f Some (qz (if adjust then nrows M - 1 else nrows M)) = cov_no_nan adjust M i j).
    { intros a b. rewrite <- cov_sum by auto. rewrite NR. reflexivity. }
    destruct (Z.leb_spec i j); [rewrite G; auto|]. destruct lower; [|lia]. rewrite G, cov_no_nan_swap. auto.
  - intros k. rewrite FV. destruct ((0 <=? Z.of_nat k) && (Z.of_nat k <? 0 + ncols M)); auto. rewrite mean_all_spec. auto.
Qed.
