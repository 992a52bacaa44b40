From Verif Require Import SplitSpec SplitModel SortSpec SortProofs MatProofs MatProofs2 MatProofs3 MatProofs4 MatProofs5 MatProofs6 DataProofs DataProofs2 SplitProofs SplitProofs2.
From Coq Require Import Lia ZifyBool Qround.
Local Open Scope Z_scope.

(** The assignments of a list of (training rows, test rows). *)
Fixpoint AL (ii jj : Z) (ps : list (list Z * list Z)) : list (bool * Z * Z) :=
  match ps with
  | [] => []
  | (x, y) :: t => map (fun i => (true, ii + i, at_index x i)) (zrange 0 (Z.of_nat (length x))) ++
                   map (fun i => (false, jj + i, at_index y i)) (zrange 0 (Z.of_nat (length y))) ++
                   AL (ii + Z.of_nat (length x)) (jj + Z.of_nat (length y)) t
  end.
Lemma AL_in : forall ps ii jj (s : bool) i v, 0 <= ii -> 0 <= jj ->
  (In (s, i, v) (AL ii jj ps) <-> (if s then ii else jj) <= i /\ nth_error (concat (map (if s then fst else snd) ps)) (Z.to_nat (i - (if s then ii else jj))) = Some v).
Proof.
  induction ps as [|(x, y) t IH]; intros ii jj s i v Hii Hjj.
  - cbn. split; [tauto|]. intros (_ & H). destruct s; cbn in H; destruct (Z.to_nat _); discriminate.
  - cbn [AL]. rewrite !in_app_iff, IH by lia. rewrite !in_map_iff. destruct s; cbn [map concat fst snd].
    + split.
      * intros [(q & E & Hq)|[(q & E & _)|(H1 & H2)]]; [|discriminate|].
        -- injection E as <- <-. apply in_zrange in Hq. split; [lia|]. rewrite nth_error_app1 by lia. replace (Z.to_nat (ii + q - ii)) with (Z.to_nat q) by lia. apply at_index_nth. lia.
        -- split; [lia|]. rewrite nth_error_app2 by lia. rewrite <- H2. f_equal. lia.
      * intros (H1 & H2). destruct (Z_lt_dec (i - ii) (Z.of_nat (length x))) as [L|L].
        -- left. exists (i - ii). split; [|apply in_zrange; lia]. rewrite nth_error_app1 in H2 by lia. f_equal; [f_equal; lia|]. unfold at_index. apply nth_error_nth. auto.
        -- right. right. split; [lia|]. rewrite nth_error_app2 in H2 by lia. rewrite <- H2. f_equal. lia.
    + split.
      * intros [(q & E & _)|[(q & E & Hq)|(H1 & H2)]]; [discriminate| |].
        -- injection E as <- <-. apply in_zrange in Hq. split; [lia|]. rewrite nth_error_app1 by lia. replace (Z.to_nat (jj + q - jj)) with (Z.to_nat q) by lia. apply at_index_nth. lia.
        -- split; [lia|]. rewrite nth_error_app2 by lia. rewrite <- H2. f_equal. lia.
      * intros (H1 & H2). destruct (Z_lt_dec (i - jj) (Z.of_nat (length y))) as [L|L].
        -- right. left. exists (i - jj). split; [|apply in_zrange; lia]. rewrite nth_error_app1 in H2 by lia. f_equal; [f_equal; lia|]. unfold at_index. apply nth_error_nth. auto.
        -- right. right. split; [lia|]. rewrite nth_error_app2 in H2 by lia. rewrite <- H2. f_equal. lia.
Qed.
Lemma AL_assigns ps : assigns (AL 0 0 ps) (concat (map fst ps)) (concat (map snd ps)).
Proof.
  split.
  - intros s i v H. apply AL_in in H; try lia. destruct H as (H1 & H2). split; [destruct s; lia|]. rewrite <- H2. destruct s; cbn [map]; f_equal; lia.
  - intros s i v H. apply AL_in; try lia. split; [destruct s; lia|]. rewrite <- H. destruct s; f_equal; lia.
Qed.

Lemma at_map f l i : 0 <= i < Z.of_nat (length l) -> at_index (map f l) i = f (at_index l i).
Proof. intros H. unfold at_index. rewrite nth_indep with (d' := f (-1)) by (rewrite map_length; lia). apply map_nth. Qed.

(** The size of a class in the training sample. *)
Lemma half_up_nonneg q : (0 <= q)%Qc -> 0 <= half_up q.
Proof.
  intros H. unfold half_up. apply Z.le_trans with (Qfloor 0); [reflexivity|]. apply Qfloor_resp_le.
  assert (0 <= q + Q2Qc (1 # 2))%Qc. { apply (Qcle_trans _ q); auto. rewrite <- (Qcplus_0_r q) at 1. apply Qcplus_le_compat; [apply Qcle_refl|]. unfold Qcle. cbn. discriminate. }
  exact H0.
Qed.
Lemma qround_half_up q : (0 <= q)%Qc -> qround q = half_up q.
Proof. intros H. unfold qround, half_up. destruct (qltb_spec q 0) as [L|L]; auto. exfalso. apply (Qclt_not_le _ _ L H). Qed.
Lemma qz_nonneg m : 0 <= m -> (0 <= qz m)%Qc.
Proof. intros H. unfold Qcle. apply (Qle_trans _ (inject_Z m)); [unfold Qle; cbn; lia|]. unfold qz. cbn [this Q2Qc]. rewrite Qred_correct. apply Qle_refl. Qed.
Lemma share_fair ratio m : (0 <= ratio)%Qc -> 1 <= m -> share ratio m = fair_share ratio m.
Proof.
  intros Hr Hm. unfold share, fair_share.
  assert (NN : (0 <= ratio * qz m)%Qc). { replace 0%Qc with (0 * qz m)%Qc by ring. apply Qcmult_le_compat_r; auto. apply qz_nonneg. lia. }
  rewrite qround_half_up by auto. pose proof (half_up_nonneg _ NN). cbv zeta.
  destruct (m <=? half_up (ratio * qz m)%Qc) eqn:E1; [destruct (m - 1 =? 0) eqn:E2|destruct (half_up (ratio * qz m)%Qc =? 0) eqn:E2]; lia.
Qed.
Lemma fair_share_range ratio m : 1 <= m -> 1 <= fair_share ratio m <= m /\ (2 <= m -> fair_share ratio m < m).
Proof. unfold fair_share. lia. Qed.

Section Loop.
Variable M : mat Qc.
Hypothesis W : mat_ok M.
Hypothesis HC : 0 < ncols M.
Variable k : nat.
Variable ratio : Qc.
Variable fs : Z.
Variable st : ds_state.
Hypothesis G : ds_good M k ratio fs st.
Hypothesis Hr : (0 <= ratio)%Qc.
Variable perm : nat -> list Z.
Notation n0 := (d_n0 st).
Notation n1 := (d_n1 st).
Notation m_ a := (class_count (Z.of_nat a) M).
Notation rowi a := (of_class M (Z.of_nat a)).
Definition src (b a : nat) : list Z := map (at_index (rowi a)) (perm b).
Definition m0_ (b a : nat) (sum : Z) : Z := if (b =? k - 1)%nat then n0 - sum else fair_share ratio (m_ a).
Fixpoint parts (order : list nat) (b : nat) (sum : Z) : list (list Z * list Z) :=
  match order with
  | [] => []
  | a :: t => let m0 := m0_ b a sum in (firstn (Z.to_nat m0) (src b a), skipn (Z.to_nat m0) (src b a)) :: parts t (S b) (sum + m0)
  end.
(** Every shuffle is a permutation of the positions of its class. *)
Fixpoint perms_ok (order : list nat) (b : nat) : Prop :=
  match order with [] => True | a :: t => Permutation (perm b) (zrange 0 (m_ a)) /\ perms_ok t (S b) end.
(** The last class has enough rows. *)
Fixpoint fits (order : list nat) (b : nat) (sum : Z) : Prop :=
  match order with
  | [] => True
  | a :: t => (b = (k - 1)%nat -> 0 < n0 - sum <= m_ a) /\ fits t (S b) (sum + m0_ b a sum)
  end.

Lemma len_counts : length (d_counts st) = k.
Proof. rewrite (g_counts _ _ _ _ _ G), map_length, upto_length. lia. Qed.
Lemma counts_at a : (a < k)%nat -> vat (d_counts st) (Z.of_nat a) = Ok (m_ a) /\ vat (d_rows st) (Z.of_nat a) = Ok (rowi a).
Proof.
  intros Ha. rewrite (g_counts _ _ _ _ _ G), (g_rows _ _ _ _ _ G). split.
  - rewrite (vat_in _ _ 0) by (rewrite map_length, upto_length; lia). rewrite upto_map_nth by lia. auto.
  - rewrite (vat_in _ _ []) by (rewrite map_length, upto_length; lia). rewrite upto_map_nth by lia. auto.
Qed.
Lemma m_pos a : (a < k)%nat -> 1 <= m_ a.
Proof. intros Ha. pose proof (g_all _ _ _ _ _ G (Z.of_nat a) ltac:(lia)). lia. Qed.
Lemma m_len a : m_ a = Z.of_nat (length (rowi a)).
Proof. apply (class_count_of M W HC). Qed.
Lemma src_len b a : Permutation (perm b) (zrange 0 (m_ a)) -> Z.of_nat (length (src b a)) = m_ a.
Proof. intros P. unfold src. rewrite map_length, (Permutation_length P), zrange_length, m_len. lia. Qed.
Lemma src_perm b a : Permutation (perm b) (zrange 0 (m_ a)) -> Permutation (src b a) (rowi a).
Proof.
  intros P. unfold src. rewrite P. rewrite m_len. replace (map (at_index (rowi a)) (zrange 0 (Z.of_nat (length (rowi a))))) with (rowi a); auto.
  apply list_ext_nth_error. intros q. rewrite nth_error_map. destruct (nth_error (rowi a) q) as [v|] eqn:E.
  - assert (q < length (rowi a))%nat by (apply nth_error_Some; congruence). rewrite zrange_nth by lia. cbn [option_map]. unfold at_index. rewrite Z.add_0_l, Nat2Z.id. rewrite (nth_error_nth _ _ _ E). auto.
  - apply nth_error_None in E. rewrite (proj2 (nth_error_None _ _)); auto. rewrite zrange_length. lia.
Qed.
Lemma src_at b a i : Permutation (perm b) (zrange 0 (m_ a)) -> 0 <= i < m_ a ->
  (do x <- rd (perm b) i; vat (rowi a) x) = Ok (at_index (src b a) i).
Proof.
  intros P Hi. assert (L : Z.of_nat (length (perm b)) = m_ a) by (rewrite (Permutation_length P), zrange_length; lia).
  rewrite rd_at by lia. cbn [bind]. assert (B : 0 <= at_index (perm b) i < m_ a). { apply (perm_in_range _ _ P). unfold at_index. apply nth_In. lia. }
  rewrite (vat_in _ _ (-1)) by (rewrite <- m_len; auto). unfold src. rewrite at_map by lia. reflexivity.
Qed.
Lemma writes_put off r base (sl : list Z) (f : Z -> res Z) n : (forall i, 0 <= i < n -> f i = Ok (at_index sl i)) ->
  flat_map (fun i => put_row M off r (base + i) (f i)) (zrange 0 n) = flat_map (fun i => put_row M off r (base + i) (Ok (at_index sl i))) (zrange 0 n).
Proof. intros H. apply flat_map_ext_in. intros x Hx. apply in_zrange in Hx. rewrite H by lia. auto. Qed.

(** As long as no size check fails, the loop performs the assignments of [parts]. *)
Lemma loop_ok : forall order b sum ii jj d, (b + length order = k)%nat -> Forall (fun a => (a < k)%nat) order ->
  perms_ok order b -> fits order b sum ->
  ds_loop M st perm order b sum ii jj d = writes (expand M n0 n1 (AL ii jj (parts order b sum))) d.
Proof.
  induction order as [|a t IH]; intros b sum ii jj d Hb F P Fi; [reflexivity|].
  apply Forall_cons_iff in F. destruct F as (Ha & F). cbn [perms_ok fits] in P, Fi. destruct P as (Pa & P). destruct Fi as (Fa & Fi).
  cbn [ds_loop parts]. destruct (counts_at a Ha) as (E1 & E2). rewrite E1, E2. cbn [bind]. rewrite len_counts.
  set (m0 := m0_ b a sum) in *. pose proof (m_pos a Ha) as Hm.
  assert (RM : 1 <= m0 <= m_ a). { unfold m0, m0_. destruct (b =? k - 1)%nat eqn:E; [specialize (Fa ltac:(lia)); lia|]. apply fair_share_range. auto. }
  assert (E0 : (if (b =? k - 1)%nat then if n0 - sum <=? 0 then Throw else if m_ a <? n0 - sum then Throw else Ok (n0 - sum) else Ok (share (d_ratio st) (m_ a))) = Ok m0).
  { unfold m0, m0_ in *. destruct (b =? k - 1)%nat eqn:E.
    - cbv zeta. replace (n0 - sum <=? 0) with false by lia. replace (m_ a <? n0 - sum) with false by lia. auto.
    - rewrite (g_ratio _ _ _ _ _ G), share_fair by auto. auto. }
  rewrite E0. cbn [bind]. set (x := firstn (Z.to_nat m0) (src b a)). set (y := skipn (Z.to_nat m0) (src b a)).
  pose proof (src_len b a Pa) as SL. assert (Lx : Z.of_nat (length x) = m0) by (unfold x; rewrite firstn_length; lia). assert (Ly : Z.of_nat (length y) = m_ a - m0) by (unfold y; rewrite skipn_length; lia).
  rewrite (writes_put 0 n0 ii x) by (intros i Hi; rewrite src_at by (auto; lia); f_equal; unfold at_index, x; rewrite <- (firstn_skipn (Z.to_nat m0) (src b a)) at 1; rewrite app_nth1; [auto|]; fold x; lia).
  rewrite (writes_put (n0 * ncols M) n1 jj y) by (intros i Hi; rewrite src_at by (auto; lia); f_equal; unfold at_index, y; rewrite <- (firstn_skipn (Z.to_nat m0) (src b a)) at 1; rewrite app_nth2; [|fold x; lia]; fold x; f_equal; lia).
  cbn [AL]. unfold expand. rewrite !flat_map_app, !flat_map_map, !writes_app. rewrite Lx, Ly. cbv iota beta.
  destruct (writes (flat_map (fun i => put_row M 0 n0 (ii + i) (Ok (at_index x i))) (zrange 0 m0)) d) as [d1| |]; cbn [bind]; auto.
  rewrite writes_app.
  destruct (writes (flat_map (fun i => put_row M (n0 * ncols M) n1 (jj + i) (Ok (at_index y i))) (zrange 0 (m_ a - m0))) d1) as [d2| |]; cbn [bind]; auto.
  apply IH; auto. cbn [length] in Hb. lia.
Qed.

(** A successful shuffle has passed the checks. *)
Lemma loop_fits : forall order b sum ii jj d d', (b + length order = k)%nat -> Forall (fun a => (a < k)%nat) order ->
  ds_loop M st perm order b sum ii jj d = Ok d' -> fits order b sum.
Proof.
  induction order as [|a t IH]; intros b sum ii jj d d' Hb F E; [exact I|].
  apply Forall_cons_iff in F. destruct F as (Ha & F). cbn [ds_loop] in E. destruct (counts_at a Ha) as (E1 & E2). rewrite E1, E2 in E. cbn [bind] in E. rewrite len_counts in E.
  cbn [fits]. unfold m0_. destruct (b =? k - 1)%nat eqn:Eb.
  - cbv zeta in E. destruct (n0 - sum <=? 0) eqn:X1; [discriminate|]. destruct (m_ a <? n0 - sum) eqn:X2; [discriminate|]. split; [lia|].
    assert (t = []) as -> by (destruct t; auto; cbn [length] in Hb; lia). exact I.
  - split; [lia|]. cbn [bind] in E. rewrite (g_ratio _ _ _ _ _ G), share_fair in E by (auto; apply m_pos; auto).
    destruct (writes _ d) as [d1| |]; cbn [bind] in E; try discriminate. destruct (writes _ d1) as [d2| |]; cbn [bind] in E; try discriminate.
    eapply IH; eauto. cbn [length] in Hb. lia.
Qed.
End Loop.
