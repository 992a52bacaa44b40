From Verif Require Import SplitSpec SplitModel SortSpec SortProofs MatProofs MatProofs2 MatProofs3 MatProofs4 MatProofs5 MatProofs6 DataProofs DataProofs2 SplitProofs SplitProofs2 SplitProofs3.
From Coq Require Import Lia ZifyBool.
Local Open Scope Z_scope.

Lemma zsum_app a b : zsum (a ++ b) = zsum a + zsum b.
Proof. unfold zsum. induction a; cbn [app fold_right]; lia. Qed.
Lemma zsum_perm a b : Permutation a b -> zsum a = zsum b.
Proof. unfold zsum. induction 1; cbn [fold_right]; lia. Qed.
Lemma filter_none {A} (p : A -> bool) l : (forall x, In x l -> p x = false) -> filter p l = [].
Proof. induction l; intros H; cbn; auto. rewrite (H a (or_introl eq_refl)). apply IHl. intros x Hx. apply H. right. auto. Qed.
Lemma filter_all {A} (p : A -> bool) l : (forall x, In x l -> p x = true) -> filter p l = l.
Proof. induction l; intros H; cbn; auto. rewrite (H a (or_introl eq_refl)). f_equal. apply IHl. intros x Hx. apply H. right. auto. Qed.
Lemma count_perm {A} (p : A -> bool) a b : Permutation a b -> length (filter p a) = length (filter p b).
Proof. induction 1; cbn; auto; [destruct (p x)|destruct (p x), (p y)|]; cbn; lia. Qed.
Lemma flat_map_perm {A B} (f : A -> list B) a b : Permutation a b -> Permutation (flat_map f a) (flat_map f b).
Proof. induction 1; cbn; auto; [apply Permutation_app_head; auto|rewrite !app_assoc; apply Permutation_app_tail, Permutation_app_comm|eapply perm_trans; eauto]. Qed.
Lemma writes_ub {A} : forall l (d : list A), (forall p e, In (p, e) l -> exists v, e = Ok v) -> (exists p e, In (p, e) l /\ ~ 0 <= p < Z.of_nat (length d)) -> writes l d = UB.
Proof.
  induction l as [|[p e] l IH]; intros d H (q & f & Hin & Hout); [destruct Hin|]. destruct (H p e (or_introl eq_refl)) as (v & ->). cbn [writes bind].
  destruct (Z_le_dec 0 p) as [H1|H1]; [destruct (Z_lt_dec p (Z.of_nat (length d))) as [H2|H2]|]; [|rewrite wr_out by lia; auto|rewrite wr_out by lia; auto].
  rewrite wr_ok by lia. cbn [bind]. apply IH; [intros; eapply H; right; eauto|]. rewrite upd_length. destruct Hin as [E|Hin]; [injection E as <- <-; lia|]. eauto.
Qed.
(** Each row belongs to one class. *)
Lemma classes_cover {A} (f : A -> nat) k : forall l, Forall (fun v => (f v < k)%nat) l -> Permutation (flat_map (fun a => filter (fun v => Nat.eqb a (f v)) l) (seq 0 k)) l.
Proof.
  induction 1 as [|v l Hv F IH]. { induction (seq 0 k); cbn; auto. }
  assert (E : forall s, NoDup s -> Permutation (flat_map (fun a => filter (fun v => Nat.eqb a (f v)) (v :: l)) s)
     ((if existsb (Nat.eqb (f v)) s then [v] else []) ++ flat_map (fun a => filter (fun v => Nat.eqb a (f v)) l) s)).
  { induction s as [|a s IHs]; intros ND; [reflexivity|]. apply NoDup_cons_iff in ND. destruct ND as (Na & ND). specialize (IHs ND). cbn [flat_map existsb]. rewrite IHs. cbn [filter]. rewrite (Nat.eqb_sym a (f v)).
    destruct (Nat.eqb (f v) a) eqn:Ea.
    - replace (existsb (Nat.eqb (f v)) s) with false; [reflexivity|]. symmetry. apply not_true_iff_false. intros H. apply existsb_exists in H. destruct H as (z & Hz & Ez). apply Na. replace a with z by lia. auto.
    - cbn [orb]. destruct (existsb (Nat.eqb (f v)) s); cbn [app]; [|reflexivity]. symmetry. apply Permutation_middle. }
  rewrite E by apply seq_NoDup. replace (existsb (Nat.eqb (f v)) (seq 0 k)) with true; [cbn [app]; constructor; exact IH|].
  symmetry. apply existsb_exists. exists (f v). split; [apply in_seq; lia|lia].
Qed.

Section Fin.
Variable M : mat Qc.
Hypothesis W : mat_ok M.
Hypothesis HC : 0 < ncols M.
Variable k : nat.
Variable ratio : Qc.
Variable fs : Z.
Variable st : ds_state.
Hypothesis G : ds_good M k ratio fs st.
Hypothesis Hr : (0 <= ratio)%Qc.
Variable perm : nat -> list Z.
Notation n0 := (d_n0 st).
Notation n1 := (d_n1 st).
Notation m_ a := (class_count (Z.of_nat a) M).
Notation rowi a := (of_class M (Z.of_nat a)).
Notation parts := (parts M k ratio st perm).
Notation fits := (fits M k ratio st).
Notation perms_ok := (perms_ok M perm).
Notation fair a := (fair_share ratio (m_ a)).

Lemma rowi_class a v : In v (rowi a) -> cls M v = Z.of_nat a /\ 0 <= v < nrows M.
Proof. unfold of_class. intros H. apply filter_In in H. destruct H as (H1 & H2). apply in_zrange in H1. lia. Qed.
Lemma parts_class : forall order b sum, perms_ok order b -> forall v, (In v (concat (map fst (parts order b sum))) \/ In v (concat (map snd (parts order b sum)))) ->
  exists a, In a order /\ cls M v = Z.of_nat a.
Proof.
  induction order as [|a t IH]; intros b sum P v H; [destruct H as [[]|[]]|]. cbn [SplitProofs3.perms_ok] in P. destruct P as (Pa & P). cbn [SplitProofs3.parts map concat fst snd] in H. rewrite !in_app_iff in H.
  assert (HS : In v (src M perm b a) -> exists a0, In a0 (a :: t) /\ cls M v = Z.of_nat a0).
  { intros Hs. apply (Permutation_in _ (src_perm M W HC perm b a Pa)) in Hs. exists a. split; [left; auto|]. apply (rowi_class a v Hs). }
  assert (HT : forall s, (In v (concat (map fst (parts t (S b) s))) \/ In v (concat (map snd (parts t (S b) s)))) -> exists a0, In a0 (a :: t) /\ cls M v = Z.of_nat a0).
  { intros s Hs. destruct (IH (S b) s P v Hs) as (x & Hx & Ex). exists x. split; [right|]; auto. }
  destruct H as [[H|H]|[H|H]]; [apply HS; rewrite <- (firstn_skipn (Z.to_nat (m0_ M k ratio st b a sum))); apply in_or_app; auto|eauto|
    apply HS; rewrite <- (firstn_skipn (Z.to_nat (m0_ M k ratio st b a sum))); apply in_or_app; auto|eauto].
Qed.
Lemma parts_perm : forall order b sum, perms_ok order b ->
  Permutation (concat (map fst (parts order b sum)) ++ concat (map snd (parts order b sum))) (flat_map (fun a => rowi a) order).
Proof.
  induction order as [|a t IH]; intros b sum P; [constructor|]. cbn [SplitProofs3.perms_ok] in P. destruct P as (Pa & P). cbn [SplitProofs3.parts map concat fst snd flat_map].
  rewrite <- (src_perm M W HC perm b a Pa). rewrite <- (IH (S b) (sum + m0_ M k ratio st b a sum) P).
  rewrite <- (firstn_skipn (Z.to_nat (m0_ M k ratio st b a sum)) (src M perm b a)) at 3. rewrite <- !app_assoc. apply Permutation_app_head.
  rewrite !app_assoc. apply Permutation_app_tail. apply Permutation_app_comm.
Qed.
Lemma rest_shares : forall order b sum, (b + length order <= k - 1)%nat -> Forall (fun a => (a < k)%nat) order -> perms_ok order b ->
  Z.of_nat (length (concat (map fst (parts order b sum)))) = zsum (map (fun a => fair a) order) /\
  Z.of_nat (length (concat (map snd (parts order b sum)))) = zsum (map (fun a => m_ a - fair a) order).
Proof.
  induction order as [|a t IH]; intros b sum Hb F P; [split; reflexivity|]. apply Forall_cons_iff in F. destruct F as (Ha & F). cbn [SplitProofs3.perms_ok] in P. destruct P as (Pa & P). cbn [length] in Hb.
  cbn [SplitProofs3.parts map concat fst snd zsum fold_right]. destruct (IH (S b) (sum + m0_ M k ratio st b a sum) ltac:(lia) F P) as (I1 & I2). rewrite !app_length, !Nat2Z.inj_add, I1, I2. fold (zsum (map (fun a => fair a) t)) (zsum (map (fun a => m_ a - fair a) t)).
  pose proof (m_pos M k ratio fs st G a Ha). pose proof (fair_share_range ratio (m_ a) ltac:(lia)). pose proof (src_len M W HC perm b a Pa).
  rewrite firstn_length, skipn_length. unfold m0_. replace (b =? k - 1)%nat with false by lia. split; lia.
Qed.
(** The loop over the classes but the last. *)
Lemma loop_prefix : forall pre rest b sum ii jj d, (b + length pre <= k - 1)%nat -> Forall (fun a => (a < k)%nat) pre -> perms_ok pre b ->
  ds_loop M st perm (pre ++ rest) b sum ii jj d =
  bind (writes (expand M n0 n1 (AL ii jj (parts pre b sum))) d)
    (ds_loop M st perm rest (b + length pre) (sum + zsum (map (fun a => fair a) pre)) (ii + zsum (map (fun a => fair a) pre)) (jj + zsum (map (fun a => m_ a - fair a) pre))).
Proof.
  induction pre as [|a t IH]; intros rest b sum ii jj d Hb F P.
  - cbn [app length SplitProofs3.parts AL expand flat_map writes bind map zsum fold_right]. rewrite !Z.add_0_r, Nat.add_0_r. auto.
  - apply Forall_cons_iff in F. destruct F as (Ha & F). cbn [SplitProofs3.perms_ok] in P. destruct P as (Pa & P). cbn [length] in Hb.
    cbn [app]. cbn [ds_loop SplitProofs3.parts]. destruct (counts_at M k ratio fs st G a Ha) as (E1 & E2). rewrite E1, E2. cbn [bind]. rewrite (len_counts M k ratio fs st G).
    replace (b =? k - 1)%nat with false by lia. cbn [bind]. pose proof (m_pos M k ratio fs st G a Ha) as Hm. rewrite (g_ratio _ _ _ _ _ G), share_fair by auto.
    unfold m0_. replace (b =? k - 1)%nat with false by lia. set (m0 := fair a) in *. assert (RM : 1 <= m0 <= m_ a) by (apply fair_share_range; auto).
    set (x := firstn (Z.to_nat m0) (src M perm b a)). set (y := skipn (Z.to_nat m0) (src M perm b a)).
    pose proof (src_len M W HC perm b a Pa) as SL. assert (Lx : Z.of_nat (length x) = m0) by (unfold x; rewrite firstn_length; lia). assert (Ly : Z.of_nat (length y) = m_ a - m0) by (unfold y; rewrite skipn_length; lia).
    rewrite (writes_put M 0 n0 ii x) by (intros i Hi; rewrite src_at by (auto; lia); f_equal; unfold at_index, x; rewrite <- (firstn_skipn (Z.to_nat m0) (src M perm b a)) at 1; rewrite app_nth1; [auto|]; fold x; lia).
    rewrite (writes_put M (n0 * ncols M) n1 jj y) by (intros i Hi; rewrite src_at by (auto; lia); f_equal; unfold at_index, y; rewrite <- (firstn_skipn (Z.to_nat m0) (src M perm b a)) at 1; rewrite app_nth2; [|fold x; lia]; fold x; f_equal; lia).
    cbn [AL]. unfold expand. rewrite !flat_map_app, !flat_map_map, !writes_app. rewrite Lx, Ly. cbv iota beta.
    destruct (writes (flat_map (fun i => put_row M 0 n0 (ii + i) (Ok (at_index x i))) (zrange 0 m0)) d) as [d1| |]; cbn [bind]; auto.
    rewrite writes_app.
    destruct (writes (flat_map (fun i => put_row M (n0 * ncols M) n1 (jj + i) (Ok (at_index y i))) (zrange 0 (m_ a - m0))) d1) as [d2| |]; cbn [bind]; auto.
    rewrite IH by (auto; lia). unfold expand. destruct (writes _ d2) as [d3| |]; cbn [bind]; auto. cbn [map zsum fold_right length]. fold (zsum (map (fun a => fair a) t)) (zsum (map (fun a => m_ a - fair a) t)). fold m0. f_equal; lia.
Qed.
Lemma fits_split : forall pre big b sum, (b + length pre = k - 1)%nat -> (0 < k)%nat ->
  (fits (pre ++ [big]) b sum <-> 0 < n0 - (sum + zsum (map (fun a => fair a) pre)) <= m_ big).
Proof.
  induction pre as [|a t IH]; intros big b sum Hb Hk; cbn [app SplitProofs3.fits length map zsum fold_right] in *.
  - rewrite Z.add_0_r. split; [intros (H & _); apply H; lia|]. intros H. split; auto.
  - rewrite IH by lia. fold (zsum (map (fun a => fair a) t)). unfold m0_. replace (b =? k - 1)%nat with false by lia. split; [intros (_ & H); lia|]. intros H. split; [lia|]. lia.
Qed.
Lemma parts_len : forall pre big b sum, (b + length pre = k - 1)%nat -> (0 < k)%nat -> Forall (fun a => (a < k)%nat) (pre ++ [big]) -> perms_ok (pre ++ [big]) b -> fits (pre ++ [big]) b sum ->
  Z.of_nat (length (concat (map fst (parts (pre ++ [big]) b sum)))) = n0 - sum.
Proof.
  induction pre as [|a t IH]; intros big b sum Hb Hk F P Fi; cbn [app length] in *; apply Forall_cons_iff in F; destruct F as (Ha & F); cbn [SplitProofs3.perms_ok SplitProofs3.fits] in P, Fi; destruct P as (Pa & P); destruct Fi as (Fa & Fi);
    cbn [SplitProofs3.parts map concat fst]; rewrite app_length, Nat2Z.inj_add, firstn_length; pose proof (src_len M W HC perm b _ Pa).
  - cbn. unfold m0_. replace (b =? k - 1)%nat with true by lia. specialize (Fa ltac:(lia)). lia.
  - rewrite (IH big (S b)) by (auto; lia). unfold m0_. replace (b =? k - 1)%nat with false by lia. pose proof (m_pos M k ratio fs st G a Ha). pose proof (fair_share_range ratio (m_ a) ltac:(lia)). lia.
Qed.
(** Training rows of a class that is not the last one. *)
Lemma parts_count : forall pre big b sum a, (b + length pre = k - 1)%nat -> (0 < k)%nat -> Forall (fun a => (a < k)%nat) (pre ++ [big]) -> NoDup (pre ++ [big]) -> perms_ok (pre ++ [big]) b -> In a pre ->
  Z.of_nat (length (filter (fun v => Z.of_nat a =? cls M v) (concat (map fst (parts (pre ++ [big]) b sum))))) = fair a.
Proof.
  induction pre as [|x t IH]; intros big b sum a Hb Hk F ND P Hin; [destruct Hin|]. cbn [app length] in *. apply Forall_cons_iff in F; destruct F as (Hx & F). apply NoDup_cons_iff in ND. destruct ND as (Nx & ND).
  cbn [SplitProofs3.perms_ok] in P; destruct P as (Px & P). cbn [SplitProofs3.parts map concat fst]. rewrite filter_app, app_length, Nat2Z.inj_add.
  assert (SC : forall v n, In v (firstn n (src M perm b x)) -> cls M v = Z.of_nat x).
  { intros v n Hv. assert (Hs : In v (src M perm b x)) by (rewrite <- (firstn_skipn n); apply in_or_app; auto). apply (Permutation_in _ (src_perm M W HC perm b x Px)) in Hs. apply (rowi_class x v Hs). }
  destruct (Nat.eq_dec a x) as [-> |Ne].
  - rewrite filter_all by (intros v Hv; rewrite (SC v _ Hv); lia). rewrite filter_none.
    + cbn [length]. rewrite firstn_length. pose proof (src_len M W HC perm b x Px). unfold m0_. replace (b =? k - 1)%nat with false by lia. pose proof (m_pos M k ratio fs st G x Hx). pose proof (fair_share_range ratio (m_ x) ltac:(lia)). lia.
    + intros v Hv. destruct (parts_class _ _ _ P v (or_introl Hv)) as (y & Hy & Ey). assert (y <> x) by (intros ->; auto). lia.
  - rewrite filter_none by (intros v Hv; rewrite (SC v _ Hv); lia). cbn [length]. destruct Hin as [->|Hin]; [congruence|]. rewrite (IH big (S b)); auto; lia.
Qed.
End Fin.
