From Verif Require Import Num MomentsModel MomentsSpec MomentsProofs MomentsProofs2 SummaryModel SummarySpec.
Local Open Scope Qc_scope.

Lemma Qc_le_not_lt a b : a <= b -> ~ b < a.
Proof. intros H1 H2. apply (Qcle_not_lt _ _ H1 H2). Qed.
Lemma Qc_not_lt_le a b : ~ a < b -> b <= a.
Proof. intros H. destruct (Qclt_le_dec a b); tauto. Qed.

(** ** Generic insertion by a lexicographic rank *)
Section Ins.
  Context {A : Type} (lt : A -> A -> bool).
  Definition isort (h : list A) : list A := fold_left (fun l x => mset_insert lt x l) h [].

  Lemma ins_perm x l : Permutation (x :: l) (mset_insert lt x l).
  Proof.
    induction l as [|y l IH]; simpl; auto. destruct (lt x y); auto.
    etransitivity; [apply perm_swap|]. constructor; auto.
  Qed.

  Lemma isort_perm h : Permutation h (isort h).
  Proof.
    unfold isort. assert (G : forall h a, Permutation (a ++ h) (fold_left (fun l x => mset_insert lt x l) h a)).
    { clear. induction h as [|x h IH]; intros a; simpl; [rewrite app_nil_r; auto|].
      etransitivity; [|apply IH]. etransitivity; [symmetry; apply Permutation_middle|].
      change (x :: a ++ h) with ((x :: a) ++ h). apply Permutation_app_tail, ins_perm. }
    apply (G h []).
  Qed.

  Lemma ins_length x l : length (mset_insert lt x l) = S (length l).
  Proof. rewrite <- (Permutation_length (ins_perm x l)). reflexivity. Qed.

  Lemma firstn_ins K x : forall l, firstn K (mset_insert lt x (firstn K l)) = firstn K (mset_insert lt x l).
  Proof.
    induction K as [|K IH]; intros l; [reflexivity|]. destruct l as [|y l]; simpl; auto.
    destruct (lt x y); simpl.
    - f_equal. change (y :: firstn K l) with (firstn (S K) (y :: l)). rewrite firstn_firstn. f_equal. lia.
    - f_equal. apply IH.
  Qed.
End Ins.

Lemma removelast_firstn_eq {A} (l : list A) n : length l = S n -> removelast l = firstn n l.
Proof. intros H. rewrite removelast_firstn_len, H. reflexivity. Qed.

Lemma push_best_eq pos K b e : (0 < K)%Z -> (length b <= Z.to_nat K)%nat ->
  push_best pos K b e = firstn (Z.to_nat K) (mset_insert (better pos) e b).
Proof.
  intros HK Hb. unfold push_best. destruct (Z.eqb_spec K 0); [lia|].
  pose proof (ins_length (better pos) e b) as HL.
  destruct (Z.ltb_spec K (Z.of_nat (length (mset_insert (better pos) e b)))).
  - rewrite removelast_firstn_eq with (n := Z.to_nat K) by lia. reflexivity.
  - rewrite firstn_all2; auto. lia.
Qed.

Lemma bests_eq pos K h : (0 < K)%Z -> bests_of pos K h = firstn (Z.to_nat K) (isort (better pos) h).
Proof.
  intros HK. unfold bests_of, isort.
  assert (G : forall h a, fold_left (push_best pos K) h (firstn (Z.to_nat K) a)
     = firstn (Z.to_nat K) (fold_left (fun l x => mset_insert (better pos) x l) h a)).
  { clear - HK. induction h as [|e h IH]; intros a; simpl; auto.
    rewrite push_best_eq by (auto; rewrite firstn_length; lia).
    rewrite firstn_ins. apply IH. }
  specialize (G h []). rewrite firstn_nil in G. exact G.
Qed.

(** ** Tagged insertion *)
Definition tlt (pos : bool) (a b : nat * keep) : bool := better pos (snd a) (snd b).

Lemma ins_tagged pos x l : map snd (mset_insert (tlt pos) x l) = mset_insert (better pos) (snd x) (map snd l).
Proof.
  induction l as [|y l IH]; simpl; auto. unfold tlt at 1. destruct (better pos (snd x) (snd y)); simpl; congruence.
Qed.

Lemma better_lt pos a b : better pos a b = true <->
  (if pos then k_metric b < k_metric a else k_metric a < k_metric b).
Proof. unfold better. destruct pos; apply qltb_lt. Qed.

Lemma rb_trans pos a b c : ranks_before pos a b -> ranks_before pos b c -> ranks_before pos a c.
Proof.
  unfold ranks_before. intros [H1|[H1 H1']] [H2|[H2 H2']].
  - left. destruct pos; eapply Qclt_trans; eauto.
  - left. rewrite <- H2. auto.
  - left. rewrite H1. auto.
  - right. split; [congruence|lia].
Qed.

Lemma ins_sorted pos x l : StronglySorted (ranks_before pos) l ->
  Forall (fun y => (fst y < fst x)%nat) l -> StronglySorted (ranks_before pos) (mset_insert (tlt pos) x l).
Proof.
  induction 1 as [|y l Hs IH HF]; intros Hx; simpl; [repeat constructor|].
  inversion Hx as [|? ? Hy Hx']; subst.
  unfold tlt at 1. destruct (better pos (snd x) (snd y)) eqn:E.
  - apply better_lt in E. constructor; [constructor; auto|].
    assert (Hxy : ranks_before pos x y) by (left; auto).
    constructor; auto. eapply Forall_impl; [|exact HF]. intros z Hz. eapply rb_trans; eauto.
  - constructor; [apply IH; auto|].
    assert (Hyx : ranks_before pos y x).
    { assert (E' : ~ (if pos then k_metric (snd y) < k_metric (snd x) else k_metric (snd x) < k_metric (snd y))).
      { rewrite <- better_lt. congruence. }
      unfold ranks_before. destruct pos.
      - apply Qc_not_lt_le in E'. apply Qcle_lt_or_eq in E'. destruct E'; [left|right]; auto.
      - apply Qc_not_lt_le in E'. apply Qcle_lt_or_eq in E'. destruct E'; [left|right]; auto. }
    rewrite Forall_forall in *. intros z Hz.
    apply (Permutation_in _ (Permutation_sym (ins_perm (tlt pos) x l))) in Hz.
    destruct Hz as [<-|Hz]; auto.
Qed.

Theorem bests_top pos K h : (0 < K)%Z ->
  exists L, Permutation L (combine (seq 0 (length h)) h) /\ StronglySorted (ranks_before pos) L /\
    bests_of pos K h = map snd (firstn (Z.to_nat K) L).
Proof.
  intros HK. exists (isort (tlt pos) (combine (seq 0 (length h)) h)). split; [|split].
  - symmetry. apply isort_perm.
  - unfold isort.
    assert (G : forall h n a, StronglySorted (ranks_before pos) a -> Forall (fun y => (fst y < n)%nat) a ->
       StronglySorted (ranks_before pos) (fold_left (fun l x => mset_insert (tlt pos) x l) (combine (seq n (length h)) h) a)).
    { clear. induction h as [|e h IH]; intros n a Ha HF; simpl; auto.
      apply IH; [apply ins_sorted; auto|].
      rewrite Forall_forall in *. intros z Hz.
      apply (Permutation_in _ (Permutation_sym (ins_perm (tlt pos) (n, e) a))) in Hz.
      destruct Hz as [<-|Hz]; simpl; [lia|]. specialize (HF _ Hz). lia. }
    apply G; constructor.
  - rewrite bests_eq by auto. rewrite <- firstn_map. f_equal. unfold isort.
    assert (G : forall h n a, map snd (fold_left (fun l x => mset_insert (tlt pos) x l) (combine (seq n (length h)) h) a)
       = fold_left (fun l x => mset_insert (better pos) x l) h (map snd a)).
    { clear. induction h as [|e h IH]; intros n a; simpl; auto. rewrite IH, ins_tagged. reflexivity. }
    symmetry. apply G.
Qed.

(** ** Top lists by key *)
Section Top.
  Context {A : Type} (key : A -> Qc).
  Definition klt (a b : A) : bool := qltb (key b) (key a).
  Notation ge := (fun a b => key b <= key a).

  Lemma kins_sorted x l : StronglySorted ge l -> StronglySorted ge (mset_insert klt x l).
  Proof.
    induction 1 as [|y l Hs IH HF]; simpl; [repeat constructor|].
    unfold klt at 1. destruct (qltb_spec (key y) (key x)) as [H|H].
    - constructor; [constructor; auto|]. constructor; [apply Qclt_le_weak; auto|].
      eapply Forall_impl; [|exact HF]. intros z Hz. simpl in *. qlra.
    - constructor; auto. rewrite Forall_forall in *. intros z Hz.
      apply (Permutation_in _ (Permutation_sym (ins_perm klt x l))) in Hz.
      destruct Hz as [<-|Hz]; auto. apply Qc_not_lt_le; auto.
  Qed.

  Lemma kisort_sorted h : StronglySorted ge (isort klt h).
  Proof.
    unfold isort. assert (G : forall h a, StronglySorted ge a -> StronglySorted ge (fold_left (fun l x => mset_insert klt x l) h a)).
    { clear. induction h as [|x h IH]; intros a Ha; simpl; auto. apply IH, kins_sorted; auto. }
    apply G; constructor.
  Qed.

  Lemma ss_app_inv (R : A -> A -> Prop) l1 l2 : StronglySorted R (l1 ++ l2) ->
    StronglySorted R l1 /\ StronglySorted R l2 /\ forall a b, In a l1 -> In b l2 -> R a b.
  Proof.
    induction l1 as [|x l1 IH]; simpl; intros H; [repeat split; auto; try constructor; intros; tauto|].
    inversion H as [|? ? H' HF]; subst. destruct (IH H') as (I1 & I2 & I3).
    rewrite Forall_app in HF. destruct HF as [F1 F2]. rewrite Forall_forall in F1, F2.
    repeat split; auto; [constructor; auto; apply Forall_forall; auto|].
    intros a b [<-|Ha] Hb; auto.
  Qed.

  Lemma top_firstn K M L : Permutation M L -> StronglySorted ge L -> top key K M (firstn K L).
  Proof.
    intros HP HS. exists (skipn K L). rewrite <- (firstn_skipn K L) in HS.
    apply ss_app_inv in HS. destruct HS as (S1 & S2 & S3).
    rewrite firstn_skipn. split; auto. split; auto. split; auto.
    rewrite firstn_length, (Permutation_length HP). reflexivity.
  Qed.

  Definition cnt_above (x : Qc) (l : list A) : nat := length (filter (fun a => qltb x (key a)) l).

  Lemma cnt_perm x l l' : Permutation l l' -> cnt_above x l = cnt_above x l'.
  Proof.
    unfold cnt_above. induction 1 as [|a l l' H IH|a b l|]; simpl; auto.
    - destruct (qltb x (key a)); simpl; auto.
    - destruct (qltb x (key a)), (qltb x (key b)); simpl; auto.
    - congruence.
  Qed.
  Lemma cnt_app x l l' : cnt_above x (l ++ l') = (cnt_above x l + cnt_above x l')%nat.
  Proof. unfold cnt_above. rewrite filter_app, app_length. reflexivity. Qed.
  Lemma cnt_all x l : (forall a, In a l -> x < key a) -> cnt_above x l = length l.
  Proof.
    unfold cnt_above. induction l as [|a l IH]; intros H; simpl; auto.
    destruct (qltb_spec x (key a)) as [Ha|Ha]; simpl; [f_equal; apply IH; intros; apply H; right; auto|].
    exfalso. apply Ha, H; left; auto.
  Qed.
  Lemma cnt_none x l : (forall a, In a l -> key a <= x) -> cnt_above x l = 0%nat.
  Proof.
    unfold cnt_above. induction l as [|a l IH]; intros H; simpl; auto.
    destruct (qltb_spec x (key a)) as [Ha|Ha]; [|apply IH; intros; apply H; right; auto].
    exfalso. apply (Qc_le_not_lt (key a) x); auto. apply H; left; auto.
  Qed.
  Lemma cnt_le x l : (cnt_above x l <= length l)%nat.
  Proof. unfold cnt_above. induction l as [|a l IH]; simpl; auto. destruct (qltb x (key a)); simpl; lia. Qed.
  Lemma cnt_lt x l a : In a l -> key a <= x -> (cnt_above x l < length l)%nat.
  Proof.
    intros Hin Ha. apply in_split in Hin. destruct Hin as (l1 & l2 & ->).
    rewrite cnt_app, app_length. pose proof (cnt_le x l1). pose proof (cnt_le x l2).
    unfold cnt_above in *. simpl. destruct (qltb_spec x (key a)) as [Hx|Hx]; [exfalso; apply (Qc_le_not_lt (key a) x); auto|]. lia.
  Qed.

  (** Top-K of several lists from their top-K lists. *)
  Lemma top_union K (MR : list (list A * list A)) R :
    Forall (fun p => top key K (fst p) (snd p)) MR ->
    top key K (concat (map snd MR)) R -> top key K (concat (map fst MR)) R.
  Proof.
    intros HF (rest & HP & HS & HB & HL).
    assert (HX : exists rest2, Permutation (concat (map fst MR)) (concat (map snd MR) ++ rest2) /\
       (forall x, In x rest2 -> exists R1, (forall a, In a R1 -> key x <= key a) /\ length R1 = K /\
            exists o, Permutation (concat (map snd MR)) (R1 ++ o)) /\
       (rest2 = [] \/ (K <= length (concat (map snd MR)))%nat)).
    { clear - HF. induction HF as [|[M R1] MR Ht HF IH]; simpl.
      - exists []. repeat split; auto; simpl; tauto.
      - destruct IH as (rest2 & H1 & H2 & H3). destruct Ht as (r & P & S & B & L). simpl in *.
        exists (r ++ rest2). split; [|split].
        + rewrite P, H1. rewrite <- !app_assoc. apply Permutation_app_head.
          rewrite !app_assoc. apply Permutation_app_tail, Permutation_app_comm.
        + intros x Hx. apply in_app_or in Hx. destruct Hx as [Hx|Hx].
          * exists R1. split; [intros; apply B; auto|]. split.
            -- rewrite L, Nat.min_l; auto. rewrite (Permutation_length P), app_length in L.
               rewrite (Permutation_length P), app_length.
               assert (1 <= length r)%nat by (destruct r; simpl in *; [tauto|lia]). lia.
            -- eexists; reflexivity.
          * destruct (H2 x Hx) as (R2 & E1 & E2 & o & E3). exists R2. split; auto. split; auto.
            exists (R1 ++ o). rewrite E3. rewrite !app_assoc. apply Permutation_app_tail, Permutation_app_comm.
        + destruct r as [|y r].
          * simpl. destruct H3 as [->|H3]; auto. right. rewrite app_length. lia.
          * right. rewrite app_length. rewrite (Permutation_length P), app_length in L. simpl in L. lia. }
    destruct HX as (rest2 & H1 & H2 & H3).
    exists (rest ++ rest2). split; [|split; [|split]]; auto.
    - rewrite H1, HP, app_assoc. reflexivity.
    - intros a b Ha Hb. apply in_app_or in Hb. destruct Hb as [Hb|Hb]; auto.
      destruct (H2 b Hb) as (R1 & E1 & E2 & o & E3).
      apply Qc_not_lt_le. intros Hlt.
      assert (C1 : cnt_above (key a) (R ++ rest) = cnt_above (key a) (R1 ++ o)).
      { apply cnt_perm. rewrite <- HP. auto. }
      rewrite !cnt_app in C1.
      rewrite (cnt_none _ rest) in C1 by (intros; apply HB; auto).
      rewrite (cnt_all _ R1) in C1 by (intros c Hc; specialize (E1 c Hc); qlra).
      pose proof (cnt_lt (key a) R a Ha (Qcle_refl _)).
      rewrite HL in H. lia.
    - rewrite HL. rewrite (Permutation_length H1), app_length. destruct H3 as [->|H3]; simpl; lia.
  Qed.

  (** The sorted key lists of two top-K lists agree. *)
  Lemma ss_perm_eq (l l' : list Qc) : StronglySorted (fun a b => b <= a) l -> StronglySorted (fun a b => b <= a) l' ->
    Permutation l l' -> l = l'.
  Proof.
    revert l'. induction l as [|a l IH]; intros [|b l'] H1 H2 HP; auto.
    - apply Permutation_nil in HP; discriminate.
    - symmetry in HP; apply Permutation_nil in HP; discriminate.
    - inversion H1 as [|? ? H1' F1]; inversion H2 as [|? ? H2' F2]; subst. rewrite Forall_forall in F1, F2.
      assert (a = b).
      { pose proof (Permutation_in _ HP (or_introl eq_refl)) as [E|Ha]; auto.
        pose proof (Permutation_in _ (Permutation_sym HP) (or_introl eq_refl)) as [E|Hb]; auto.
        apply Qcle_antisym; auto. }
      subst b. f_equal. apply IH; auto. apply Permutation_cons_inv in HP; auto.
  Qed.

  Lemma ss_map l : StronglySorted ge l -> StronglySorted (fun a b => b <= a) (map key l).
  Proof. induction 1 as [|a l H IH HF]; simpl; constructor; auto. rewrite Forall_map. auto. Qed.

  Lemma top_full K M R : top key K M R ->
    exists full, Permutation (map key M) full /\ StronglySorted (fun a b => b <= a) full /\ map key R = firstn K full.
  Proof.
    intros (rest & HP & HS & HB & HL). exists (map key (R ++ isort klt rest)). split; [|split].
    - apply Permutation_map. rewrite HP. apply Permutation_app_head, isort_perm.
    - apply ss_map. clear HP HL. pose proof (kisort_sorted rest) as Hr.
      assert (HB' : forall a b, In a R -> In b (isort klt rest) -> key b <= key a).
      { intros a b Ha Hb. apply HB; auto. eapply Permutation_in; [symmetry; apply isort_perm|exact Hb]. }
      clear HB. induction HS as [|a R HS IH HF]; simpl; auto.
      constructor; [apply IH; intros; apply HB'; simpl; auto|].
      apply Forall_app. split; auto. apply Forall_forall. intros b Hb. apply HB'; simpl; auto.
    - rewrite map_app, firstn_app, map_length, HL. rewrite (Permutation_length HP), app_length in *.
      destruct (Nat.le_gt_cases K (length R + length rest)) as [Hk|Hk].
      + rewrite Nat.min_l in * by lia. rewrite Nat.sub_diag. simpl. rewrite app_nil_r.
        rewrite firstn_all2 by (rewrite map_length; lia). reflexivity.
      + rewrite Nat.min_r in * by lia. assert (rest = []) by (destruct rest; auto; simpl in *; lia). subst rest.
        simpl. rewrite firstn_nil, app_nil_r. rewrite firstn_all2 by (rewrite map_length; simpl in *; lia). reflexivity.
  Qed.

  Lemma top_unique K M M' R R' : Permutation (map key M) (map key M') ->
    top key K M R -> top key K M' R' -> map key R = map key R'.
  Proof.
    intros HP H H'. apply top_full in H, H'. destruct H as (f & P1 & S1 & ->), H' as (f' & P2 & S2 & ->).
    f_equal. apply ss_perm_eq; auto. rewrite <- P1, <- P2. auto.
  Qed.
End Top.

(** ** CombineBests *)
Lemma combine_loop_eq k w : (0 < k)%Z -> forall cnt i result,
  (cnt + i = Z.to_nat k)%nat -> (length result <= Z.to_nat k)%nat -> (i <= length result)%nat ->
  combine_loop k w cnt i result =
  firstn (Z.to_nat k) (firstn i result ++ mset_insert (klt k_weight) w (skipn i result)).
Proof.
  intros Hk. induction cnt as [|c IH]; intros i result Hc Hl Hi.
  - simpl. assert (E : length result = i) by lia. rewrite <- E, firstn_all, skipn_all. simpl.
    rewrite firstn_app. replace (Z.to_nat k) with (length result) by lia. rewrite firstn_all, Nat.sub_diag. simpl.
    rewrite app_nil_r. reflexivity.
  - simpl. destruct (Nat.leb_spec (length result) i) as [H|H].
    + assert (E : length result = i) by lia. rewrite <- E, firstn_all, skipn_all. simpl.
      rewrite app_length. simpl. destruct (Z.ltb_spec k (Z.of_nat (length result + 1))); [lia|].
      rewrite firstn_all2; auto. rewrite app_length; simpl; lia.
    + destruct (nth_error result i) as [x|] eqn:En; [|apply nth_error_None in En; lia].
      assert (Es : skipn i result = x :: skipn (S i) result).
      { clear - En. revert i En. induction result as [|y r IH]; intros [|i] En; simpl in *; try discriminate.
        - injection En as ->; auto.
        - rewrite (IH i En). reflexivity. }
      rewrite Es. cbn [mset_insert]. unfold klt at 1.
      destruct (qltb (k_weight x) (k_weight w)) eqn:Eq.
      * rewrite <- Es.
        assert (Hlen : length (firstn i result ++ w :: skipn i result) = S (length result)).
        { rewrite app_length. simpl. rewrite firstn_length, skipn_length. lia. }
        rewrite Hlen. destruct (Z.ltb_spec k (Z.of_nat (S (length result)))).
        -- rewrite removelast_firstn_eq with (n := Z.to_nat k) by lia. reflexivity.
        -- symmetry. apply firstn_all2. rewrite Hlen. lia.
      * rewrite IH by lia. f_equal.
        assert (Ef : firstn (S i) result = firstn i result ++ [x]).
        { clear - En. revert i En. induction result as [|y r IH]; intros [|i] En; simpl in *; try discriminate.
          - injection En as ->; auto.
          - f_equal. apply IH; auto. }
        rewrite Ef, <- app_assoc. reflexivity.
Qed.

Lemma combine_bests_eq idx k ss : (0 < k)%Z -> ss <> [] ->
  combine_bests idx k ss = Ok (firstn (Z.to_nat k) (isort (klt k_weight)
     (concat (map s_bests (filter (fun s => idx_eqb (s_idx s) idx) ss))))).
Proof.
  intros Hk Hn. unfold combine_bests. destruct (Nat.eqb_spec (length ss) 0) as [E|_].
  { destruct ss; simpl in E; congruence. }
  destruct (Z.leb_spec k 0); [lia|]. f_equal. unfold isort.
  assert (G1 : forall l a, fold_left (fun r w => combine_loop k w (Z.to_nat k) 0 r) l (firstn (Z.to_nat k) a)
     = firstn (Z.to_nat k) (fold_left (fun l x => mset_insert (klt k_weight) x l) l a)).
  { clear - Hk. induction l as [|w l IH]; intros a; simpl; auto.
    rewrite combine_loop_eq by (rewrite ?firstn_length; lia). simpl. rewrite firstn_ins. apply IH. }
  assert (G : forall ss a, fold_left (fun r s => if idx_eqb (s_idx s) idx then
           fold_left (fun r w => combine_loop k w (Z.to_nat k) 0 r) (s_bests s) r else r) ss (firstn (Z.to_nat k) a)
     = firstn (Z.to_nat k) (fold_left (fun l x => mset_insert (klt k_weight) x l)
          (concat (map s_bests (filter (fun s => idx_eqb (s_idx s) idx) ss))) a)).
  { clear - G1. induction ss as [|s ss IH]; intros a; simpl; auto.
    destruct (idx_eqb (s_idx s) idx); simpl; auto. rewrite G1, IH, fold_left_app. reflexivity. }
  specialize (G ss []). rewrite firstn_nil in G. exact G.
Qed.

Lemma isort_ext {A} (lt1 lt2 : A -> A -> bool) h :
  (forall a b, In a h -> In b h -> lt1 a b = lt2 a b) -> isort lt1 h = isort lt2 h.
Proof.
  intros H. unfold isort.
  assert (G : forall t a, (forall x, In x t -> In x h) -> (forall x, In x a -> In x h) ->
     fold_left (fun l x => mset_insert lt1 x l) t a = fold_left (fun l x => mset_insert lt2 x l) t a).
  { induction t as [|x t IH]; intros a Ht Ha; simpl; auto.
    assert (E : mset_insert lt1 x a = mset_insert lt2 x a).
    { clear IH. assert (Hx : In x h) by (apply Ht; left; auto). clear Ht. induction a as [|y a IHa]; simpl; auto.
      rewrite H by (auto; apply Ha; left; auto). destruct (lt2 x y); auto. f_equal. apply IHa. intros; apply Ha; right; auto. }
    rewrite E. apply IH; [intros; apply Ht; right; auto|].
    intros z Hz. apply (Permutation_in _ (Permutation_sym (ins_perm lt2 x a))) in Hz.
    destruct Hz as [<-|Hz]; auto. apply Ht; left; auto. }
  apply G; auto. intros x [].
Qed.

Lemma idx_eqb_dec a b : idx_eqb a b = if idx_dec a b then true else false.
Proof.
  destruct a as ((a1 & a2) & a3), b as ((b1 & b2) & b3). unfold idx_eqb.
  destruct (idx_dec (a1, a2, a3) (b1, b2, b3)) as [E|E].
  - injection E as -> -> ->. rewrite !Z.eqb_refl. reflexivity.
  - destruct (Z.eqb_spec a1 b1), (Z.eqb_spec a2 b2), (Z.eqb_spec a3 b3); subst; simpl; congruence.
Qed.

Lemma combine_all_eq idx hs : hs <> [] ->
  combine_all_models idx hs = Ok (models_at idx hs).
Proof.
  intros Hn. unfold combine_all_models. destruct hs as [|h0 t]; [congruence|]. set (hs := h0 :: t). simpl (length hs =? 0)%nat. cbv iota.
  f_equal. unfold models_at.
  assert (G : forall l a, fold_left (fun r (s : (Z*Z*Z) * list keep) => if idx_eqb (fst s) idx then r ++ snd s else r) l a
    = a ++ concat (map snd (filter (fun h => if idx_dec (fst h) idx then true else false) l))).
  { induction l as [|h l IH]; intros a; simpl; [rewrite app_nil_r; auto|].
    rewrite IH, idx_eqb_dec. destruct (idx_dec (fst h) idx); simpl; rewrite <- ?app_assoc; auto. }
  apply (G hs []).
Qed.

(** [hs]: (index, pushed estimations) of every summary of every searcher. *)

Theorem combine_top idx pos K hs : (0 < K)%Z -> hs <> [] ->
  (forall a b, In a (models_at idx hs) -> In b (models_at idx hs) ->
     (better pos a b = true <-> k_weight b < k_weight a)) ->
  exists R, combine_bests idx K (summaries_of pos K hs) = Ok R /\
    top k_weight (Z.to_nat K) (models_at idx hs) R.
Proof.
  intros HK Hn Hw. eexists. split; [apply combine_bests_eq; auto; destruct hs; simpl; congruence|].
  assert (EQ : forall h : (Z * Z * Z) * list keep, idx_eqb (fst h) idx = if idx_dec (fst h) idx then true else false) by (intros h; apply idx_eqb_dec).
  set (hs1 := filter (fun h => if idx_dec (fst h) idx then true else false) hs).
  assert (E : map s_bests (filter (fun s => idx_eqb (s_idx s) idx) (summaries_of pos K hs))
     = map snd (map (fun h => (snd h, bests_of pos K (snd h))) hs1)).
  { unfold summaries_of, hs1. clear -EQ. induction hs as [|h hs IH]; simpl; auto.
    rewrite EQ. destruct (idx_dec (fst h) idx); simpl; rewrite IH; auto. }
  rewrite E. clear E.
  replace (models_at idx hs) with (concat (map fst (map (fun h => (snd h, bests_of pos K (snd h))) hs1))).
  2:{ unfold models_at. fold hs1. rewrite map_map. reflexivity. }
  apply top_union.
  - rewrite Forall_map. apply Forall_forall. intros h Hh. simpl.
    rewrite bests_eq by auto. rewrite (isort_ext (better pos) (klt k_weight)).
    + apply top_firstn; [apply isort_perm|apply kisort_sorted].
    + intros a b Ha Hb.
      assert (Hin : forall x, In x (snd h) -> In x (models_at idx hs)).
      { intros x Hx. unfold models_at. apply in_concat. exists (snd h). split; auto. apply in_map. exact Hh. }
      specialize (Hw a b (Hin a Ha) (Hin b Hb)). unfold klt.
      destruct (qltb_spec (k_weight b) (k_weight a)); destruct (better pos a b); intuition congruence.
  - apply top_firstn; [apply isort_perm|apply kisort_sorted].
Qed.

(** ** Extreme bounds *)
Lemma qmin_spec a b : qmin a b <= a /\ qmin a b <= b /\ (qmin a b = a \/ qmin a b = b).
Proof.
  unfold qmin. destruct (qltb_spec b a) as [H|H]; [|apply Qc_not_lt_le in H]; repeat split; auto; try apply Qcle_refl.
  apply Qclt_le_weak; auto.
Qed.
Lemma qmax_spec a b : a <= qmax a b /\ b <= qmax a b /\ (qmax a b = a \/ qmax a b = b).
Proof.
  unfold qmax. destruct (qltb_spec a b) as [H|H]; [|apply Qc_not_lt_le in H]; repeat split; auto; try apply Qcle_refl.
  apply Qclt_le_weak; auto.
Qed.


Lemma push_bounds_inv h : forall b,
  is_min (fst (fold_left push_bounds h b)) (fst b :: map fst h) /\
  is_max (snd (fold_left push_bounds h b)) (snd b :: map snd h).
Proof.
  induction h as [|e h IH]; intros b; simpl.
  - repeat split; simpl; auto; repeat constructor; apply Qcle_refl.
  - destruct (IH (push_bounds b e)) as ((I1 & I2) & (J1 & J2)).
    set (m := fst (fold_left push_bounds h (push_bounds b e))) in *.
    set (M := snd (fold_left push_bounds h (push_bounds b e))) in *.
    change (fst (push_bounds b e)) with (qmin (fst b) (fst e)) in I1, I2.
    change (snd (push_bounds b e)) with (qmax (snd b) (snd e)) in J1, J2.
    simpl in I1, J1.
    destruct (qmin_spec (fst b) (fst e)) as (A1 & A2 & A3). destruct (qmax_spec (snd b) (snd e)) as (B1 & B2 & B3).
    inversion I2 as [|? ? I3 I4]; inversion J2 as [|? ? J3 J4]; subst.
    repeat split.
    + destruct I1 as [I1|I1]; simpl; auto. rewrite <- I1. destruct A3 as [->| ->]; auto.
    + constructor; [qlra|]. constructor; [qlra|auto].
    + destruct J1 as [J1|J1]; simpl; auto. rewrite <- J1. destruct B3 as [->| ->]; auto.
    + constructor; [qlra|]. constructor; [qlra|auto].
Qed.

Theorem bounds_exact h :
  is_min (fst (bounds_of h)) (dbl_max :: map fst h) /\ is_max (snd (bounds_of h)) (dbl_min :: map snd h).
Proof. apply push_bounds_inv. Qed.

Theorem combine_bounds_eq (hs : list (list (Qc * Qc))) :
  is_min (fst (combine_bounds (map bounds_of hs))) (dbl_max :: map fst (concat hs)) /\
  is_max (snd (combine_bounds (map bounds_of hs))) (dbl_min :: map snd (concat hs)).
Proof.
  assert (E : combine_bounds (map bounds_of hs) = fold_left push_bounds (map bounds_of hs) bounds0) by reflexivity.
  rewrite E. clear E. destruct (push_bounds_inv (map bounds_of hs) bounds0) as ((I1 & I2) & (J1 & J2)).
  simpl in *. rewrite !map_map in *.
  set (m := fst (fold_left push_bounds (map bounds_of hs) bounds0)) in *.
  set (M := snd (fold_left push_bounds (map bounds_of hs) bounds0)) in *.
  inversion I2 as [|? ? I3 I4]; inversion J2 as [|? ? J3 J4]; subst. clear I2 J2.
  rewrite Forall_map in I4, J4. rewrite Forall_forall in I4, J4.
  repeat split.
  - destruct I1 as [I1|I1]; [left; auto|]. apply in_map_iff in I1. destruct I1 as (h & E & Hh). rewrite <- E.
    destruct (bounds_exact h) as ((K1 & _) & _). destruct K1 as [K1|K1]; [left; auto|right].
    apply in_map_iff in K1. destruct K1 as (e & K1 & K2). apply in_map_iff. exists e. split; auto.
    apply in_concat. exists h; auto.
  - constructor; auto. rewrite Forall_map. apply Forall_forall. intros e He. apply in_concat in He.
    destruct He as (h & Hh & He). specialize (I4 h Hh). destruct (bounds_exact h) as ((_ & K2) & _).
    inversion K2 as [|? ? _ K4]; subst. rewrite Forall_map, Forall_forall in K4. specialize (K4 e He). qlra.
  - destruct J1 as [J1|J1]; [left; auto|]. apply in_map_iff in J1. destruct J1 as (h & E & Hh). rewrite <- E.
    destruct (bounds_exact h) as (_ & (K1 & _)). destruct K1 as [K1|K1]; [left; auto|right].
    apply in_map_iff in K1. destruct K1 as (e & K1 & K2). apply in_map_iff. exists e. split; auto.
    apply in_concat. exists h; auto.
  - constructor; auto. rewrite Forall_map. apply Forall_forall. intros e He. apply in_concat in He.
    destruct He as (h & Hh & He). specialize (J4 h Hh). destruct (bounds_exact h) as (_ & (_ & K2)).
    inversion K2 as [|? ? _ K4]; subst. rewrite Forall_map, Forall_forall in K4. specialize (K4 e He). qlra.
Qed.

(** ** Inclusion weights *)
Definition incl_state (ws : list Qc) : moms := statc 1 (map (fun w => (w, 1)) ws).

Lemma incl_push ws w : push_new 1 false (incl_state ws) (Some w) 1 = incl_state (ws ++ [w]).
Proof.
  unfold incl_state. rewrite map_app. simpl.
  rewrite <- (push_stat 1 (map (fun w => (w, 1)) ws) w 1); [reflexivity| |reflexivity].
  unfold posw. rewrite Forall_map. apply Forall_forall. intros; reflexivity.
Qed.

Lemma push_incl1_step n w (f : nat -> list Qc) i : (i < n)%nat ->
  push_incl1 w (Ok (map (fun j => incl_state (f j)) (seq 0 n))) i
  = Ok (map (fun j => incl_state (f j ++ if Nat.eq_dec j i then [w] else [])) (seq 0 n)).
Proof.
  intros Hi. unfold push_incl1. cbn [bind].
  rewrite nth_error_map. rewrite (nth_error_nth' (seq 0 n) 0%nat) by (rewrite seq_length; auto).
  rewrite seq_nth by auto. cbn [option_map Nat.add]. f_equal. rewrite incl_push.
  apply list_ext_nth_error. intros j. destruct (Nat.eq_dec i j) as [->|Hj].
  - rewrite nth_error_upd_same by (rewrite map_length, seq_length; auto).
    rewrite nth_error_map, (nth_error_nth' (seq 0 n) 0%nat) by (rewrite seq_length; auto).
    rewrite seq_nth by auto. simpl. destruct (Nat.eq_dec j j); congruence.
  - rewrite nth_error_upd_other by auto. rewrite !nth_error_map.
    destruct (nth_error (seq 0 n) j) as [x|] eqn:E; simpl; auto.
    assert (x = j).
    { apply nth_error_split in E as E2. pose proof (proj1 (nth_error_Some (seq 0 n) j)) as H.
      rewrite E in H. specialize (H ltac:(discriminate)). rewrite seq_length in H.
      apply nth_error_nth with (d := 0%nat) in E. rewrite seq_nth in E by auto. lia. }
    subst x. destruct (Nat.eq_dec j i); [congruence|]. rewrite app_nil_r. reflexivity.
Qed.

Lemma push_incl1s n w is_ : forall (f : nat -> list Qc), Forall (fun i => (i < n)%nat) is_ ->
  fold_left (push_incl1 w) is_ (Ok (map (fun j => incl_state (f j)) (seq 0 n)))
  = Ok (map (fun j => incl_state (f j ++ repeat w (count_occ Nat.eq_dec is_ j))) (seq 0 n)).
Proof.
  induction is_ as [|i is_ IH]; intros f HF.
  - simpl. f_equal. apply map_ext. intros; rewrite app_nil_r; auto.
  - inversion HF; subst. change (fold_left (push_incl1 w) (i :: is_) ?x) with (fold_left (push_incl1 w) is_ (push_incl1 w x i)).
    rewrite push_incl1_step by auto.
    rewrite (IH (fun j => f j ++ if Nat.eq_dec j i then [w] else [])) by auto.
    f_equal. apply map_ext. intros j. f_equal. rewrite <- app_assoc. f_equal. simpl.
    destruct (Nat.eq_dec j i), (Nat.eq_dec i j); try congruence; reflexivity.
Qed.

Theorem incl_exact n h : Forall (fun e => Forall (fun i => (i < n)%nat) (k_endo e ++ k_exo e)) h ->
  incl_of n h = Ok (map (fun i => incl_state (weights_with i h)) (seq 0 n)).
Proof.
  intros H. unfold incl_of.
  assert (G : forall h (f : nat -> list Qc), Forall (fun e => Forall (fun i => (i < n)%nat) (k_endo e ++ k_exo e)) h ->
    fold_left push_incl h (Ok (map (fun j => incl_state (f j)) (seq 0 n)))
    = Ok (map (fun j => incl_state (f j ++ weights_with j h)) (seq 0 n))).
  { clear. induction h as [|e h IH]; intros f H.
    - simpl. f_equal. apply map_ext. intros; rewrite app_nil_r; auto.
    - inversion H as [|? ? He H']; subst. apply Forall_app in He. destruct He as [He1 He2].
      change (fold_left push_incl (e :: h) ?x) with (fold_left push_incl h (push_incl x e)).
      unfold push_incl. rewrite push_incl1s by auto.
      rewrite (push_incl1s n (k_weight e) (k_exo e) (fun j => f j ++ repeat (k_weight e) (count_occ Nat.eq_dec (k_endo e) j))) by auto.
      fold push_incl. rewrite (IH (fun j => (f j ++ repeat (k_weight e) (count_occ Nat.eq_dec (k_endo e) j)) ++
         repeat (k_weight e) (count_occ Nat.eq_dec (k_exo e) j))) by auto.
      f_equal. apply map_ext. intros j. f_equal. unfold weights_with. simpl.
      rewrite count_occ_app, repeat_app, <- !app_assoc. reflexivity. }
  specialize (G h (fun _ => []) H). simpl in G. rewrite <- G. f_equal. f_equal.
  replace (repeat moms0 n) with (map (fun _ : nat => moms0) (seq 0 n)).
  - apply map_ext. intros; vm_compute; reflexivity.
  - clear. generalize 0%nat. induction n as [|n IH]; intros s; simpl; auto. f_equal; auto.
Qed.

Lemma weights_with_app i a b : weights_with i (a ++ b) = weights_with i a ++ weights_with i b.
Proof. unfold weights_with. apply flat_map_app. Qed.

Theorem combine_incl_exact n i hs : (i < n)%nat -> hs <> [] ->
  Forall (Forall (fun e => Forall (fun i => (i < n)%nat) (k_endo e ++ k_exo e))) hs ->
  exists infos, map (fun h => incl_of n h) hs = map Ok infos /\
    combine_incl i infos = Ok (incl_state (weights_with i (concat hs))).
Proof.
  intros Hi Hn H.
  exists (map (fun h => map (fun i => incl_state (weights_with i h)) (seq 0 n)) hs). split.
  - rewrite map_map. apply map_ext_in. intros h Hh. apply incl_exact. rewrite Forall_forall in H; auto.
  - unfold combine_incl. rewrite map_length. destruct (Nat.eqb_spec (length hs) 0) as [E|_].
    { destruct hs; simpl in E; congruence. }
    assert (G : forall hs ws, fold_left (fun r info => do m <- r;
         match nth_error info i with None => Throw | Some x => Ok (combine_moms 1 m x) end)
       (map (fun h => map (fun i => incl_state (weights_with i h)) (seq 0 n)) hs) (Ok (incl_state ws))
       = Ok (incl_state (ws ++ weights_with i (concat hs)))).
    { clear - Hi. induction hs as [|h hs IH]; intros ws; cbn [map fold_left concat].
      - simpl. rewrite app_nil_r; auto.
      - cbn [bind]. rewrite nth_error_map, (nth_error_nth' (seq 0 n) 0%nat) by (rewrite seq_length; auto).
        rewrite seq_nth by auto. cbn [option_map Nat.add]. unfold incl_state at 2 3. rewrite combine_concat.
        + rewrite <- map_app. fold (incl_state (ws ++ weights_with i h)). rewrite IH.
          rewrite weights_with_app, app_assoc. reflexivity.
        + unfold posw. rewrite Forall_map. apply Forall_forall; intros; reflexivity.
        + unfold posw. rewrite Forall_map. apply Forall_forall; intros; reflexivity. }
    specialize (G hs []). rewrite app_nil_l in G. rewrite <- G. reflexivity.
Qed.
