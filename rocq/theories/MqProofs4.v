(** Proofs about triangular matrices. *)
From Verif Require Export MqProofs.
From Coq Require Import Lia ZifyBool.
Local Open Scope Z_scope.

Definition off (diag : bool) : nat := if diag then 0%nat else 1%nat.
Definition trow (diag : bool) (n i : nat) : list (nat * nat) := map (fun j => (i, j)) (seq (i + off diag) (n - i - off diag)).
Lemma filter_seq (f : nat -> bool) (c : nat) : forall n s, (forall j, f j = (c <=? j)%nat) -> filter f (seq s n) = seq (Nat.max s c) (s + n - Nat.max s c).
Proof.
  induction n as [|n IH]; intros s F; cbn [seq filter].
  - replace (s + 0 - Nat.max s c)%nat with 0%nat by lia. auto.
  - rewrite F, IH by auto. destruct (Nat.leb_spec c s).
    + rewrite !Nat.max_l by lia. replace (s + Datatypes.S n - s)%nat with (Datatypes.S n) by lia. cbn [seq]. f_equal. f_equal. lia.
    + rewrite !Nat.max_r by lia. f_equal. lia.
Qed.
Lemma filter_app_ {A} (f : A -> bool) l1 l2 : filter f (l1 ++ l2) = filter f l1 ++ filter f l2.
Proof. induction l1; cbn; auto. destruct (f a); cbn; f_equal; auto. Qed.
Lemma filter_map_ {A B} (f : B -> bool) (g : A -> B) l : filter f (map g l) = map g (filter (fun x => f (g x)) l).
Proof. induction l; cbn; auto. destruct (f (g a)); cbn; f_equal; auto. Qed.
Lemma triangle_rows diag n : triangle diag n = flat_map (trow diag n) (seq 0 n).
Proof.
  unfold triangle. set (f := fun p : nat * nat => _). generalize (seq 0 n) at 1 3. intros l. induction l as [|i l IH]; cbn [list_prod flat_map]; auto.
  rewrite filter_app_, IH. f_equal. rewrite filter_map_. unfold trow. f_equal. rewrite (filter_seq _ (i + off diag)).
  - rewrite Nat.max_r by lia. f_equal. lia.
  - intros j. unfold f, off. cbn [fst snd]. destruct diag; [rewrite Nat.add_0_r; auto|]. unfold Nat.ltb. f_equal. lia.
Qed.
Lemma rows_length diag n : forall k, (k <= n)%nat -> 2 * Z.of_nat (length (flat_map (trow diag n) (seq 0 k))) = Z.of_nat k * (2 * Z.of_nat n - Z.of_nat k + 1 - 2 * Z.of_nat (off diag)).
Proof.
  induction k as [|k IH]; intros H; auto. rewrite seq_S, flat_map_app, app_length. cbn [flat_map Nat.add]. rewrite app_nil_r. unfold trow at 2. rewrite map_length, seq_length.
  specialize (IH ltac:(lia)). destruct diag; unfold off in *; nia.
Qed.
Lemma triangle_length diag n : Z.of_nat (length (triangle diag n)) = if diag then Z.of_nat n * (Z.of_nat n + 1) / 2 else Z.of_nat n * (Z.of_nat n - 1) / 2.
Proof.
  rewrite triangle_rows. pose proof (rows_length diag n n (le_n _)) as H. destruct diag; unfold off in H.
  - apply Z.div_unique with 0; lia.
  - apply Z.div_unique with 0; lia.
Qed.
Lemma triangle_nodup diag n : NoDup (triangle diag n).
Proof.
  unfold triangle. apply NoDup_filter. assert (G : forall l l' : list nat, NoDup l -> NoDup l' -> NoDup (list_prod l l')); [|apply G; apply seq_NoDup].
  induction l as [|x l IH]; intros l' N N'; [constructor|]. inversion N; subst. cbn [list_prod].
  assert (NA : forall l1 l2 : list (nat * nat), NoDup l1 -> NoDup l2 -> (forall x, In x l1 -> ~ In x l2) -> NoDup (l1 ++ l2)).
  { induction l1 as [|y l1 I]; intros l2 A1 A2 A3; auto. inversion A1; subst. constructor.
    - rewrite in_app_iff. intros [K|K]; auto. apply (A3 y); auto. left; auto.
    - apply I; auto. intros z Hz. apply A3. right; auto. }
  apply NA; auto.
  - apply FinFun.Injective_map_NoDup; auto. intros a b E. congruence.
  - intros p Hp Hq. apply in_map_iff in Hp. destruct Hp as (y & <- & _). apply in_prod_iff in Hq. tauto.
Qed.
Lemma triangle_in diag n i j : In (i, j) (triangle diag n) <-> (i < n)%nat /\ (j < n)%nat /\ (i + off diag <= j)%nat.
Proof.
  unfold triangle. rewrite filter_In, in_prod_iff, !in_seq. cbn [fst snd]. unfold off. destruct diag.
  - rewrite Nat.leb_le. lia.
  - rewrite Nat.ltb_lt. lia.
Qed.
Section Walk.
Context {A : Type}.
Variables u l : bool.
Definition pairw (n : nat) (x : nat * nat * A) : list (Z * res A) :=
  (if u then [(Z.of_nat (fst (fst x)) + Z.of_nat n * Z.of_nat (snd (fst x)), Ok (snd x))] else []) ++
  (if l then [(Z.of_nat (snd (fst x)) + Z.of_nat n * Z.of_nat (fst (fst x)), Ok (snd x))] else []).
Lemma walk_row diag n r : (r < n)%nat -> forall k j (es rest : list A), (j + Datatypes.S k = n)%nat -> length es = Datatypes.S k ->
  tri_loop u l diag (Z.of_nat n) (Z.of_nat r * Z.of_nat n + Z.of_nat j - Z.of_nat (off diag)) (es ++ rest) =
  flat_map (pairw n) (combine (map (fun j => (r, j)) (seq j (Datatypes.S k))) es) ++
  tri_loop u l diag (Z.of_nat n) (Z.of_nat (Datatypes.S r) * Z.of_nat n + Z.of_nat (Datatypes.S r)) rest.
Proof.
  intros Hr. assert (Q : forall j, (j < n)%nat -> ((Z.of_nat r * Z.of_nat n + Z.of_nat j) / Z.of_nat n = Z.of_nat r /\ (Z.of_nat r * Z.of_nat n + Z.of_nat j) mod Z.of_nat n = Z.of_nat j)).
  { intros j Hj. split; [rewrite Z.div_add_l by lia; rewrite Z.div_small by lia; lia|]. rewrite Z.add_comm, Z.mod_add by lia. apply Z.mod_small. lia. }
  induction k as [|k IH]; intros j es rest Hj Le; destruct (Q j ltac:(lia)) as (Q1 & Q2); (destruct es as [|e es]; [discriminate|]); cbn [length] in Le.
  - destruct es; [|discriminate]. cbn [app tri_loop seq map combine flat_map]. cbv zeta.
    replace (if diag then Z.of_nat r * Z.of_nat n + Z.of_nat j - Z.of_nat (off diag) else Z.of_nat r * Z.of_nat n + Z.of_nat j - Z.of_nat (off diag) + 1) with (Z.of_nat r * Z.of_nat n + Z.of_nat j) by (destruct diag; unfold off; lia).
    rewrite Q1, Q2. replace (Z.of_nat n =? 0) with false by lia. replace (Z.of_nat j =? Z.of_nat n - 1) with true by lia.
    unfold pairw. cbn [fst snd]. rewrite app_nil_r, app_assoc. f_equal. f_equal. destruct diag; lia.
  - remember (seq (Datatypes.S j) (Datatypes.S k)) as sq. replace (seq j (Datatypes.S (Datatypes.S k))) with (j :: sq) by (rewrite Heqsq; reflexivity).
    cbn [app tri_loop map combine flat_map]. cbv zeta.
    replace (if diag then Z.of_nat r * Z.of_nat n + Z.of_nat j - Z.of_nat (off diag) else Z.of_nat r * Z.of_nat n + Z.of_nat j - Z.of_nat (off diag) + 1) with (Z.of_nat r * Z.of_nat n + Z.of_nat j) by (destruct diag; unfold off; lia).
    rewrite Q1, Q2. replace (Z.of_nat n =? 0) with false by lia. replace (Z.of_nat j =? Z.of_nat n - 1) with false by lia.
    unfold pairw at 1. cbn [fst snd]. rewrite <- !app_assoc. f_equal. f_equal. rewrite Heqsq, <- IH by lia. f_equal. destruct diag; unfold off; lia.
Qed.
Lemma combine_app_ {B C} (a : list B) (c : list C) b d : length a = length c -> combine (a ++ b) (c ++ d) = combine a c ++ combine b d.
Proof. revert c. induction a as [|x a IH]; intros [|y c] H; try discriminate; auto. cbn. f_equal. apply IH. auto. Qed.
Lemma walk_rows diag n : forall k r (es : list A), (r + k = n)%nat -> length es = length (flat_map (trow diag n) (seq r k)) ->
  tri_loop u l diag (Z.of_nat n) (Z.of_nat r * Z.of_nat n + Z.of_nat r) es = flat_map (pairw n) (combine (flat_map (trow diag n) (seq r k)) es).
Proof.
  induction k as [|k IH]; intros r es H L.
  - destruct es; [reflexivity|discriminate].
  - cbn [seq flat_map] in *. rewrite app_length in L. set (w := length (trow diag n r)) in *.
    rewrite <- (firstn_skipn w es). assert (L1 : length (firstn w es) = w) by (rewrite firstn_length; lia).
    rewrite combine_app_ by (symmetry; exact L1). rewrite flat_map_app.
    assert (HW : w = (n - r - off diag)%nat) by (unfold w, trow; rewrite map_length, seq_length; auto).
    clearbody w. destruct w as [|w].
    + cbn [firstn skipn app]. replace (trow diag n r) with (@nil (nat * nat)) by (unfold trow; rewrite <- HW; auto). cbn [combine flat_map app].
      assert (k = 0%nat) by (destruct diag; unfold off in HW; lia). subst k. cbn [seq flat_map length] in *. destruct es; [reflexivity|cbn in L; lia].
    + replace (Z.of_nat r * Z.of_nat n + Z.of_nat r) with (Z.of_nat r * Z.of_nat n + Z.of_nat (r + off diag) - Z.of_nat (off diag)) by lia.
      rewrite (walk_row diag n r ltac:(lia) w); [|lia|auto]. unfold trow at 1. rewrite <- HW. f_equal. apply IH; [lia|]. rewrite skipn_length. lia.
Qed.
Lemma element_in : forall (t : list (nat * nat)) (es : list A) i j v, NoDup t -> In ((i, j), v) (combine t es) -> element_for (combine t es) (Z.of_nat i) (Z.of_nat j) = Some v.
Proof.
  induction t as [|(a, b) t IH]; intros [|e es] i j v N H; try destruct H.
  - injection H as -> -> ->. cbn [combine element_for]. rewrite !Z.eqb_refl. auto.
  - inversion N; subst. cbn [combine element_for]. replace ((Z.of_nat a =? Z.of_nat i) && (Z.of_nat b =? Z.of_nat j)) with false; [apply IH; auto|].
    symmetry. apply andb_false_iff. rewrite !Z.eqb_neq. destruct (Nat.eq_dec a i) as [->|]; [|left; lia]. right. intros Q. apply Nat2Z.inj in Q. subst b.
    apply in_combine_l in H. auto.
Qed.
Lemma element_some : forall (x : list (nat * nat * A)) i j v, element_for x i j = Some v -> exists a b, i = Z.of_nat a /\ j = Z.of_nat b /\ In ((a, b), v) x.
Proof.
  induction x as [|((a, b), e) x IH]; intros i j v E; [discriminate|]. cbn [element_for] in E. destruct ((Z.of_nat a =? i) && (Z.of_nat b =? j)) eqn:K.
  - injection E as <-. exists a, b. split; [lia|]. split; [lia|]. left; auto.
  - destruct (IH _ _ _ E) as (a' & b' & E1 & E2 & I). exists a', b'. split; auto. split; auto. right; auto.
Qed.
Lemma tri_ok (S : mat A) diag (es : list A) : mat_ok S -> nrows S = ncols S -> length es = length (triangle diag (rows S)) ->
  exists S', mwrites S (tri_loop u l diag (nrows S) 0 es) = Ok S' /\ becomes S (with_triangle S u l diag es) S'.
Proof.
  intros W SQ L. rewrite triangle_rows in L. unfold nrows. change 0 with (Z.of_nat 0 * Z.of_nat (rows S) + Z.of_nat 0) at 1.
  rewrite (walk_rows diag (rows S) (rows S) 0 es) by (auto). rewrite <- triangle_rows in *. unfold nrows, ncols in SQ.
  pose proof (triangle_nodup diag (rows S)) as ND. unfold with_triangle. cbv zeta. set (x := combine (triangle diag (rows S)) es).
  assert (IN : forall a b v, In ((a, b), v) x -> (a < rows S)%nat /\ (b < rows S)%nat /\ (a + off diag <= b)%nat /\ element_for x (Z.of_nat a) (Z.of_nat b) = Some v).
  { intros a b v H. split; [|split; [|split]]; try (apply in_combine_l in H; apply triangle_in in H; tauto). apply element_in; auto. }
  assert (SY : forall a b v w, In ((a, b), v) x -> element_for x (Z.of_nat b) (Z.of_nat a) = Some w -> w = v).
  { intros a b v w H E. destruct (IN _ _ _ H) as (B1 & B2 & B3 & B4). destruct (element_some _ _ _ _ E) as (a' & b' & E1 & E2 & H'). apply Nat2Z.inj in E1, E2. subst a' b'.
    destruct (IN _ _ _ H') as (C1 & C2 & C3 & C4). assert (a = b) by (unfold off in *; lia). subst b. congruence. }
  apply mwrites_ok; auto.
  - intros p e H. apply in_flat_map in H. destruct H as (((a, b), v) & Hx & H). destruct (IN _ _ _ Hx) as (B1 & B2 & B3 & B4). unfold pairw in H. cbn [fst snd] in H. apply in_app_iff in H.
    unfold inside, pos, nrows, ncols. destruct H as [H|H].
    + destruct u; [|destruct H]. destruct H as [H|[]]. injection H as <- <-. exists (Z.of_nat a), (Z.of_nat b), v. split; [lia|]. split; auto. split; auto. rewrite B4. auto.
    + destruct l; [|destruct H]. destruct H as [H|[]]. injection H as <- <-. exists (Z.of_nat b), (Z.of_nat a), v. split; [lia|]. split; auto. split; auto.
      destruct u; [destruct (element_for x (Z.of_nat b) (Z.of_nat a)) as [w|] eqn:E|]; [f_equal; eapply SY; eauto| |]; rewrite B4; auto.
  - intros i j I. destruct (if u then element_for x i j else None) as [v|] eqn:EU.
    + left. destruct u eqn:Eu; [|discriminate]. destruct (element_some _ _ _ _ EU) as (a & b & -> & -> & H). apply in_map_iff. exists (pos S (Z.of_nat a) (Z.of_nat b), Ok v). split; auto.
      apply in_flat_map. exists ((a, b), v). split; auto. unfold pairw. rewrite Eu. left. auto.
    + destruct (if l then element_for x j i else None) as [v|] eqn:EL; [left|right; auto]. destruct l eqn:El; [|discriminate].
      destruct (element_some _ _ _ _ EL) as (a & b & -> & -> & H). apply in_map_iff. exists (pos S (Z.of_nat b) (Z.of_nat a), Ok v). split; auto.
      apply in_flat_map. exists ((a, b), v). split; auto. unfold pairw. rewrite El. apply in_app_iff. right. left. auto.
Qed.
End Walk.
Theorem make_triangular_ok {A} (S E : mat A) up (diag byrow : bool) : mat_ok S -> mat_ok E -> nrows S = ncols S ->
  mlength E = (if diag then nrows S * (nrows S + 1) / 2 else nrows S * (nrows S - 1) / 2) -> byrow = upper_part up ->
  exists S', make_triangular S E up diag byrow = Ok S' /\ becomes S (with_triangle S (upper_part up) (lower_part up) diag (firstn (rows E * cols E) (data E))) S'.
Proof.
  intros WS WE SQ L BR. unfold make_triangular. cbv zeta. replace (nrows S =? ncols S) with true by lia. cbn [negb].
  assert (LL : length (firstn (rows E * cols E) (data E)) = length (triangle diag (rows S))).
  { apply Nat2Z.inj. rewrite triangle_length, firstn_length, Nat.min_l by exact WE. unfold mlength, nrows, ncols in L. rewrite Nat2Z.inj_mul. destruct diag; exact L. }
  assert (EL : Z.to_nat (mlength E) = (rows E * cols E)%nat) by (unfold mlength, nrows, ncols; lia). rewrite EL.
  replace (diag && negb (mlength E =? nrows S * (nrows S + 1) / 2)) with false by (destruct diag; [rewrite L, Z.eqb_refl|]; auto).
  replace (negb diag && negb (mlength E =? nrows S * (nrows S - 1) / 2)) with false by (destruct diag; [|rewrite L, Z.eqb_refl]; auto).
  unfold make_triangular0. fold (upper_part up). rewrite BR. unfold upper_part, lower_part. destruct (Z.eqb_spec up 0) as [->|]; cbn [orb].
  - apply tri_ok; auto.
  - destruct (Z.eqb_spec up 1) as [->|]; apply tri_ok; auto.
Qed.
Theorem make_triangular_bad {A} (S E : mat A) up (diag byrow : bool) :
  nrows S <> ncols S \/ mlength E <> (if diag then nrows S * (nrows S + 1) / 2 else nrows S * (nrows S - 1) / 2) \/ byrow <> upper_part up ->
  make_triangular S E up diag byrow = Throw.
Proof.
  intros H. unfold make_triangular. cbv zeta. destruct (Z.eqb_spec (nrows S) (ncols S)) as [SQ|]; cbn [negb]; auto.
  destruct diag; cbn [andb negb].
  - destruct (Z.eqb_spec (mlength E) (nrows S * (nrows S + 1) / 2)) as [L|]; cbn [negb]; auto.
    unfold make_triangular0. fold (upper_part up). destruct (upper_part up), byrow; auto; exfalso; intuition congruence.
  - destruct (Z.eqb_spec (mlength E) (nrows S * (nrows S - 1) / 2)) as [L|]; cbn [negb]; auto.
    unfold make_triangular0. fold (upper_part up). destruct (upper_part up), byrow; auto; exfalso; intuition congruence.
Qed.
