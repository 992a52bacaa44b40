(** Transposition in place: proofs. *)
From Verif Require Import MatSpec MatProofs MatProofs2 MatProofs3.
From Coq Require Import Lia ZifyBool.
Local Open Scope Z_scope.

Definition at_ {A} (d : list A) (x : Z) : option A := nth_error d (Z.to_nat x).

Lemma at_upd {A} (d : list A) k v x : 0 <= k < Z.of_nat (length d) -> 0 <= x -> at_ (upd (Z.to_nat k) v d) x = if x =? k then Some v else at_ d x.
Proof.
  intros Hk Hx. unfold at_. destruct (Z.eqb_spec x k) as [-> |n].
  - apply nth_error_upd_same. lia.
  - apply nth_error_upd_other. lia.
Qed.
Lemma swap_ok {A} (d : list A) a c : 0 <= a < Z.of_nat (length d) -> 0 <= c < Z.of_nat (length d) ->
  exists d', swap d a c = Ok d' /\ length d' = length d /\
    forall x, 0 <= x -> at_ d' x = if x =? a then at_ d c else if x =? c then at_ d a else at_ d x.
Proof.
  intros Ha Hc. unfold swap. destruct (rd_ok d a Ha) as (u & E1 & ->). destruct (rd_ok d c Hc) as (w & E2 & ->). cbn [bind].
  rewrite (wr_ok d a w) by auto. cbn [bind]. rewrite wr_ok by (rewrite upd_length; auto).
  eexists. split; [reflexivity|]. split; [rewrite !upd_length; auto|].
  intros x Hx. rewrite at_upd by (rewrite ?upd_length; auto). rewrite at_upd by auto. unfold at_ in *.
  destruct (Z.eqb_spec x c); destruct (Z.eqb_spec x a); subst; try congruence.
Qed.

Lemma NoDup_map_inj {A B} (h : A -> B) : forall l, (forall x y, In x l -> In y l -> h x = h y -> x = y) -> NoDup l -> NoDup (map h l).
Proof.
  induction l as [|a l IH]; intros Hi Hn; [constructor|]. inversion Hn; subst. cbn [map]. constructor.
  - intros H. apply in_map_iff in H. destruct H as (b & E & Hb). apply Hi in E; [subst; auto | right; auto | left; auto].
  - apply IH; auto. intros x y Hx Hy. apply Hi; right; auto.
Qed.

Section Perm.
Context {A : Type} (R C N : Z).
Hypothesis HR : 0 < R.
Hypothesis HC : 0 < C.
Hypothesis HN : N = R * C - 1.
Hypothesis HN1 : 0 < N.
Hypothesis HB : C * (N - 1) <= int_max.
Let f x := (C * x) mod N.
Let g x := (R * x) mod N.

Lemma f_range x : 0 <= f x < N. Proof. apply Z.mod_pos_bound; lia. Qed.
Lemma g_range x : 0 <= g x < N. Proof. apply Z.mod_pos_bound; lia. Qed.
Lemma rc_mod x : 0 <= x < N -> (R * C * x) mod N = x.
Proof.
  intros Hx. replace (R * C * x) with (x + x * N) by (subst N; ring). rewrite Z.mod_add by lia. apply Z.mod_small; lia.
Qed.
Lemma gf x : 0 <= x < N -> g (f x) = x.
Proof. intros Hx. unfold g, f. rewrite Z.mul_mod_idemp_r by lia. rewrite Z.mul_assoc. apply rc_mod; auto. Qed.
Lemma fg x : 0 <= x < N -> f (g x) = x.
Proof. intros Hx. unfold g, f. rewrite Z.mul_mod_idemp_r by lia. rewrite Z.mul_assoc, (Z.mul_comm C R). apply rc_mod; auto. Qed.

Record cyc (D : list A) (V : Z -> bool) (c a : Z) (p : list Z) (vis : list bool) (d : list A) : Prop := {
  cy_len : length d = length D; cy_vlen : length vis = Z.to_nat N;
  cy_nodup : NoDup p; cy_c : ~ In c p; cy_range : forall x, In x p -> 0 <= x < N;
  cy_a : a = c /\ p = [] \/ In a p;
  cy_new : forall x, In x p -> V x = false;
  cy_g : forall x, In x p -> (g x = c \/ In (g x) p) /\ g x <> a;
  cy_f : forall x, x = c \/ In x p -> x = a \/ In (f x) p;
  cy_vis : forall x, 0 <= x < N -> at_ vis x = Some (V x || existsb (Z.eqb x) p);
  cy_in : forall x, In x p -> at_ d x = at_ D (g x);
  cy_d : at_ d c = at_ D a;
  cy_out : forall x, 0 <= x -> x <> c -> ~ In x p -> at_ d x = at_ D x }.

Lemma existsb_in p x : existsb (Z.eqb x) p = true <-> In x p.
Proof. rewrite existsb_exists. split; [intros (y & H & E); apply Z.eqb_eq in E; subst; auto | intros; exists x; split; auto; apply Z.eqb_refl]. Qed.

Lemma cycle_ok (D : list A) (V : Z -> bool) c : N <= Z.of_nat (length D) -> 0 <= c < N -> V c = false ->
  (forall x, 0 <= x < N -> V (f x) = V x) ->
  forall fuel a p vis d, cyc D V c a p vis d -> (Z.to_nat N < fuel + length p)%nat ->
  exists q vis' d', cycle fuel C N c a vis d = Ok (vis', d') /\ length d' = length D /\ length vis' = Z.to_nat N /\
    In c q /\ (forall x, In x q -> 0 <= x < N /\ V x = false /\ In (f x) q /\ at_ d' x = at_ D (g x)) /\
    (forall x, 0 <= x -> ~ In x q -> at_ d' x = at_ D x) /\
    (forall x, 0 <= x < N -> at_ vis' x = Some (V x || existsb (Z.eqb x) q)).
Proof.
  intros HD Hc HVc HV. induction fuel as [|fu IH]; intros a p vis d I Hf.
  - exfalso. assert (incl (c :: p) (map Z.of_nat (seq 0 (Z.to_nat N)))).
    { intros x [<- |H]; apply in_map_iff; [exists (Z.to_nat c) | exists (Z.to_nat x); pose proof (cy_range _ _ _ _ _ _ _ I x H)]; split; try lia; apply in_seq; lia. }
    assert (L : (length (c :: p) <= length (map Z.of_nat (seq 0 (Z.to_nat N))))%nat).
    { apply NoDup_incl_length; auto. constructor; [apply I | apply I]. }
    rewrite map_length, seq_length in L. cbn [length] in L. lia.
  - assert (Ra : 0 <= a < N). { destruct (cy_a _ _ _ _ _ _ _ I) as [[-> _]|H]; auto. apply (cy_range _ _ _ _ _ _ _ I); auto. }
    cbn [cycle]. assert (C * a <= int_max) by nia. destruct (Z.ltb_spec int_max (C * a)); [lia|].
    rewrite Z.rem_mod_nonneg by nia. fold (f a). pose proof (f_range a) as Rf.
    assert (Na : ~ In (f a) p). { intros H1. destruct (cy_g _ _ _ _ _ _ _ I _ H1) as (_ & G). rewrite gf in G; auto. }
    rewrite wr_ok by (rewrite (cy_vlen _ _ _ _ _ _ _ I); lia). cbn [bind].
    destruct (swap_ok d (f a) c) as (d' & -> & Ld & Ed); [rewrite (cy_len _ _ _ _ _ _ _ I); lia .. |]. cbn [bind].
    assert (Va : V a = false). { destruct (cy_a _ _ _ _ _ _ _ I) as [[-> _]|H1]; auto. apply (cy_new _ _ _ _ _ _ _ I); auto. }
    destruct (Z.eqb_spec (f a) c) as [e|ne].
    + exists (c :: p). eexists _, _. split; [reflexivity|]. split; [rewrite Ld; apply I|]. split; [rewrite upd_length; apply I|].
      split; [left; auto|]. split; [|split].
      * intros x Hx. assert (Rx : 0 <= x < N) by (destruct Hx as [<- |Hx]; auto; apply (cy_range _ _ _ _ _ _ _ I); auto).
        split; auto. split; [destruct Hx as [<- |Hx]; auto; apply (cy_new _ _ _ _ _ _ _ I); auto|]. split.
        { destruct (cy_f _ _ _ _ _ _ _ I x) as [-> |G]; [destruct Hx; auto | left; auto | right; auto]. }
        rewrite Ed by lia. rewrite e. destruct Hx as [<- |Hx].
        { rewrite Z.eqb_refl. rewrite (cy_d _ _ _ _ _ _ _ I). f_equal. rewrite <- e, gf; auto. }
        destruct (Z.eqb_spec x c) as [-> |]; [destruct (cy_c _ _ _ _ _ _ _ I); auto|]. apply (cy_in _ _ _ _ _ _ _ I); auto.
      * intros x Hx Hn. rewrite Ed by lia. rewrite e. destruct (Z.eqb_spec x c) as [-> |]; [destruct Hn; left; auto|].
        apply (cy_out _ _ _ _ _ _ _ I); auto. intros G; apply Hn; right; auto.
      * intros x Hx. rewrite at_upd by (rewrite ?(cy_vlen _ _ _ _ _ _ _ I); lia). rewrite e. cbn [existsb].
        destruct (Z.eqb_spec x c); [rewrite orb_true_r; auto|]. apply (cy_vis _ _ _ _ _ _ _ I); auto.
    + apply (IH (f a) (f a :: p)); [|cbn [length]; lia].
      assert (Nfa : f a <> a). { intros E. destruct (cy_a _ _ _ _ _ _ _ I) as [[-> _]|H1]; [congruence|]. rewrite E in Na; auto. }
      constructor.
      * rewrite Ld; apply I.
      * rewrite upd_length; apply I.
      * constructor; [auto | apply I].
      * intros [G|G]; [congruence | apply (cy_c _ _ _ _ _ _ _ I); auto].
      * intros x [<- |G]; auto. apply (cy_range _ _ _ _ _ _ _ I); auto.
      * right; left; auto.
      * intros x [<- |G]; [rewrite HV; auto | apply (cy_new _ _ _ _ _ _ _ I); auto].
      * intros x [<- |G].
        { rewrite gf by auto. split; auto. destruct (cy_a _ _ _ _ _ _ _ I) as [[-> _]|H1]; [left|right;right]; auto. }
        destruct (cy_g _ _ _ _ _ _ _ I x G) as ([G1|G1] & G2); (split; [|intros E]).
        { left; auto. } { congruence. } { right; right; auto. } { rewrite E in G1; auto. }
      * intros x Hx. assert (x = c \/ x = f a \/ In x p) as Hx' by (destruct Hx as [|[|]]; auto). clear Hx.
        destruct Hx' as [-> |[-> |G]]; [| left; auto |].
        { destruct (cy_f _ _ _ _ _ _ _ I c) as [E|G]; auto; [right; left; rewrite E; auto | right; right; auto]. }
        { destruct (cy_f _ _ _ _ _ _ _ I x) as [E|G1]; auto; [right; left; rewrite E; auto | right; right; auto]. }
      * intros x Hx. rewrite at_upd by (rewrite ?(cy_vlen _ _ _ _ _ _ _ I); lia). cbn [existsb].
        destruct (Z.eqb_spec x (f a)); [rewrite orb_true_r; auto|]. apply (cy_vis _ _ _ _ _ _ _ I); auto.
      * intros x [<- |G].
        { rewrite Ed by lia. rewrite Z.eqb_refl. rewrite gf by auto. apply (cy_d _ _ _ _ _ _ _ I). }
        pose proof (cy_range _ _ _ _ _ _ _ I x G). rewrite Ed by lia. destruct (Z.eqb_spec x (f a)) as [-> |]; [tauto|].
        destruct (Z.eqb_spec x c) as [-> |]; [destruct (cy_c _ _ _ _ _ _ _ I); auto|]. apply (cy_in _ _ _ _ _ _ _ I); auto.
      * rewrite Ed by lia. destruct (Z.eqb_spec c (f a)); [congruence|]. rewrite Z.eqb_refl.
        apply (cy_out _ _ _ _ _ _ _ I); auto. lia.
      * intros x Hx0 Hxc Hx. rewrite Ed by lia. destruct (Z.eqb_spec x (f a)) as [-> |]; [destruct Hx; left; auto|].
        destruct (Z.eqb_spec x c); [tauto|]. apply (cy_out _ _ _ _ _ _ _ I); auto. intros G; apply Hx; right; auto.
Qed.

Lemma cycles_ok (D : list A) : N <= Z.of_nat (length D) -> forall l (V : Z -> bool) vis d,
  (forall x, In x l -> 0 <= x < N) ->
  length d = length D -> length vis = Z.to_nat N ->
  (forall x, 0 <= x < N -> V (f x) = V x) -> (forall x, 0 <= x < N -> at_ vis x = Some (V x)) ->
  (forall x, 0 <= x -> at_ d x = if (x <? N) && V x then at_ D (g x) else at_ D x) ->
  (forall x, 0 <= x < N -> V x = true \/ In x l) ->
  exists d', cycles C N l vis d = Ok d' /\ length d' = length D /\
    forall x, 0 <= x -> at_ d' x = if x <? N then at_ D (g x) else at_ D x.
Proof.
  intros HD. induction l as [|c l IH]; intros V vis d Hl Ld Lv HV Hvis Hd Hcov.
  - exists d. split; auto. split; auto. intros x Hx. rewrite Hd by auto. destruct (Z.ltb_spec x N); auto.
    destruct (Hcov x) as [-> |[]]; auto.
  - cbn [cycles]. assert (Rc : 0 <= c < N) by (apply Hl; left; auto).
    unfold rd. destruct (Z.ltb_spec c 0); [lia|]. specialize (Hvis c Rc) as Ec. unfold at_ in Ec. rewrite Ec. cbn [bind].
    destruct (V c) eqn:Vc.
    + apply (IH V); auto. { intros; apply Hl; right; auto. }
      intros x Hx. destruct (Hcov x Hx) as [|[<- |]]; auto.
    + destruct (cycle_ok d V c) with (fuel := S (Z.to_nat N)) (a := c) (p := @nil Z) (vis := vis) (d := d) as (q & vis' & d' & E & Ld' & Lv' & Hcq & Hq & Hout & Hv'); try lia; auto.
      { constructor; auto; try (intros ? []; fail); try (constructor; fail). all: cbn [In]; try tauto; try (apply NoDup_nil).
        intros x Hx. rewrite (Hvis x Hx). cbn [existsb]. rewrite orb_false_r; auto. }
      rewrite E. cbn [bind].
      assert (Fq : forall x, 0 <= x < N -> In (f x) q -> In x q).
      { (* q is finite and closed under the injection f, hence under its inverse *)
        intros x Hx Hin. assert (Hinj : NoDup (map f (nodup Z.eq_dec q))).
        { apply NoDup_map_inj; [|apply NoDup_nodup]. intros u w Hu Hw Euw. apply nodup_In in Hu. apply nodup_In in Hw.
          destruct (Hq _ Hu) as (Ru & _). destruct (Hq _ Hw) as (Rw & _). rewrite <- (gf u Ru), <- (gf w Rw), Euw; auto. }
        assert (Hincl : incl (nodup Z.eq_dec q) (map f (nodup Z.eq_dec q))).
        { apply NoDup_length_incl; auto; [rewrite map_length; auto|]. intros u Hu. apply in_map_iff in Hu. destruct Hu as (w & <- & Hw).
          apply nodup_In. apply nodup_In in Hw. destruct (Hq _ Hw) as (_ & _ & G & _). auto. }
        assert (In (f x) (map f (nodup Z.eq_dec q))) as G by (apply Hincl, nodup_In; auto).
        apply in_map_iff in G. destruct G as (w & Ew & Hw). apply nodup_In in Hw. destruct (Hq _ Hw) as (Rw & _).
        rewrite <- (gf x Hx), <- Ew, gf; auto. }
      apply (IH (fun x => V x || existsb (Z.eqb x) q)); auto.
      * intros; apply Hl; right; auto.
      * congruence.
      * intros x Hx. rewrite HV by auto. f_equal. apply eq_true_iff_eq. rewrite !existsb_in. split; auto.
        intros G. apply Hq; auto.
      * intros x Hx. destruct (existsb (Z.eqb x) q) eqn:Eq.
        { apply existsb_in in Eq. destruct (Hq _ Eq) as (Rx & Vx & _ & ->). rewrite Vx. destruct (Z.ltb_spec x N); [|lia]. cbn [andb orb].
          pose proof (g_range x). rewrite Hd by lia.
          assert (V (g x) = false) as ->. { rewrite <- (HV (g x)), fg; auto. } rewrite andb_false_r. auto. }
        rewrite orb_false_r. rewrite Hout; auto. intros G. apply existsb_in in G. congruence.
      * intros x Hx. destruct (Hcov x Hx) as [-> |[<- |]]; auto. left. apply existsb_in in Hcq. rewrite Hcq. apply orb_true_r.
Qed.
End Perm.

(** ** Square matrices *)
Lemma NoDup_flat_map {A B} (h : A -> list B) : forall l, NoDup l -> (forall x, In x l -> NoDup (h x)) ->
  (forall x y b, In x l -> In y l -> In b (h x) -> In b (h y) -> x = y) -> NoDup (flat_map h l).
Proof.
  induction l as [|a l IH]; intros Hl Hn Hd; cbn [flat_map]; [constructor|]. inversion Hl; subst.
  assert (G : forall (u w : list B), NoDup u -> NoDup w -> (forall b, In b u -> In b w -> False) -> NoDup (u ++ w)).
  { clear. induction u as [|x u IH]; intros w Hu Hw Hd; auto. inversion Hu; subst. cbn [app]. constructor.
    - intros G. apply in_app_or in G. destruct G; auto. apply (Hd x); [left|]; auto.
    - apply IH; auto. intros b Hb. apply Hd. right; auto. }
  apply G; [apply Hn; left; auto | apply IH; auto |].
  - intros x Hx. apply Hn. right; auto.
  - intros x y b Hx Hy. apply Hd; right; auto.
  - intros b Hb Hc. apply in_flat_map in Hc. destruct Hc as (y & Hy & Hc). assert (a = y) by (eapply Hd; eauto; [left | right]; auto). subst; auto.
Qed.
Lemma zrange_nodup a n : NoDup (zrange a n).
Proof.
  unfold zrange. apply NoDup_map_inj; [|apply seq_NoDup]. intros x y _ _ E. lia.
Qed.

Lemma swaps_square {A} n : forall (L : list (Z * Z)) (d : list A), n * n <= Z.of_nat (length d) -> NoDup L ->
  (forall i j, In (i, j) L -> 0 <= i < j /\ j < n) ->
  exists d', swaps (map (fun p => (snd p + n * fst p, fst p + n * snd p)) L) d = Ok d' /\ length d' = length d /\
    (forall i j, 0 <= i < n -> 0 <= j < n -> (In (i, j) L \/ In (j, i) L) -> at_ d' (i + n * j) = at_ d (j + n * i)) /\
    (forall x, 0 <= x -> (forall i j, (In (i, j) L \/ In (j, i) L) -> x <> i + n * j) -> at_ d' x = at_ d x).
Proof.
  induction L as [|(i, j) L IH]; intros d Hd HL Hr.
  - exists d. repeat split; auto. intros i j _ _ [[]|[]].
  - cbn [map swaps fst snd]. inversion HL as [|? ? Hni HL']; subst. destruct (Hr i j) as (Hi & Hj); [left; auto|].
    destruct (swap_ok d (j + n * i) (i + n * j)) as (d1 & -> & L1 & E1); [nia .. |]. cbn [bind].
    destruct (IH d1) as (d' & -> & L' & E' & O'); auto; [rewrite L1; auto | intros; apply Hr; right; auto |].
    assert (Rin : forall a b, In (a, b) L \/ In (b, a) L -> 0 <= a < n /\ 0 <= b < n).
    { intros a b [H|H]; specialize (Hr _ _ (or_intror H)); lia. }
    exists d'. split; auto. split; [congruence|]. split.
    + intros a b Ha Hb Hin.
      assert (((a, b) = (i, j) \/ (b, a) = (i, j)) \/ (In (a, b) L \/ In (b, a) L)) as [Heq|Hin'].
      { destruct Hin as [[H|H]|[H|H]]; auto. }
      * rewrite O'; [| nia |].
        { rewrite E1 by nia. destruct Heq as [H|H]; injection H as -> ->.
          - destruct (Z.eqb_spec (i + n * j) (j + n * i)) as [E|]; [apply pos_inj in E; lia|]. rewrite Z.eqb_refl. auto.
          - rewrite Z.eqb_refl. auto. }
        intros u w Huw E. destruct (Rin _ _ Huw). apply pos_inj in E; auto. destruct E as (-> & ->).
        destruct Heq as [F|F]; injection F as -> ->; destruct Huw as [G|G]; auto; specialize (Hr _ _ (or_intror G)); lia.
      * rewrite E' by auto. rewrite E1 by nia.
        destruct (Z.eqb_spec (b + n * a) (j + n * i)) as [E|].
        { apply pos_inj in E; [|lia|lia]. destruct E as (-> & ->). destruct Hin' as [H|H]; [tauto|]. specialize (Hr _ _ (or_intror H)); lia. }
        destruct (Z.eqb_spec (b + n * a) (i + n * j)) as [E|]; auto.
        apply pos_inj in E; [|lia|lia]. destruct E as (-> & ->). destruct Hin' as [H|H]; [|tauto]. specialize (Hr _ _ (or_intror H)); lia.
    + intros x Hx Hn. rewrite O'; auto.
      * rewrite E1 by auto. assert (x <> i + n * j) by (apply Hn; left; left; auto). assert (x <> j + n * i) by (apply Hn; right; left; auto).
        destruct (Z.eqb_spec x (j + n * i)); [lia|]. destruct (Z.eqb_spec x (i + n * j)); [lia|]. auto.
      * intros u w Huw. apply Hn. destruct Huw; [left|right]; right; auto.
Qed.

Lemma entry_at {A} (M : mat A) i j : inside M i j -> entry M i j = at_ (data M) (i + nrows M * j).
Proof.
  intros H. unfold entry, at_. replace (insideb M i j) with true by (symmetry; apply inside_b; auto). do 2 f_equal. ring.
Qed.

(** The result of a transposition in place. *)
Lemma transpose_ok {A} (M : mat A) : mat_ok M ->
  nrows M = ncols M \/ 0 < nrows M * ncols M /\ ncols M * (nrows M * ncols M - 2) <= int_max ->
  exists M', transpose M = Ok M' /\ rows M' = cols M /\ cols M' = rows M /\ length (data M') = length (data M) /\
    (forall i j, inside M i j -> entry M' j i = entry M i j) /\
    (forall k, (rows M * cols M <= k)%nat -> nth_error (data M') k = nth_error (data M) k).
Proof.
  intros W H. unfold transpose. destruct (Z.eqb_spec (nrows M) (ncols M)) as [E|NE].
  - set (n := nrows M) in *.
    set (L := flat_map (fun i => map (fun j => (i, j)) (zrange (i + 1) (n - (i + 1)))) (zrange 0 n)).
    assert (HL : forall i j, In (i, j) L <-> 0 <= i < j /\ j < n).
    { intros i j. unfold L. rewrite in_flat_map. split.
      - intros (i' & H1 & H2). apply in_map_iff in H2. destruct H2 as (j' & E2 & H2). injection E2 as -> ->. apply in_zrange in H1. apply in_zrange in H2. lia.
      - intros Hij. exists i. split; [apply in_zrange; lia|]. apply in_map_iff. exists j. split; auto. apply in_zrange; lia. }
    destruct (swaps_square n L (data M)) as (d' & E1 & L1 & S1 & O1).
    + unfold mat_ok in W. unfold n, nrows, ncols in *. nia.
    + apply NoDup_flat_map; [apply zrange_nodup| |].
      * intros i _. apply NoDup_map_inj; [|apply zrange_nodup]. intros x y _ _ G. congruence.
      * intros x y b _ _ H1 H2. apply in_map_iff in H1. destruct H1 as (u & <- & _). apply in_map_iff in H2. destruct H2 as (w & G & _). congruence.
    + intros i j Hij. apply HL; auto.
    + replace (flat_map _ _) with (map (fun p : Z * Z => (snd p + n * fst p, fst p + n * snd p)) L).
      2:{ unfold L. rewrite <- E. rewrite flat_map_concat_map, concat_map, map_map, <- flat_map_concat_map. apply flat_map_ext. intros i. rewrite map_map. apply map_ext. intros j. reflexivity. }
      rewrite E1. cbn [bind]. eexists. split; [reflexivity|]. cbn [rows cols data with_data].
      assert (rows M = cols M) by (unfold n, nrows, ncols in E; lia). split; [auto|]. split; [auto|]. split; [auto|]. split.
      * intros i j (Hi & Hj). unfold with_data. rewrite !entry_at; [|split; cbn; auto | split; unfold nrows, ncols in *; cbn; lia].
        cbn [data]. change (nrows (Mat (rows M) (cols M) d')) with n. fold n. destruct (Z.eq_dec i j) as [-> |].
        { apply O1; [unfold n, nrows in *; nia|]. intros u w Huw G. rewrite !HL in Huw. apply pos_inj in G; lia. }
        apply S1; try (unfold n in *; lia). rewrite !HL. unfold n in *. lia.
      * intros k Hk. specialize (O1 (Z.of_nat k)). unfold at_ in O1. rewrite Nat2Z.id in O1. apply O1; [lia|].
        intros u w Huw. rewrite !HL in Huw. unfold n, nrows, ncols in *. nia.
  - destruct H as [H|(Hpos & Hov)]; [tauto|].
    set (R := nrows M) in *. set (C := ncols M) in *. unfold mlength. fold R C. set (N := R * C - 1).
    assert (HR : 0 < R) by (unfold R, nrows in *; nia). assert (HC : 0 < C) by (unfold C, ncols in *; nia).
    assert (HN1 : 0 < N) by (unfold N; nia). destruct (Z.ltb_spec N 0); [lia|].
    assert (Wl : N < Z.of_nat (length (data M))) by (unfold mat_ok in W; unfold N, R, C, nrows, ncols in *; nia).
    destruct (@cycles_ok A R C N HC eq_refl HN1) with (D := data M) (l := zrange 0 N) (V := fun _ : Z => false) (vis := repeat false (Z.to_nat N)) (d := data M)
      as (d' & -> & L1 & E1).
    + unfold N in *. lia.
    + lia.
    + intros x Hx. apply in_zrange in Hx. lia.
    + auto.
    + apply repeat_length.
    + auto.
    + intros x Hx. unfold at_. apply nth_error_repeat. lia.
    + intros x Hx. rewrite andb_false_r. auto.
    + intros x Hx. right. apply in_zrange. lia.
    + cbn [bind]. eexists. split; [reflexivity|]. cbn [rows cols data]. split; [auto|]. split; [auto|]. split; [auto|]. split.
      * intros i j (Hi & Hj). rewrite (entry_at M) by (split; auto). rewrite (entry_at (Mat (cols M) (rows M) d')) by (split; auto). fold R in Hi. fold C in Hj.
        change (nrows (Mat (cols M) (rows M) d')) with C. fold R. cbn [data].
        assert (0 <= i + R * j <= N) by (unfold N; nia). assert (0 <= j + C * i <= N) by (unfold N; nia).
        rewrite E1 by lia. destruct (Z.ltb_spec (j + C * i) N).
        { f_equal. replace (R * (j + C * i)) with (i + R * j + i * N) by (unfold N; ring). rewrite Z.mod_add by lia. apply Z.mod_small.
          enough (i + R * j <> N) by lia. intros G. assert (i = R - 1 /\ j = C - 1) as (-> & ->); [|unfold N in *; nia].
          apply (pos_inj R); [lia|lia|]. unfold N in G. nia. }
        { f_equal. assert (j + C * i = N) as G by lia. assert (j = C - 1 /\ i = R - 1) as (-> & ->); [|unfold N in *; nia].
          apply (pos_inj C); [lia|lia|]. unfold N in G. nia. }
      * intros k Hk. specialize (E1 (Z.of_nat k)). unfold at_ in E1. rewrite Nat2Z.id in E1. rewrite E1 by lia.
        destruct (Z.ltb_spec (Z.of_nat k) N); auto. unfold N, R, C, nrows, ncols in *. nia.
Qed.

(** ** Overflow for long row vectors *)
Lemma cycles_row_overflow {A} n N : N = n - 1 -> 2 <= n -> forall k s vis (d : list A), k = N - s -> 0 <= s ->
  length vis = Z.to_nat N -> N <= Z.of_nat (length d) -> (forall x, s <= x < N -> at_ vis x = Some false) ->
  (exists c, s <= c < N /\ int_max < n * c) -> cycles n N (zrange s k) vis d = UB.
Proof.
  intros HN Hn k. remember (Z.to_nat k) as m eqn:Em. revert k Em. induction m as [|m IH]; intros k Em s vis d Hk Hs Lv Ld Hv (c & Hc & Ho); [lia|].
  assert (Z1 : zrange s k = s :: zrange (s + 1) (k - 1)).
  { unfold zrange. replace (Z.to_nat k) with (S (Z.to_nat (k - 1))) by lia. cbn [seq map]. f_equal; [lia|]. rewrite <- seq_shift, map_map. apply map_ext. intros. lia. }
  rewrite Z1. cbn [cycles]. unfold rd at 1. destruct (Z.ltb_spec s 0); [lia|]. specialize (Hv s ltac:(lia)) as Es. unfold at_ in Es. rewrite Es. cbn [bind].
  cbn [cycle]. destruct (Z.ltb_spec int_max (n * s)) as [|Hle]; [reflexivity|].
  assert (Z.rem (n * s) N = s) as ->.
  { rewrite Z.rem_mod_nonneg by nia. replace (n * s) with (s + s * N) by (subst N; ring). rewrite Z.mod_add by lia. apply Z.mod_small; lia. }
  rewrite wr_ok by lia. cbn [bind]. destruct (swap_ok d s s) as (d' & -> & Ld' & _); [lia|lia|]. cbn [bind]. rewrite Z.eqb_refl. cbn [bind].
  apply IH; try lia.
  - rewrite upd_length. lia.
  - intros x Hx. rewrite at_upd by lia. destruct (Z.eqb_spec x s); [lia|]. apply Hv. lia.
  - exists c. split; auto. destruct (Z.eq_dec c s); [subst; lia|lia].
Qed.
Lemma transpose_row_overflow {A} (M : mat A) : mat_ok M -> nrows M = 1 -> 2 <= ncols M -> int_max < ncols M * (ncols M - 2) -> transpose M = UB.
Proof.
  intros W HR HC Ho. unfold transpose, mlength. rewrite HR. destruct (Z.eqb_spec 1 (ncols M)); [lia|].
  replace (1 * ncols M - 1) with (ncols M - 1) by ring. destruct (Z.ltb_spec (ncols M - 1) 0); [lia|].
  rewrite (cycles_row_overflow (ncols M) (ncols M - 1)); auto; try lia.
  - apply repeat_length.
  - unfold mat_ok, nrows, ncols in *. nia.
  - intros x Hx. unfold at_. apply nth_error_repeat. lia.
  - exists (ncols M - 2). unfold int_max in *. nia.
Qed.
Lemma transpose_empty {A} (M : mat A) : nrows M <> ncols M -> nrows M * ncols M = 0 -> transpose M = Throw.
Proof. intros H E. unfold transpose, mlength. destruct (Z.eqb_spec (nrows M) (ncols M)); [lia|]. rewrite E. reflexivity. Qed.
