(** Proofs about HCluster::Calculate. *)
From Verif Require Import Base Num ClusterModel ClusterSpec.
Local Open Scope nat_scope.

Lemma qltb_false a b : qltb a b = false -> (b <= a)%Qc.
Proof. intros H. destruct (qltb_spec a b) as [|G]; [discriminate|]. apply Qcnot_lt_le; auto. Qed.
Lemma qltb_true a b : qltb a b = true -> (a < b)%Qc.
Proof. apply qltb_lt. Qed.

(** ** Distances *)
Notation dd := pair_dist (only parsing).
Lemma dd_sym D i j : dd D i j = dd D j i.
Proof. unfold dd. rewrite Nat.min_comm, Nat.max_comm. reflexivity. Qed.

Lemma dget_ok D i j : i <> j -> dget D i j = Ok (dd D i j).
Proof. intros H. unfold dget. destruct (Nat.eqb_spec i j); [congruence|reflexivity]. Qed.

Lemma dset_ok D i j v : i <> j -> exists D', dset D i j v = Ok D' /\
  forall a b, a <> b -> ((a = i /\ b = j \/ a = j /\ b = i) -> dd D' a b = v) /\
    (~ (a = i /\ b = j \/ a = j /\ b = i) -> dd D' a b = dd D a b).
Proof.
  intros H. unfold dset. destruct (Nat.eqb_spec i j); [congruence|]. eexists. split; [reflexivity|].
  intros a b Hab. unfold dd. split; intros H1.
  - destruct (Nat.eqb_spec (Nat.min a b) (Nat.min i j)); [|lia].
    destruct (Nat.eqb_spec (Nat.max a b) (Nat.max i j)); [reflexivity|lia].
  - destruct (Nat.eqb_spec (Nat.min a b) (Nat.min i j)); simpl; auto.
    destruct (Nat.eqb_spec (Nat.max a b) (Nat.max i j)); simpl; auto. exfalso. apply H1. lia.
Qed.

(** ** Nodes *)
Definition live (ns : list node) (x : nat) : Prop := exists a, nth_error ns x = Some a /\ nd_merged a = false.
Definition dix (ns : list node) (x : nat) : nat := match nth_error ns x with Some a => nd_dix a | None => 0 end.
Definition wth (ns : list node) (x : nat) : nat := match nth_error ns x with Some a => nd_within a | None => 0 end.
Definition dn (D : dist) (ns : list node) (x y : nat) : Qc := dd D (dix ns x) (dix ns y).

Lemma dn_sym D ns x y : dn D ns x y = dn D ns y x.
Proof. apply dd_sym. Qed.
Lemma live_lt ns x : live ns x -> x < length ns.
Proof. intros (a & E & _). apply nth_error_Some. congruence. Qed.

(** Order of the pairs: by distance, then by the sum of the numbers of the nodes. *)
Definition klt (D : dist) (ns : list node) (x y x' y' : nat) : Prop :=
  (dn D ns x y < dn D ns x' y')%Qc \/ dn D ns x y = dn D ns x' y' /\ x + y < x' + y'.

Lemma klt_trans D ns a b c d e f : klt D ns a b c d -> klt D ns c d e f -> klt D ns a b e f.
Proof.
  unfold klt. intros [H|[H H1]] [G|[G G1]].
  - left. qlra. - left. qlra. - left. qlra. - right. split; [congruence|lia].
Qed.
Lemma klt_irrefl D ns a b : ~ klt D ns a b a b.
Proof. intros [H|[_ H]]; [|lia]. qlra. Qed.
Lemma klt_sym_l D ns a b c d : klt D ns a b c d -> klt D ns b a c d.
Proof. unfold klt. rewrite (dn_sym D ns b a), (Nat.add_comm b a). auto. Qed.
Lemma klt_sym_r D ns a b c d : klt D ns a b c d -> klt D ns a b d c.
Proof. unfold klt. rewrite (dn_sym D ns d c), (Nat.add_comm d c). auto. Qed.

Definition NN (D : dist) (ns : list node) (x y : nat) : Prop :=
  live ns y /\ y <> x /\ forall z, live ns z -> z <> x -> z <> y -> klt D ns x y x z.

Lemma NN_le D ns x y z : NN D ns x y -> live ns z -> z <> x -> (dn D ns x y <= dn D ns x z)%Qc.
Proof.
  intros (_ & _ & H) Hz Hx. destruct (Nat.eq_dec z y) as [->|Hy]; [apply Qcle_refl|].
  destruct (H z Hz Hx Hy) as [G|[G _]]; [apply Qclt_le_weak; auto|rewrite G; apply Qcle_refl].
Qed.

Definition distinct_dix (ns : list node) : Prop :=
  forall x y, live ns x -> live ns y -> dix ns x = dix ns y -> x = y.

(** ** GetNearestNeighbor *)
Definition best_inv (D : dist) (ns : list node) (x i : nat) (best : option (nat * Qc)) : Prop :=
  match best with
  | None => forall z, z < i -> live ns z -> z = x
  | Some (y, d) => live ns y /\ y < i /\ y <> x /\ d = dn D ns x y /\
      forall z, z < i -> live ns z -> z <> x -> z <> y -> klt D ns x y x z
  end.

Lemma nearest_loop_spec D ns x : live ns x -> distinct_dix ns ->
  forall suf pre best, ns = pre ++ suf -> best_inv D ns x (length pre) best ->
  exists r, nearest_loop D x (dix ns x) (length pre) suf best = Ok r /\ best_inv D ns x (length ns) r.
Proof.
  intros Hx Hd. induction suf as [|a suf IH]; intros pre best E HB.
  - exists best. split; auto. replace (length ns) with (length pre); auto. rewrite E, app_nil_r. auto.
  - assert (Ea : nth_error ns (length pre) = Some a).
    { rewrite E, nth_error_app2, Nat.sub_diag; auto. }
    assert (E2 : ns = (pre ++ [a]) ++ suf) by (rewrite <- app_assoc; auto).
    simpl. destruct (Nat.eqb_spec (length pre) x) as [Ex|Ex].
    + simpl. specialize (IH (pre ++ [a]) best E2). rewrite app_length in IH. simpl in IH.
      rewrite Nat.add_1_r in IH. apply IH. destruct best as [[y d]|]; simpl in *.
      * destruct HB as (H1 & H2 & H3 & H4 & H5). repeat split; auto. intros z Hz Lz Nx Ny.
        apply H5; auto. lia.
      * intros z Hz Lz. destruct (Nat.eq_dec z x); auto. apply HB; auto. lia.
    + destruct (nd_merged a) eqn:Em; simpl.
      * specialize (IH (pre ++ [a]) best E2). rewrite app_length in IH. simpl in IH.
        rewrite Nat.add_1_r in IH. apply IH.
        assert (NL : ~ live ns (length pre)). { intros (b & Eb & Mb). congruence. }
        destruct best as [[y d]|]; simpl in *.
        -- destruct HB as (H1 & H2 & H3 & H4 & H5). repeat split; auto. intros z Hz Lz Nx Ny.
           apply H5; auto. destruct (Nat.eq_dec z (length pre)); [subst; contradiction|lia].
        -- intros z Hz Lz. apply HB; auto. destruct (Nat.eq_dec z (length pre)); [subst; contradiction|lia].
      * assert (La : live ns (length pre)) by (exists a; auto).
        assert (Da : dix ns (length pre) = nd_dix a) by (unfold dix; rewrite Ea; auto).
        assert (Hne : dix ns x <> nd_dix a).
        { intros C. apply Ex. apply Hd; auto. congruence. }
        rewrite dget_ok by auto. cbn [bind].
        specialize (IH (pre ++ [a])). rewrite app_length in IH. simpl in IH. rewrite Nat.add_1_r in IH.
        apply IH; auto. clear IH.
        assert (Ed : dd D (dix ns x) (nd_dix a) = dn D ns x (length pre)) by (unfold dn; rewrite Da; auto).
        destruct best as [[y d]|]; simpl in HB.
        -- destruct HB as (H1 & H2 & H3 & H4 & H5).
           destruct (qltb (dd D (dix ns x) (nd_dix a)) d) eqn:Q.
           ++ apply qltb_true in Q. simpl. repeat split; auto. intros z Hz Lz Nx Ny.
              left. destruct (Nat.eq_dec z y) as [->|Nz]; [congruence|].
              destruct (H5 z) as [G|[G _]]; auto; [lia| |].
              ** rewrite <- Ed, <- H4 in *. qlra.
              ** rewrite <- Ed, <- G, <- H4 in *. auto.
           ++ apply qltb_false in Q. simpl. repeat split; auto. intros z Hz Lz Nx Ny.
              destruct (Nat.eq_dec z (length pre)) as [->|Nz]; [|apply H5; auto; lia].
              unfold klt. rewrite <- Ed, <- H4. destruct (Qcle_lt_or_eq _ _ Q); [left; auto|].
              right. split; auto. lia.
        -- simpl. repeat split; auto. intros z Hz Lz Nx Ny. exfalso. apply Nx, HB; auto. lia.
Qed.

Lemma nearest_spec D ns x : live ns x -> distinct_dix ns ->
  exists r, nearest D ns x = Ok r /\
    match r with
    | None => forall z, live ns z -> z = x
    | Some (y, d) => NN D ns x y /\ d = dn D ns x y
    end.
Proof.
  intros Hx Hd. unfold nearest, node_at. destruct Hx as (a & Ea & Ma). rewrite Ea. cbn [bind].
  destruct (nearest_loop_spec D ns x (ex_intro _ a (conj Ea Ma)) Hd ns [] None eq_refl) as (r & Er & Hr).
  { simpl. intros; lia. }
  unfold dix in Er. rewrite Ea in Er. simpl length in Er. exists r. split; [exact Er|].
  destruct r as [[y d]|]; simpl in Hr.
  - destruct Hr as (H1 & H2 & H3 & H4 & H5). split; auto. repeat split; auto.
    intros z Lz Nx Ny. apply H5; auto. apply live_lt; auto.
  - intros z Lz. apply Hr; auto. apply live_lt; auto.
Qed.

(** ** Merge2 *)
Lemma update_dist_spec m l r c h : (c = nd_dix l \/ c = nd_dix r) -> nd_dix l <> nd_dix r ->
  forall ns D,
  (forall x a, nth_error ns x = Some a -> nd_merged a = false -> nd_dix a <> nd_dix l /\ nd_dix a <> nd_dix r) ->
  (forall x y a b, nth_error ns x = Some a -> nth_error ns y = Some b -> nd_merged a = false -> nd_merged b = false ->
     nd_dix a = nd_dix b -> x = y) ->
  exists D', update_dist m l r c h ns D = Ok D' /\
    (forall x a, nth_error ns x = Some a -> nd_merged a = false ->
       dd D' (nd_dix a) c = link_dist m (nd_within l) (nd_within r) (nd_within a) (dd D (nd_dix l) (nd_dix a)) (dd D (nd_dix r) (nd_dix a)) h) /\
    (forall i j, i <> j -> i <> c -> j <> c -> dd D' i j = dd D i j) /\
    (forall i, i <> c -> (forall x a, nth_error ns x = Some a -> nd_merged a = false -> nd_dix a <> i) -> dd D' i c = dd D i c).
Proof.
  intros Hc Hlr. induction ns as [|a ns IH]; intros D H1 H2.
  - exists D. simpl. repeat split; auto. intros [|x] a; discriminate.
  - simpl. assert (H1' : forall x b, nth_error ns x = Some b -> nd_merged b = false -> nd_dix b <> nd_dix l /\ nd_dix b <> nd_dix r).
    { intros x b E. apply (H1 (S x)). exact E. }
    assert (H2' : forall x y a b, nth_error ns x = Some a -> nth_error ns y = Some b -> nd_merged a = false -> nd_merged b = false ->
     nd_dix a = nd_dix b -> x = y).
    { intros x y b b' E E' M M' Eb. assert (S x = S y) by (eapply (H2 (S x) (S y)); eauto). lia. }
    destruct (nd_merged a) eqn:Em.
    + destruct (IH D H1' H2') as (D' & E & P1 & P2 & P3). exists D'. repeat split; auto.
      * intros [|x] b Eb Mb; simpl in Eb; [congruence|]. eapply P1; eauto.
      * intros i Hi Hb. apply P3; auto. intros x b Eb. apply (Hb (S x)). exact Eb.
    + destruct (H1 0 a eq_refl Em) as (Nl & Nr).
      rewrite (dget_ok D (nd_dix l)) by auto. rewrite (dget_ok D (nd_dix r)) by auto. cbn [bind].
      assert (Nc : nd_dix a <> c) by (destruct Hc as [-> | ->]; auto).
      destruct (dset_ok D (nd_dix a) c (link_dist m (nd_within l) (nd_within r) (nd_within a) (dd D (nd_dix l) (nd_dix a)) (dd D (nd_dix r) (nd_dix a)) h) Nc)
        as (D1 & E1 & S1). unfold dd in E1 |- *. rewrite E1. cbn [bind]. fold dd.
      destruct (IH D1 H1' H2') as (D' & E & P1 & P2 & P3). exists D'. split; [exact E|].
      assert (Na : forall x b, nth_error ns x = Some b -> nd_merged b = false -> nd_dix b <> nd_dix a).
      { intros x b Eb Mb C. pose proof (H2 (S x) 0 b a Eb eq_refl Mb Em C). lia. }
      repeat split.
      * intros [|x] b Eb Mb; simpl in Eb.
        -- injection Eb as <-. fold (pair_dist D' (nd_dix a) c). rewrite P3 by auto. apply S1; auto.
        -- fold (pair_dist D' (nd_dix b) c). rewrite (P1 x b Eb Mb). destruct (H1' x b Eb Mb) as (Nbl & Nbr). pose proof (Na x b Eb Mb) as Nba.
           f_equal; apply S1; auto; clear -Nl Nr Nbl Nbr Nba Hc Hlr; intros [[C1 C2]|[C1 C2]]; try congruence.
      * intros i j Hij Hi Hj. fold (pair_dist D' i j). rewrite P2 by auto. apply S1; auto. intros [[C1 C2]|[C1 C2]]; congruence.
      * intros i Hi Hb. fold (pair_dist D' i c). rewrite P3; auto.
        -- apply S1; auto. intros [[C1 C2]|[C1 C2]]; [|congruence]. apply (Hb 0 a eq_refl Em). auto.
        -- intros x b Eb. apply (Hb (S x)). exact Eb.
Qed.

Definition same (a b : node) : Prop :=
  nd_left a = nd_left b /\ nd_right a = nd_right b /\ nd_within a = nd_within b /\ nd_dix a = nd_dix b /\ nd_height a = nd_height b.

Record merged (m : linkage) (ns : list node) (D : dist) (l r : nat) (h : Qc) (ns' : list node) (D' : dist) : Prop := {
  mg_len : length ns' = S (length ns);
  mg_live : forall x, live ns' x <-> x = length ns \/ (live ns x /\ x <> l /\ x <> r);
  mg_old : forall x a, nth_error ns x = Some a -> exists a', nth_error ns' x = Some a' /\ same a' a;
  mg_new : exists c, nth_error ns' (length ns) = Some c /\ nd_left c = l /\ nd_right c = r /\
     nd_within c = wth ns l + wth ns r /\ nd_height c = h /\ nd_merged c = false;
  mg_keep : forall x y, live ns x -> live ns y -> x <> l -> x <> r -> y <> l -> y <> r -> x <> y ->
     dn D' ns' x y = dn D ns x y;
  mg_dist : forall x, live ns x -> x <> l -> x <> r ->
     dn D' ns' x (length ns) = link_dist m (wth ns l) (wth ns r) (wth ns x) (dn D ns l x) (dn D ns r x) h;
  mg_dix : distinct_dix ns' }.

Lemma merge2_spec m ns D l r h : distinct_dix ns -> live ns l -> live ns r -> l <> r ->
  exists ns' D', merge2 m ns D l r h = Ok (ns', D') /\ merged m ns D l r h ns' D'.
Proof.
  intros Hd Ll Lr Hlr. pose proof (live_lt _ _ Ll) as Bl. pose proof (live_lt _ _ Lr) as Br.
  destruct Ll as (ln & El & Ml), Lr as (rn & Er & Mr).
  unfold merge2, node_at. rewrite El, Er. cbn [bind].
  set (ns1 := upd r (set_merged rn) (upd l (set_merged ln) ns)).
  set (c := Nat.min (nd_dix ln) (nd_dix rn)).
  assert (N : forall x, nth_error ns1 x = if x =? r then Some (set_merged rn) else if x =? l then Some (set_merged ln) else nth_error ns x).
  { intros x. unfold ns1. destruct (Nat.eqb_spec x r) as [->|H1].
    - apply nth_error_upd_same. rewrite upd_length. auto.
    - rewrite nth_error_upd_other by auto. destruct (Nat.eqb_spec x l) as [->|H2].
      + apply nth_error_upd_same; auto.
      + apply nth_error_upd_other; auto. }
  assert (L1 : length ns1 = length ns) by (unfold ns1; rewrite !upd_length; auto).
  assert (U : forall x a, nth_error ns1 x = Some a -> nd_merged a = false -> nth_error ns x = Some a /\ x <> l /\ x <> r).
  { intros x a E M. rewrite N in E. destruct (Nat.eqb_spec x r); [injection E as <-; discriminate|].
    destruct (Nat.eqb_spec x l); [injection E as <-; discriminate|]. auto. }
  assert (Dl : dix ns l = nd_dix ln) by (unfold dix; rewrite El; auto).
  assert (Dr : dix ns r = nd_dix rn) by (unfold dix; rewrite Er; auto).
  assert (LL : live ns l) by (exists ln; auto). assert (LR : live ns r) by (exists rn; auto).
  assert (Ndlr : nd_dix ln <> nd_dix rn).
  { intros C. apply Hlr, Hd; auto. congruence. }
  assert (Hc : c = nd_dix ln \/ c = nd_dix rn) by (unfold c; lia).
  destruct (update_dist_spec m ln rn c h Hc Ndlr ns1 D) as (D' & ED & P1 & P2 & P3).
  { intros x a E M. destruct (U x a E M) as (E' & N1 & N2).
    assert (live ns x) by (exists a; auto). assert (dix ns x = nd_dix a) by (unfold dix; rewrite E'; auto).
    split; intros C; [apply N1|apply N2]; apply Hd; auto; congruence. }
  { intros x y a b Ea Eb Ma Mb Eab. destruct (U x a Ea Ma) as (Ea' & _), (U y b Eb Mb) as (Eb' & _).
    apply Hd; [exists a; auto|exists b; auto|]. unfold dix. rewrite Ea', Eb'. auto. }
  rewrite ED. cbn [bind]. eexists _, _. split; [reflexivity|].
  match goal with |- merged _ _ _ _ _ _ (ns1 ++ [?x]) _ => set (cn := x) end.
  assert (A1 : forall x, x < length ns -> nth_error (ns1 ++ [cn]) x = nth_error ns1 x).
  { intros x H. apply nth_error_app1. lia. }
  assert (A2 : nth_error (ns1 ++ [cn]) (length ns) = Some cn).
  { rewrite nth_error_app2, L1, Nat.sub_diag by lia. reflexivity. }
  assert (Dold : forall x, x < length ns -> dix (ns1 ++ [cn]) x = dix ns x).
  { intros x H. unfold dix. rewrite A1, N by auto. destruct (Nat.eqb_spec x r) as [->|]; [rewrite Er; auto|].
    destruct (Nat.eqb_spec x l) as [->|]; [rewrite El; auto|]. auto. }
  assert (Dnew : dix (ns1 ++ [cn]) (length ns) = c) by (unfold dix; rewrite A2; auto).
  assert (LIVE : forall x, live (ns1 ++ [cn]) x <-> x = length ns \/ (live ns x /\ x <> l /\ x <> r)).
  { intros x. split.
    - intros Lx. pose proof (live_lt _ _ Lx) as Bx. rewrite app_length, L1 in Bx. simpl in Bx.
      destruct (Nat.eq_dec x (length ns)); auto. right. destruct Lx as (a & Ea & Ma). rewrite A1 in Ea by lia.
      destruct (U x a Ea Ma) as (E' & H1 & H2). split; [exists a; auto|auto].
    - intros [-> |((a & Ea & Ma) & H1 & H2)]; [exists cn; auto|].
      exists a. split; auto. rewrite A1, N by (apply nth_error_Some; congruence).
      destruct (Nat.eqb_spec x r); [congruence|]. destruct (Nat.eqb_spec x l); [congruence|auto]. }
  assert (NEc : forall x, live ns x -> x <> l -> x <> r -> dix ns x <> c).
  { intros x Lx H1 H2 C. destruct Hc as [E|E]; rewrite E in C; [apply H1|apply H2]; apply Hd; auto; congruence. }
  split; auto.
  - rewrite app_length, L1. simpl. lia.
  - intros x a Ea. assert (x < length ns) by (apply nth_error_Some; congruence). rewrite A1, N by auto.
    destruct (Nat.eqb_spec x r) as [->|].
    { exists (set_merged rn). split; auto. replace a with rn by congruence. repeat split. }
    destruct (Nat.eqb_spec x l) as [->|].
    { exists (set_merged ln). split; auto. replace a with ln by congruence. repeat split. }
    exists a. split; auto. repeat split.
  - exists cn. unfold wth. rewrite El, Er. repeat split; auto.
  - intros x y Lx Ly X1 X2 Y1 Y2 Hxy. unfold dn. rewrite !Dold by (apply live_lt; auto).
    apply P2; auto; intros C; apply Hxy, Hd; auto.
  - intros x Lx H1 H2. unfold dn. rewrite Dnew, Dold by (apply live_lt; auto).
    destruct Lx as (a & Ea & Ma). assert (Ea1 : nth_error ns1 x = Some a).
    { rewrite N. destruct (Nat.eqb_spec x r); [congruence|]. destruct (Nat.eqb_spec x l); [congruence|auto]. }
    specialize (P1 x a Ea1 Ma). unfold wth. rewrite Dl, Dr. unfold dix. rewrite Ea, El, Er. exact P1.
  - intros x y Lx Ly E. apply LIVE in Lx, Ly.
    destruct Lx as [-> |(Lx & X1 & X2)], Ly as [-> |(Ly & Y1 & Y2)]; auto.
    + rewrite Dnew, Dold in E by (apply live_lt; auto). exfalso. apply (NEc y); auto.
    + rewrite Dnew, Dold in E by (apply live_lt; auto). exfalso. apply (NEc x); auto.
    + rewrite !Dold in E by (apply live_lt; auto). apply Hd; auto.
Qed.

(** ** Properties of the linkage *)
Lemma qn_add a b : qn (a + b) = (qn a + qn b)%Qc.
Proof. unfold qn. rewrite Nat2Z.inj_add, qz_add. reflexivity. Qed.

Lemma link_ge m nl nr nn dl dr h b : 0 < nl -> 0 < nr -> 0 < nn -> (b <= dl)%Qc -> (b <= dr)%Qc -> (h <= dl)%Qc -> (h <= dr)%Qc ->
  (b <= link_dist m nl nr nn dl dr h)%Qc.
Proof.
  intros Hl Hr Hn Bl Br Hdl Hdr. unfold link_dist.
  assert (Pl : (0 < qn nl)%Qc) by (apply qn_pos; auto). assert (Pr : (0 < qn nr)%Qc) by (apply qn_pos; auto).
  assert (Pn : (0 < qn nn)%Qc) by (apply qn_pos; auto).
  assert (M1 : (b * qn nl <= dl * qn nl)%Qc) by (apply Qcmult_le_compat_r; auto; apply Qclt_le_weak; auto).
  assert (M2 : (b * qn nr <= dr * qn nr)%Qc) by (apply Qcmult_le_compat_r; auto; apply Qclt_le_weak; auto).
  destruct m.
  - destruct (qltb dr dl); auto.
  - destruct (qltb dr dl); auto.
  - cbv zeta. apply Qcmult_lt_0_le_reg_r with (qn nl + qn nr)%Qc; [qlra|].
    replace ((qn nl / (qn nl + qn nr) * dl + (1 - qn nl / (qn nl + qn nr)) * dr) * (qn nl + qn nr))%Qc
      with (qn nl * dl + qn nr * dr)%Qc by (field; apply Qc_lt_ne; qlra).
    qlra.
  - apply Qcmult_lt_0_le_reg_r with (qz 2); [reflexivity|].
    replace ((dl + dr) / qz 2 * qz 2)%Qc with (dl + dr)%Qc by (field; discriminate).
    replace (b * qz 2)%Qc with (b + b)%Qc by (change (qz 2) with (1 + 1)%Qc; ring). qlra.
  - cbv zeta. rewrite !qn_add. apply Qcmult_lt_0_le_reg_r with (qn nl + qn nr + qn nn)%Qc; [qlra|].
    replace (((qn nl + qn nn) / (qn nl + qn nr + qn nn) * dl + (qn nr + qn nn) / (qn nl + qn nr + qn nn) * dr -
      qn nn / (qn nl + qn nr + qn nn) * h) * (qn nl + qn nr + qn nn))%Qc
      with (qn nl * dl + qn nr * dr + (qn nn * dl + qn nn * dr - qn nn * h))%Qc by (field; apply Qc_lt_ne; qlra).
    assert (M3 : (b * qn nn <= dl * qn nn)%Qc) by (apply Qcmult_le_compat_r; auto; apply Qclt_le_weak; auto).
    assert (M4 : (h * qn nn <= dr * qn nn)%Qc) by (apply Qcmult_le_compat_r; auto; apply Qclt_le_weak; auto).
    qlra.
Qed.

(** ** The forest *)
Lemma NoDup_app2 {A} (l1 l2 : list A) : NoDup l1 -> NoDup l2 -> (forall x, In x l1 -> ~ In x l2) -> NoDup (l1 ++ l2).
Proof.
  induction l1 as [|a l IH]; intros H1 H2 H; simpl; auto. inversion H1; subst. constructor.
  - rewrite in_app_iff. intros [C|C]; auto. apply (H a); simpl; auto.
  - apply IH; auto. intros x Hx. apply H. right. auto.
Qed.

Record wf (n : nat) (ns : list node) : Prop := {
  wf_len : n <= length ns;
  wf_dix : distinct_dix ns;
  wf_leaf : forall x a, x < n -> nth_error ns x = Some a -> nd_within a = 1;
  wf_node : forall x a, n <= x -> nth_error ns x = Some a ->
     nd_left a < x /\ nd_right a < x /\ nd_left a <> nd_right a /\ nd_within a = wth ns (nd_left a) + wth ns (nd_right a);
  wf_once : NoDup (children n ns);
  wf_live : forall x, x < length ns -> (live ns x <-> ~ In x (children n ns)) }.

Lemma children_bound n ns x : wf n ns -> In x (children n ns) -> x < length ns.
Proof.
  intros W H. unfold children in H. apply in_flat_map in H. destruct H as (a & Ha & Hx).
  apply In_nth_error in Ha. destruct Ha as (i & Ei).
  assert (E : nth_error ns (n + i) = Some a).
  { clear -Ei. revert ns Ei. induction n as [|n IH]; intros ns Ei; simpl; auto. destruct ns; simpl in *; [destruct i; discriminate|apply IH; auto]. }
  destruct (wf_node _ _ W (n + i) a) as (H1 & H2 & _); auto; [lia|].
  assert (n + i < length ns) by (apply nth_error_Some; congruence).
  destruct Hx as [<-|[<-|[]]]; lia.
Qed.

Lemma children_length n ns : length (children n ns) = 2 * (length ns - n).
Proof.
  unfold children. rewrite <- skipn_length. induction (skipn n ns) as [|a l IH]; simpl; auto. lia.
Qed.

(** The live nodes are few. *)
Lemma live_few n ns st : wf n ns -> NoDup st -> Forall (live ns) st -> length st + 2 * (length ns - n) <= length ns.
Proof.
  intros W HN HL. rewrite <- children_length, <- app_length. rewrite <- (seq_length (length ns) 0) at 1.
  apply NoDup_incl_length.
  - clear -W HN HL. induction st as [|x st IH]; simpl; [apply W|]. inversion HN; subst. inversion HL; subst. constructor; auto.
    rewrite in_app_iff. intros [C|C]; auto. apply (wf_live _ _ W x) in C; auto. apply live_lt; auto.
  - intros x Hx. apply in_seq. split; [lia|]. simpl. apply in_app_iff in Hx. destruct Hx as [Hx|Hx].
    + rewrite Forall_forall in HL. apply live_lt; auto.
    + eapply children_bound; eauto.
Qed.

Lemma live_dec ns x : {live ns x} + {~ live ns x}.
Proof.
  unfold live. destruct (nth_error ns x) as [a|] eqn:E.
  - destruct (nd_merged a) eqn:M; [right|left; exists a; auto]. intros (b & Eb & Mb). congruence.
  - right. intros (b & Eb & _). congruence.
Qed.

Lemma live_other n ns x : wf n ns -> length ns < 2 * n - 1 -> ~ (forall z, live ns z -> z = x).
Proof.
  intros W HL H. assert (length (seq 0 (length ns)) <= length (x :: children n ns)).
  { apply NoDup_incl_length; [apply seq_NoDup|]. intros y Hy. apply in_seq in Hy.
    destruct (in_dec Nat.eq_dec y (children n ns)); [right; auto|left]. symmetry. apply H.
    apply (wf_live _ _ W); auto. lia. }
  rewrite seq_length in H0. simpl in H0. rewrite children_length in H0. pose proof (wf_len _ _ W). lia.
Qed.

Lemma children_merged m ns D l r h ns' D' n : n <= length ns -> merged m ns D l r h ns' D' ->
  children n ns' = children n ns ++ [l; r].
Proof.
  intros Hn M. unfold children.
  assert (E : map (fun a => [nd_left a; nd_right a]) ns' = map (fun a => [nd_left a; nd_right a]) ns ++ [[l; r]]).
  { apply list_ext_nth_error. intros i. destruct (Nat.lt_ge_cases i (length ns)) as [Hi|Hi].
    - rewrite nth_error_app1 by (rewrite map_length; auto). rewrite !nth_error_map.
      destruct (nth_error ns i) as [a|] eqn:Ea; [|apply nth_error_None in Ea; lia].
      destruct (mg_old _ _ _ _ _ _ _ _ M i a Ea) as (a' & -> & S). simpl. destruct S as (-> & -> & _). reflexivity.
    - rewrite nth_error_app2 by (rewrite map_length; auto). rewrite map_length, nth_error_map.
      destruct (Nat.eq_dec i (length ns)) as [->|Hne].
      + destruct (mg_new _ _ _ _ _ _ _ _ M) as (c & -> & <- & <- & _). rewrite Nat.sub_diag. reflexivity.
      + replace (nth_error ns' i) with (@None node).
        2:{ symmetry. apply nth_error_None. rewrite (mg_len _ _ _ _ _ _ _ _ M). lia. }
        destruct (i - length ns) as [|[|?]] eqn:Ez; simpl; auto. lia. }
  rewrite !flat_map_concat_map, <- !skipn_map, E, skipn_app, map_length.
  replace (n - length ns) with 0 by lia. rewrite concat_app. reflexivity.
Qed.

Lemma wth_merged m ns D l r h ns' D' x : merged m ns D l r h ns' D' -> x < length ns -> wth ns' x = wth ns x.
Proof.
  intros M Hx. unfold wth. destruct (nth_error ns x) as [a|] eqn:E; [|apply nth_error_None in E; lia].
  destruct (mg_old _ _ _ _ _ _ _ _ M x a E) as (a' & -> & S). apply S.
Qed.

Lemma wf_merged m ns D l r h ns' D' n : wf n ns -> live ns l -> live ns r -> l <> r -> merged m ns D l r h ns' D' -> wf n ns'.
Proof.
  intros W Ll Lr Hlr M. pose proof (wf_len _ _ W) as Wl. pose proof (live_lt _ _ Ll) as Bl. pose proof (live_lt _ _ Lr) as Br.
  assert (Cl : ~ In l (children n ns)) by (apply (wf_live _ _ W); auto).
  assert (Cr : ~ In r (children n ns)) by (apply (wf_live _ _ W); auto).
  pose proof (children_merged _ _ _ _ _ _ _ _ n Wl M) as EC. pose proof (mg_len _ _ _ _ _ _ _ _ M) as EL.
  split.
  - lia.
  - apply (mg_dix _ _ _ _ _ _ _ _ M).
  - intros x a Hx E. destruct (nth_error ns x) as [b|] eqn:Eb; [|apply nth_error_None in Eb; lia].
    destruct (mg_old _ _ _ _ _ _ _ _ M x b Eb) as (a' & E' & S). replace a with a' by congruence.
    destruct S as (_ & _ & -> & _). eapply wf_leaf; eauto.
  - intros x a Hx E. assert (Bx : x < length ns') by (apply nth_error_Some; congruence). rewrite EL in Bx.
    destruct (Nat.eq_dec x (length ns)) as [->|Hne].
    + destruct (mg_new _ _ _ _ _ _ _ _ M) as (c & Ec & H1 & H2 & H3 & _). replace a with c by congruence.
      rewrite H1, H2, H3. repeat split; auto. rewrite !(wth_merged _ _ _ _ _ _ _ _ _ M) by auto. auto.
    + destruct (nth_error ns x) as [b|] eqn:Eb; [|apply nth_error_None in Eb; lia].
      destruct (mg_old _ _ _ _ _ _ _ _ M x b Eb) as (a' & E' & S). replace a with a' by congruence.
      destruct S as (-> & -> & -> & _). destruct (wf_node _ _ W x b Hx Eb) as (H1 & H2 & H3 & H4).
      repeat split; auto. rewrite !(wth_merged _ _ _ _ _ _ _ _ _ M) by lia. auto.
  - rewrite EC. apply NoDup_app2; [apply W| |].
    + constructor; [intros [C|[]]; auto|]. constructor; [intros []|constructor].
    + intros x Hx [C|[C|[]]]; subst; contradiction.
  - intros x Hx. rewrite EC, in_app_iff, (mg_live _ _ _ _ _ _ _ _ M). simpl. split.
    + intros [-> |(Lx & X1 & X2)].
      * intros [C|[C|[C|[]]]]; try lia. apply (children_bound _ _ _ W) in C. lia.
      * intros [C|[C|[C|[]]]]; try congruence. apply (wf_live _ _ W x) in C; auto. apply live_lt; auto.
    + intros H. destruct (Nat.eq_dec x (length ns)); auto. right.
      split; [apply (wf_live _ _ W); [lia|tauto]|]. split; intros ->; apply H; auto.
Qed.

Lemma wth_pos n ns x : wf n ns -> x < length ns -> 0 < wth ns x.
Proof.
  intros W. induction x as [x IH] using lt_wf_ind. intros Hx. unfold wth.
  destruct (nth_error ns x) as [a|] eqn:E; [|apply nth_error_None in E; lia].
  destruct (Nat.lt_ge_cases x n) as [H|H].
  - rewrite (wf_leaf _ _ W x a H E). lia.
  - destruct (wf_node _ _ W x a H E) as (H1 & H2 & H3 & ->). specialize (IH (nd_left a) H1). lia.
Qed.

(** ** Reachable states: merges of mutual nearest neighbours *)
Inductive reach (m : linkage) (n : nat) (D0 : dist) : list node -> dist -> Prop :=
| R0 : reach m n D0 (init_nodes n) D0
| RS ns D l r ns' D' : reach m n D0 ns D -> live ns l -> live ns r -> l <> r -> NN D ns l r -> NN D ns r l ->
    merged m ns D l r (dn D ns l r) ns' D' -> reach m n D0 ns' D'.

Lemma init_nth n x a : nth_error (init_nodes n) x = Some a ->
  x < n /\ a = {| nd_left := 0; nd_right := 0; nd_within := 1; nd_dix := x; nd_merged := false; nd_height := 0%Qc |}.
Proof.
  unfold init_nodes. rewrite nth_error_map. intros H. destruct (nth_error (seq 0 n) x) as [y|] eqn:E; [|discriminate].
  assert (Hx : x < n). { rewrite <- (seq_length n 0). apply nth_error_Some. congruence. }
  assert (y = x).
  { apply nth_error_nth with (d := 0) in E. rewrite seq_nth in E; auto. }
  subst y. injection H as <-. auto.
Qed.
Lemma init_length n : length (init_nodes n) = n.
Proof. unfold init_nodes. rewrite map_length, seq_length. reflexivity. Qed.
Lemma init_live n x : live (init_nodes n) x <-> x < n.
Proof.
  split; [intros H; apply live_lt in H; rewrite init_length in H; auto|].
  intros H. destruct (nth_error (init_nodes n) x) as [a|] eqn:E.
  - exists a. split; auto. apply init_nth in E. destruct E as (_ & ->). reflexivity.
  - apply nth_error_None in E. rewrite init_length in E. lia.
Qed.
Lemma init_dix n x : x < n -> dix (init_nodes n) x = x.
Proof.
  intros H. unfold dix. destruct (nth_error (init_nodes n) x) as [a|] eqn:E.
  - apply init_nth in E. destruct E as (_ & ->). reflexivity.
  - apply nth_error_None in E. rewrite init_length in E. lia.
Qed.
Lemma init_children n : children n (init_nodes n) = [].
Proof.
  assert (H : length (children n (init_nodes n)) = 0) by (rewrite children_length, init_length; lia).
  destruct (children n (init_nodes n)); [auto|discriminate].
Qed.

Lemma wf_init n : wf n (init_nodes n).
Proof.
  split.
  - rewrite init_length. auto.
  - intros x y Hx Hy. apply init_live in Hx, Hy. rewrite !init_dix; auto.
  - intros x a Hx E. apply init_nth in E. destruct E as (_ & ->). reflexivity.
  - intros x a Hx E. apply init_nth in E. lia.
  - rewrite init_children. constructor.
  - intros x Hx. rewrite init_live, init_children. rewrite init_length in Hx. simpl. tauto.
Qed.

Lemma reach_wf m n D0 ns D : reach m n D0 ns D -> wf n ns.
Proof.
  induction 1 as [|ns D l r ns' D' HR IH Ll Lr Hlr N1 N2 M]; [apply wf_init|].
  exact (wf_merged _ _ _ _ _ _ _ _ _ IH Ll Lr Hlr M).
Qed.

(** ** The chain of nearest neighbours *)
Fixpoint chain (D : dist) (ns : list node) (l : list nat) : Prop :=
  match l with
  | y :: t => match t with x :: _ => NN D ns x y | [] => True end /\ chain D ns t
  | [] => True
  end.

Lemma chain_down D ns : forall rest x y, chain D ns (y :: x :: rest) -> NoDup (y :: x :: rest) -> Forall (live ns) (x :: rest) ->
  forall w, In w rest -> exists w', In w' (x :: rest) /\ NN D ns w w' /\ klt D ns x y w w'.
Proof.
  induction rest as [|v rest IH]; intros x y HC HN HL w Hw; [destruct Hw|].
  destruct HC as (C1 & C2 & C3). inversion HL as [|? ? L1 L2]; subst. inversion L2 as [|? ? L3 L4]; subst.
  inversion HN as [|? ? N1 N2]; subst.
  assert (K : klt D ns x y v x).
  { apply klt_sym_r. apply C1; auto.
    - intros ->. inversion N2; subst. simpl in *. tauto.
    - intros ->. simpl in N1. tauto. }
  destruct Hw as [->|Hw].
  - exists x. split; [left; auto|]. split; auto.
  - destruct (IH v x) with (w := w) as (w' & H1 & H2 & H3); auto.
    + split; auto.
    + exists w'. split; [right; auto|]. split; auto. eapply klt_trans; eauto.
Qed.

Lemma no_return D ns q p rest z : chain D ns (q :: p :: rest) -> NoDup (q :: p :: rest) -> Forall (live ns) (q :: p :: rest) ->
  NN D ns q z -> z <> p -> ~ In z (q :: p :: rest).
Proof.
  intros HC HN HL HZ Hp Hin. inversion HL as [|? ? L1 L2]; subst. inversion L2 as [|? ? L3 L4]; subst.
  destruct Hin as [<-|[<-|Hin]]; [destruct HZ as (_ & C & _); congruence|congruence|].
  destruct (chain_down D ns rest p q HC HN L2 z Hin) as (w' & H1 & H2 & H3).
  assert (Hq : q <> w') by (intros ->; inversion HN; subst; contradiction).
  assert (Hqz : q <> z) by (intros ->; inversion HN; subst; simpl in *; tauto).
  destruct H2 as (_ & Hw & H2). specialize (H2 q L1 Hqz Hq).
  destruct HZ as (_ & _ & HZ). assert (Hpq : p <> q) by (intros ->; inversion HN; subst; simpl in *; tauto).
  assert (Hpz : p <> z) by auto. specialize (HZ p L3 Hpq Hpz).
  apply (klt_irrefl D ns p q). eapply klt_trans; [exact H3|]. eapply klt_trans; [exact H2|].
  apply klt_sym_l, klt_sym_r. exact HZ.
Qed.

Lemma NN_merged m n ns D l r ns' D' x y : wf n ns -> live ns l -> live ns r -> l <> r -> NN D ns l r -> NN D ns r l ->
  merged m ns D l r (dn D ns l r) ns' D' -> live ns x -> x <> l -> x <> r -> y <> l -> y <> r -> NN D ns x y -> NN D' ns' x y.
Proof.
  intros W Ll Lr Hlr N1 N2 M Lx X1 X2 Y1 Y2 HN. pose proof HN as (Ly & Hyx & H). split; [|split]; auto.
  - apply (mg_live _ _ _ _ _ _ _ _ M). right. auto.
  - intros z Lz Zx Zy. apply (mg_live _ _ _ _ _ _ _ _ M) in Lz. unfold klt.
    rewrite (mg_keep _ _ _ _ _ _ _ _ M x y) by auto. destruct Lz as [-> |(Lz & Z1 & Z2)].
    + assert (G : (dn D ns x y <= dn D' ns' x (length ns))%Qc).
      { rewrite (mg_dist _ _ _ _ _ _ _ _ M) by auto. apply link_ge.
        - eapply wth_pos; eauto. apply live_lt; auto.
        - eapply wth_pos; eauto. apply live_lt; auto.
        - eapply wth_pos; eauto. apply live_lt; auto.
        - rewrite (dn_sym D ns l x). apply NN_le; auto.
        - rewrite (dn_sym D ns r x). apply NN_le; auto.
        - apply NN_le; auto.
        - rewrite (dn_sym D ns l r). apply NN_le; auto. }
      destruct (Qcle_lt_or_eq _ _ G) as [G'|G']; [left; auto|right; split; auto].
      apply live_lt in Ly. lia.
    + rewrite (mg_keep _ _ _ _ _ _ _ _ M x z) by auto. apply H; auto.
Qed.

Lemma chain_merged m n ns D l r ns' D' st : wf n ns -> live ns l -> live ns r -> l <> r -> NN D ns l r -> NN D ns r l ->
  merged m ns D l r (dn D ns l r) ns' D' -> Forall (live ns) st -> ~ In l st -> ~ In r st -> chain D ns st -> chain D' ns' st.
Proof.
  intros W Ll Lr Hlr N1 N2 M. induction st as [|y st IH]; intros HL Hl Hr HC; [exact I|].
  inversion HL; subst. simpl in Hl, Hr. destruct HC as (C1 & C2). split.
  - destruct st as [|x st]; auto. inversion H2; subst. simpl in Hl, Hr.
    apply (NN_merged m n ns D l r ns' D' x y); auto; intros C; subst; tauto.
  - apply IH; auto.
Qed.

(** ** The loop *)
Lemma chain_loop_reach m n D0 : forall fuel ns D top rest near,
  reach m n D0 ns D -> Forall (live ns) (top :: rest) -> NoDup (top :: rest) -> chain D ns (top :: rest) ->
  (length ns = 2 * n - 1 \/ exists q, near = Some (q, dn D ns top q) /\ NoDup (q :: top :: rest) /\ NN D ns top q) ->
  3 * (2 * n - length ns) <= fuel + length (top :: rest) ->
  exists ns' D', chain_loop m n fuel ns D (top :: rest) top near = Ok (ns', D') /\ reach m n D0 ns' D' /\ length ns' = 2 * n - 1.
Proof.
  induction fuel as [|f IH]; intros ns D top rest near HR HL HN HC Hnear Hf;
    pose proof (reach_wf _ _ _ _ _ HR) as W; pose proof (live_few n ns (top :: rest) W HN HL) as Few;
    pose proof (wf_len _ _ W) as Wl; cbn [chain_loop]; cbn [length] in Few, Hf.
  - destruct (Nat.eqb_spec (length ns) (2 * n - 1)) as [E|E]; [eexists _, _; eauto|]. exfalso. clear -E Few Hf Wl. lia.
  - destruct (Nat.eqb_spec (length ns) (2 * n - 1)) as [E|E]; [eexists _, _; eauto|].
    destruct Hnear as [C|(q & -> & HNq & HNN)]; [contradiction|].
    pose proof HNN as (Lq & Hqt & _). inversion HL as [|? ? Lt Lrest]; subst.
    assert (Nt : ~ In top rest) by (inversion HN; auto). assert (Nr : NoDup rest) by (inversion HN; auto).
    assert (Nq : ~ In q (top :: rest)) by (inversion HNq; auto).
    destruct (nearest_spec D ns q Lq (wf_dix _ _ W)) as (r2 & E2 & H2). rewrite E2. cbn [bind].
    destruct r2 as [[n2 d2]|].
    2:{ exfalso. assert (top = q) by (apply H2; auto). congruence. }
    destruct H2 as (HN2 & ->).
    destruct (Nat.eqb_spec n2 top) as [->|Hne].
    + (* merge *)
      assert (Htq : top <> q) by auto.
      destruct (merge2_spec m ns D top q (dn D ns top q) (wf_dix _ _ W) Lt Lq Htq) as (ns' & D' & EM & M).
      rewrite EM. cbn [bind tl].
      assert (HR' : reach m n D0 ns' D') by (apply (RS m n D0 ns D top q); auto).
      pose proof (reach_wf _ _ _ _ _ HR') as W'. pose proof (mg_len _ _ _ _ _ _ _ _ M) as EL.
      assert (Lrest' : Forall (live ns') rest).
      { rewrite Forall_forall in *. intros x Hx. apply (mg_live _ _ _ _ _ _ _ _ M). right. repeat split; auto; intros ->; simpl in Nq; tauto. }
      assert (HCr : chain D ns rest) by apply HC.
      assert (HCr' : chain D' ns' rest).
      { apply (chain_merged m n ns D top q ns' D'); auto. simpl in Nq. tauto. }
      assert (Near : forall x, live ns' x -> exists r1, nearest D' ns' x = Ok r1 /\
        (length ns' = 2 * n - 1 \/ exists q', r1 = Some (q', dn D' ns' x q') /\ NN D' ns' x q')).
      { intros x Lx. destruct (nearest_spec D' ns' x Lx (wf_dix _ _ W')) as (r1 & E1 & H1). exists r1. split; auto.
        destruct r1 as [[q' d']|].
        - right. exists q'. destruct H1 as (H1 & ->). auto.
        - left. pose proof (live_few n ns' [x] W') as F. simpl in F.
          assert (F1 : 1 + 2 * (length ns' - n) <= length ns').
          { apply F; [constructor; [intros []|constructor]|constructor; auto]. }
          destruct (Nat.lt_ge_cases (length ns') (2 * n - 1)) as [H|H]; [|clear - F1 H Wl EL; lia].
          exfalso. apply (live_other n ns' x W' H H1). }
      destruct rest as [|p [|p' rest]].
      * assert (La : live ns' (length ns)) by (apply (mg_live _ _ _ _ _ _ _ _ M); auto).
        destruct (Near _ La) as (r1 & E1 & H1). rewrite E1. cbn [bind]. apply IH; [auto| | | | |].
        -- constructor; auto.
        -- constructor; [intros []|constructor].
        -- simpl; auto.
        -- destruct H1 as [H1|(q' & -> & H1)]; [left; auto|right]. exists q'. split; auto. split; auto.
           constructor; [|constructor; [intros []|constructor]]. intros [C|[]]. destruct H1 as (_ & H1 & _). congruence.
        -- simpl. clear - Hf EL E Few Wl. simpl in *. lia.
      * inversion Lrest'; subst. destruct (Near p H1) as (r1 & E1 & G1). rewrite E1. cbn [bind]. apply IH; [auto|auto|auto|auto| |].
        -- destruct G1 as [G1|(q' & -> & G1)]; [left; auto|right]. exists q'. split; auto. split; auto.
           constructor; [|constructor; [intros []|constructor]]. intros [C|[]]. destruct G1 as (_ & G1 & _). congruence.
        -- simpl. clear - Hf EL E Few Wl. simpl in *. lia.
      * inversion Lrest' as [|? ? Lp L2']; subst. inversion L2' as [|? ? Lp' L3']; subst.
        assert (Hpp : p <> p') by (intros ->; inversion Nr; subst; simpl in *; tauto).
        assert (Hdx : dix ns' p' <> dix ns' p). { intros C. apply Hpp. symmetry. apply (wf_dix _ _ W'); auto. }
        destruct Lp as (pn & Ep & Mp). destruct Lp' as (pn' & Ep' & Mp').
        unfold node_at. rewrite Ep, Ep'. cbn [bind].
        assert (Ex : nd_dix pn = dix ns' p) by (unfold dix; rewrite Ep; auto).
        assert (Ex' : nd_dix pn' = dix ns' p') by (unfold dix; rewrite Ep'; auto).
        rewrite Ex, Ex', dget_ok by auto. cbn [bind].
        destruct HCr' as (G1 & G2). apply IH; auto.
        -- inversion Nr; auto.
        -- right. exists p. split; [reflexivity|]. split; auto.
        -- clear - Hf EL E Few Wl. simpl in *. lia.
    + (* push *)
      assert (Nn2 : ~ In n2 (q :: top :: rest)).
      { apply (no_return D ns); auto. split; auto. }
      apply IH; auto.
      * split; auto.
      * right. exists n2. split; auto. split; auto. constructor; auto.
      * simpl. clear - Hf. lia.
Qed.

Theorem calculate_reach m n D : 1 <= n ->
  exists ns D', calculate m n D = Ok (ns, D') /\ reach m n D ns D' /\ length ns = 2 * n - 1.
Proof.
  intros Hn. unfold calculate. assert (L0 : live (init_nodes n) 0) by (apply init_live; lia).
  pose proof L0 as (a & Ea & _). unfold node_at at 1. rewrite Ea. cbn [bind].
  destruct (nearest_spec D (init_nodes n) 0 L0 (wf_dix _ _ (wf_init n))) as (r & Er & Hr). rewrite Er. cbn [bind].
  apply chain_loop_reach.
  - constructor.
  - constructor; auto.
  - constructor; [intros []|constructor].
  - simpl. auto.
  - destruct r as [[q d]|].
    + right. destruct Hr as (Hr & ->). exists q. split; auto. split; auto. constructor; [|constructor; [intros []|constructor]].
      intros [C|[]]. destruct Hr as (_ & Hr & _). congruence.
    + left. rewrite init_length. destruct (Nat.lt_ge_cases (length (init_nodes n)) (2 * n - 1)) as [H|H].
      * exfalso. apply (live_other n _ 0 (wf_init n) H Hr).
      * rewrite init_length in H. lia.
  - rewrite init_length. simpl length. clear -Hn. lia.
Qed.
