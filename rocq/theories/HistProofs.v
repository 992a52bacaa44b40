From Verif Require Import Num HistModel HistSpec DescSpec DescProofs DescProofs2 MatProofs SplitProofs SortProofs.
From Coq Require Import Lia ZifyBool Sorted.
Local Open Scope Z_scope.

(** ** The search *)
Section Axis.
Variable axis : list Qc.
Let n := Z.of_nat (length axis).
Definition behind (last : bool) (d : Qc) (p : Z) : bool := if last then qleb d (xat axis p) else qltb d (xat axis p).
Lemma zrange_step a m : 0 < m -> zrange a m = a :: zrange (a + 1) (m - 1).
Proof.
  intros H. unfold zrange. replace (Z.to_nat m) with (S (Z.to_nat (m - 1))) by lia. cbn [seq map]. f_equal; [lia|].
  rewrite <- seq_shift, map_map. apply map_ext. intros. lia.
Qed.
Lemma zrange_none a m : m <= 0 -> zrange a m = [].
Proof. intros H. unfold zrange. replace (Z.to_nat m) with 0%nat by lia. reflexivity. Qed.
Lemma find_ok last d : forall k j, 0 <= j <= n -> n - j = Z.of_nat k ->
  exists r, find_bin (zrange j (n - j)) last d axis = Ok r /\
    match r with
    | Some p => j <= p < n /\ behind last d p = true /\ forall q, j <= q < p -> behind last d q = false
    | None => forall q, j <= q < n -> behind last d q = false
    end.
Proof.
  induction k as [|k IH]; intros j Hj Hk.
  - rewrite zrange_none by lia. exists None. split; auto. intros; lia.
  - rewrite zrange_step by lia. cbn [find_bin]. rewrite rd_xat by (unfold n in *; lia). cbn [bind]. fold (behind last d j).
    destruct (behind last d j) eqn:E.
    + exists (Some j). split; auto. split; [lia|]. split; auto. intros; lia.
    + replace (n - j - 1) with (n - (j + 1)) by lia. destruct (IH (j + 1)) as (r & -> & H); try lia. exists r. split; auto.
      destruct r as [p|].
      * destruct H as (A & B & C). split; [lia|]. split; auto. intros q Hq. destruct (Z.eq_dec q j) as [->|N]; auto. apply C. lia.
      * intros q Hq. destruct (Z.eq_dec q j) as [->|N]; auto. apply H. lia.
Qed.
(** The bins of the observations, in order. *)
Fixpoint bins_ok (ds : list Qc) (j : Z) (bs : list Z) : Prop :=
  match ds, bs with
  | [], [] => True
  | d :: t, b :: u =>
      let last := match t with [] => true | _ => false end in
      j <= b <= n /\ (b < n -> behind last d b = true) /\ (forall q, j <= q < b -> behind last d q = false) /\ bins_ok t (if b <? n then b else j) u
  | _, _ => False
  end.
Definition occ (p : Z) (bs : list Z) : Z := Z.of_nat (length (filter (Z.eqb p) bs)).
Lemma occ_cons p b bs : occ p (b :: bs) = (if p =? b then 1 else 0) + occ p bs.
Proof using Type. clear n. unfold occ. cbn [filter]. destruct (p =? b); cbn [length]; lia. Qed.
Lemma bump_ok counts p v : 0 <= p < Z.of_nat (length counts) -> oat counts p = Some v -> bump counts p = Ok (upd (Z.to_nat p) (v + 1) counts).
Proof. intros H E. unfold bump. apply oat_rd in E. rewrite E. cbn [bind]. apply wr_ok. auto. Qed.
Lemma fill_loop_ok : forall ds j counts, 0 <= j <= n -> n < Z.of_nat (length counts) ->
  exists bs c, fill_loop ds n axis j counts = Ok c /\ bins_ok ds j bs /\ length c = length counts /\
    forall p v, oat counts p = Some v -> oat c p = Some (v + occ p bs).
Proof.
  induction ds as [|d t IH]; intros j counts Hj Hn; cbn [fill_loop].
  - exists [], counts. repeat split. intros p v E. rewrite E. f_equal. unfold occ. cbn. lia.
  - set (last := match t with [] => true | _ => false end).
    destruct (find_ok last d (Z.to_nat (n - j)) j Hj ltac:(lia)) as (r & -> & H). cbn [bind].
    assert (ST : exists b, (match r with Some p => p | None => n end) = b /\ j <= b <= n /\ (b < n -> behind last d b = true) /\
       (forall q, j <= q < b -> behind last d q = false) /\ (match r with Some p => p | None => j end) = (if b <? n then b else j)).
    { destruct r as [p|].
      - exists p. destruct H as (A & B & C). split; auto. split; [lia|]. split; auto. split; auto. destruct (Z.ltb_spec p n); [auto|lia].
      - exists n. split; auto. split; [lia|]. split; [lia|]. split; auto. destruct (Z.ltb_spec n n); [lia|auto]. }
    destruct ST as (b & E1 & B1 & B2 & B3 & E2).
    destruct (oat_in counts b ltac:(lia)) as (v0 & Ev).
    assert (E3 : (match r with Some p => do c <- bump counts p; fill_loop t n axis p c | None => do c <- bump counts n; fill_loop t n axis j c end)
      = (do c <- bump counts b; fill_loop t n axis (if b <? n then b else j) c)).
    { rewrite <- E2, <- E1. destruct r; reflexivity. }
    rewrite E3, (bump_ok counts b v0) by (auto; lia). cbn [bind].
    destruct (IH (if b <? n then b else j) (upd (Z.to_nat b) (v0 + 1) counts)) as (bs & c & -> & Hb & Lc & Oc).
    { destruct (Z.ltb_spec b n); lia. }
    { rewrite upd_length. auto. }
    rewrite upd_length in Lc. exists (b :: bs), c. split; auto. split.
    + cbn [bins_ok]. fold last. auto.
    + split; auto. intros p v Ep. rewrite occ_cons. destruct (Z.eqb_spec p b) as [->|N].
      * rewrite (Oc b (v0 + 1)); [f_equal; rewrite Ev in Ep; injection Ep as ->; lia|]. rewrite oat_upd by lia. rewrite Z.eqb_refl. auto.
      * rewrite (Oc p v); [f_equal; lia|]. rewrite oat_upd by lia. destruct (Z.eqb_spec p b); [contradiction|auto].
Qed.
Lemma bins_length : forall ds j bs, bins_ok ds j bs -> length bs = length ds.
Proof. induction ds as [|d t IH]; intros j [|b u] H; cbn in *; try contradiction; auto. f_equal. destruct H as (_ & _ & _ & H). eauto. Qed.
Lemma bins_range : forall ds j bs, 0 <= j -> bins_ok ds j bs -> Forall (fun b => 0 <= b <= n) bs.
Proof.
  induction ds as [|d t IH]; intros j [|b u] Hj H; cbn in *; try contradiction; auto. destruct H as (A & _ & _ & H). constructor; [lia|].
  apply IH in H; auto. destruct (b <? n); lia.
Qed.
Lemma fill_ok ds counts : n < Z.of_nat (length counts) -> exists bs c, fill_hist ds axis counts = Ok c /\ bins_ok ds 0 bs /\ length c = length counts /\
  forall p, 0 <= p < Z.of_nat (length counts) -> oat c p = if p <=? n then Some (occ p bs) else oat counts p.
Proof.
  intros H. unfold fill_hist. fold n.
  destruct (writes_range 0 (n + 1) (fun _ => Ok 0) (fun _ => 0) counts) as (c0 & -> & L0 & N0). { intros i Hi. split; [unfold n in *; lia|auto]. }
  cbn [bind]. destruct (fill_loop_ok ds 0 c0) as (bs & c & E & B & L & O). { unfold n. lia. } { lia. }
  exists bs, c. split; auto. split; auto. split; [lia|]. intros p Hp. specialize (N0 p Hp).
  assert (R := bins_range ds 0 bs ltac:(lia) B).
  destruct (Z.leb_spec p n) as [K|K].
  - destruct ((0 <=? p) && (p <? 0 + (n + 1))) eqn:E0; [|lia]. rewrite (O p 0 N0). f_equal.
  - destruct ((0 <=? p) && (p <? 0 + (n + 1))) eqn:E0; [lia|]. destruct (oat_in counts p Hp) as (v & Ev). rewrite Ev in *. rewrite (O p v N0). f_equal.
    assert (occ p bs = 0); [|lia]. unfold occ. replace (filter (Z.eqb p) bs) with (@nil Z); auto. symmetry. rewrite Forall_forall in R.
    clear -R K. induction bs as [|b u IH]; auto. cbn [filter]. destruct (Z.eqb_spec p b) as [->|N].
    + specialize (R b (or_introl eq_refl)). lia.
    + apply IH. intros. apply R. right. auto.
Qed.
End Axis.
Lemma zsum_occ (k : nat) : forall bs, Forall (fun b => 0 <= b < Z.of_nat k) bs -> zsum (map (fun i => occ (Z.of_nat i) bs) (seq 0 k)) = Z.of_nat (length bs).
Proof.
  assert (Add : forall (f g : nat -> Z) l, zsum (map (fun i => f i + g i) l) = zsum (map f l) + zsum (map g l)).
  { intros f g l. induction l; cbn; lia. }
  assert (One : forall b l, NoDup l -> In b l -> zsum (map (fun i => if Z.of_nat i =? Z.of_nat b then 1 else 0) l) = 1).
  { intros b l N. induction N as [|x l Hx N IH]; intros I0; [contradiction|]. cbn [map zsum]. destruct (Z.eqb_spec (Z.of_nat x) (Z.of_nat b)) as [E|E].
    - assert (x = b) by lia. subst. assert (Z0 : forall l', ~ In b l' -> zsum (map (fun i => if Z.of_nat i =? Z.of_nat b then 1 else 0) l') = 0).
      { induction l' as [|y l' IHl]; intros Hn; auto. cbn [map zsum]. destruct (Z.eqb_spec (Z.of_nat y) (Z.of_nat b)); [exfalso; apply Hn; left; lia|]. rewrite IHl; auto. intros Hc. apply Hn. right. auto. }
      rewrite Z0 by auto. lia.
    - destruct I0 as [->|I0]; [lia|]. rewrite IH by auto. lia. }
  induction bs as [|b bs IH]; intros F.
  - cbn [length]. change (Z.of_nat 0) with 0. generalize (seq 0 k). induction l; cbn [map zsum]; auto.
  - apply Forall_cons_iff in F. destruct F as [F1 F2].
    assert (M : map (fun i => occ (Z.of_nat i) (b :: bs)) (seq 0 k) = map (fun i => (if Z.of_nat i =? b then 1 else 0) + occ (Z.of_nat i) bs) (seq 0 k)).
    { apply map_ext. intros. apply occ_cons. }
    rewrite M, Add, IH by auto. replace b with (Z.of_nat (Z.to_nat b)) by lia. rewrite One; [cbn [length]; lia|apply seq_NoDup|apply in_seq; lia].
Qed.
(** ** Which bin *)
Section Which.
Variable axis : list Qc.
Let n := Z.of_nat (length axis).
Hypothesis Inc : increasing axis.
Lemma axis_lt i j : 0 <= i < j -> j < n -> (xat axis i < xat axis j)%Qc.
Proof using Inc. clear -Inc. intros H1 H2. unfold xat. destruct (Z.ltb_spec i 0); [lia|]. destruct (Z.ltb_spec j 0); [lia|]. apply Inc. unfold n in *. lia. Qed.
Lemma axis_le i j : 0 <= i <= j -> j < n -> (xat axis i <= xat axis j)%Qc.
Proof using Inc. intros H1 H2. destruct (Z.eq_dec i j) as [->|N]; [apply Qcle_refl|]. apply Qclt_le_weak. apply axis_lt; lia. Qed.
Lemma half_open_iff b d : 0 <= b <= n -> (forall q, 0 <= q < b -> (xat axis q <= d)%Qc) -> (b < n -> (d < xat axis b)%Qc) ->
  forall p, 0 <= p <= n -> half_open axis p d = (p =? b).
Proof using Inc.
  intros Hb L U p Hp. unfold half_open. fold n. destruct (Z.eqb_spec p b) as [->|N].
  - apply andb_true_iff. split; apply orb_true_iff.
    + destruct (Z.eq_dec b 0) as [->|]; [left; auto|right]. destruct (qleb_spec (xat axis (b - 1)) d) as [|G]; auto. specialize (L (b - 1) ltac:(lia)). exfalso. qlra.
    + destruct (Z.eq_dec b n) as [->|]; [left; apply Z.eqb_refl|right]. specialize (U ltac:(lia)). destruct (qltb_spec d (xat axis b)) as [|G]; auto; exfalso; qlra.
  - apply andb_false_iff. destruct (Z.ltb_spec p b) as [K|K].
    + right. apply orb_false_iff. split; [lia|]. specialize (L p ltac:(lia)). destruct (qltb_spec d (xat axis p)) as [G|]; auto; exfalso; qlra.
    + left. apply orb_false_iff. split; [lia|]. specialize (U ltac:(lia)). assert (Q := axis_le b (p - 1) ltac:(lia) ltac:(lia)).
      destruct (qleb_spec (xat axis (p - 1)) d) as [G|]; auto; exfalso; qlra.
Qed.
Lemma half_closed_iff b d : 0 <= b <= n -> (forall q, 0 <= q < b -> (xat axis q < d)%Qc) -> (b < n -> (d <= xat axis b)%Qc) ->
  forall p, 0 <= p <= n -> half_closed axis p d = (p =? b).
Proof using Inc.
  intros Hb L U p Hp. unfold half_closed. fold n. destruct (Z.eqb_spec p b) as [->|N].
  - apply andb_true_iff. split; apply orb_true_iff.
    + destruct (Z.eq_dec b 0) as [->|]; [left; auto|right]. destruct (qltb_spec (xat axis (b - 1)) d) as [|G]; auto. specialize (L (b - 1) ltac:(lia)). exfalso. qlra.
    + destruct (Z.eq_dec b n) as [->|]; [left; apply Z.eqb_refl|right]. specialize (U ltac:(lia)). destruct (qleb_spec d (xat axis b)) as [|G]; auto; exfalso; qlra.
  - apply andb_false_iff. destruct (Z.ltb_spec p b) as [K|K].
    + right. apply orb_false_iff. split; [lia|]. specialize (L p ltac:(lia)). destruct (qleb_spec d (xat axis p)) as [G|]; auto; exfalso; qlra.
    + left. apply orb_false_iff. split; [lia|]. specialize (U ltac:(lia)). assert (Q := axis_le b (p - 1) ltac:(lia) ltac:(lia)).
      destruct (qltb_spec (xat axis (p - 1)) d) as [G|]; auto; exfalso; qlra.
Qed.
Lemma behind_false_open d q : behind axis false d q = false -> (xat axis q <= d)%Qc.
Proof using Type. unfold behind. destruct (qltb_spec d (xat axis q)) as [|G]; [discriminate|]. intros _. qlra. Qed.
Lemma behind_false_closed d q : behind axis true d q = false -> (xat axis q < d)%Qc.
Proof using Type. unfold behind. destruct (qleb_spec d (xat axis q)) as [|G]; [discriminate|]. intros _. qlra. Qed.
Lemma behind_true_open d q : behind axis false d q = true -> (d < xat axis q)%Qc.
Proof using Type. unfold behind. destruct (qltb_spec d (xat axis q)) as [G|]; [auto|discriminate]. Qed.
Lemma behind_true_closed d q : behind axis true d q = true -> (d <= xat axis q)%Qc.
Proof using Type. unfold behind. destruct (qleb_spec d (xat axis q)) as [G|]; [auto|discriminate]. Qed.
Lemma bins_exact : forall init d pre j bs, bins_ok axis (init ++ [d]) j bs -> 0 <= j -> (j < n \/ n = 0 /\ j = 0) ->
  StronglySorted Qcle (init ++ [d]) -> (forall x y, In x pre -> In y (init ++ [d]) -> (x <= y)%Qc) ->
  (forall q, 0 <= q < j -> exists x, In x pre /\ (xat axis q <= x)%Qc) ->
  (forall x, In x pre -> (x < xat axis j)%Qc \/ (forall q, 0 <= q < n -> (xat axis q <= x)%Qc)) ->
  forall p, 0 <= p <= n -> occ p bs = count (half_open axis p) init + one (last_counted axis (pre ++ init) d p).
Proof using Inc.
  induction init as [|e init IH]; intros d pre j bs B J0 J1 So Cr LO UP p Hp.
  - cbn [app] in *. destruct bs as [|b [|b' u]]; cbn [bins_ok] in B; try tauto. destruct B as (R & U & L & _). fold n in R, U.
    rewrite occ_cons. unfold occ, count. cbn [filter length]. change (Z.of_nat 0) with 0. rewrite Z.add_0_r, Z.add_0_l. unfold one.
    enough (Q : (p =? b) = last_counted axis (pre ++ []) d p) by (rewrite Q; reflexivity).
    unfold last_counted. rewrite app_nil_r. fold n.
    destruct (existsb (qeqb d) pre && negb (qeqb d (xat axis (n - 1)))) eqn:E.
    + apply andb_true_iff in E. destruct E as [E1 E2]. apply existsb_exists in E1. destruct E1 as (x & Ix & Ex).
      destruct (qeqb_spec d x) as [<-|]; [|discriminate]. destruct (qeqb_spec d (xat axis (n - 1))) as [|E2']; [discriminate|].
      symmetry. destruct (UP d Ix) as [K|K].
      * assert (b = j). { destruct J1 as [J1|J1]; [|lia]. destruct (Z.eq_dec b j) as [->|Nj]; auto. specialize (L j ltac:(lia)). apply behind_false_closed in L. exfalso. qlra. }
        subst b. apply half_open_iff; auto; [lia|]. intros q Hq. destruct (LO q ltac:(lia)) as (x & Ix2 & Lx). specialize (Cr x d Ix2 ltac:(left; auto)). qlra.
      * apply half_open_iff; auto; [lia| |].
        -- intros q Hq. apply K. lia.
        -- intros Hb. specialize (U Hb). apply behind_true_closed in U. specialize (K (n - 1) ltac:(lia)). assert (Q := axis_le b (n - 1) ltac:(lia) ltac:(lia)).
           exfalso. apply E2'. apply Qcle_antisym; qlra.
    + symmetry. apply half_closed_iff; auto; [lia| |].
      * intros q Hq. destruct (Z.ltb_spec q j) as [K|K]; [|apply behind_false_closed; apply L; lia].
        destruct (LO q ltac:(lia)) as (x & Ix & Lx). assert (Le := Cr x d Ix ltac:(left; auto)).
        apply andb_false_iff in E. destruct E as [E|E].
        -- assert (x <> d). { intros ->. assert (existsb (qeqb d) pre = true); [|congruence]. apply existsb_exists. exists d. split; auto. destruct (qeqb_spec d d); congruence. }
           assert (x < d)%Qc; [|qlra]. apply Qcle_lt_or_eq in Le. destruct Le; [auto|contradiction].
        -- destruct (qeqb_spec d (xat axis (n - 1))) as [->|]; [|discriminate]. apply axis_lt; lia.
      * intros Hb. apply behind_true_closed. auto.
  - destruct bs as [|b u]; cbn [bins_ok app] in B; [tauto|]. fold n in B.
    replace (match init ++ [d] with [] => true | _ :: _ => false end) with false in B by (destruct init; reflexivity).
    destruct B as (R & U & L & B).
    cbn [app] in So. apply StronglySorted_inv in So. destruct So as [So Fe]. rewrite Forall_forall in Fe.
    assert (HL : forall q, 0 <= q < b -> (xat axis q <= e)%Qc).
    { intros q Hq. destruct (Z.ltb_spec q j) as [K|K].
      - destruct (LO q ltac:(lia)) as (x & Ix & Lx). specialize (Cr x e Ix ltac:(left; auto)). qlra.
      - apply behind_false_open. apply L. lia. }
    rewrite occ_cons.
    assert (H1 : (if p =? b then 1 else 0) = one (half_open axis p e)). { unfold one. rewrite (half_open_iff b e); auto; [lia|]. intros Hb. apply behind_true_open. auto. }
    rewrite H1. unfold count at 1. cbn [filter].
    rewrite (IH d (pre ++ [e]) (if b <? n then b else j) u).
    + rewrite <- app_assoc. cbn [app]. unfold count, one. destruct (half_open axis p e); cbn [length]; lia.
    + auto.
    + destruct (b <? n); lia.
    + destruct (Z.ltb_spec b n); lia.
    + auto.
    + intros x y Ix Iy. apply in_app_iff in Ix. destruct Ix as [Ix|[<-|[]]]; auto. apply Cr; auto. right. auto.
    + intros q Hq. destruct (Z.ltb_spec b n).
      * exists e. split; [apply in_or_app; right; left; auto|]. apply HL. lia.
      * destruct (LO q Hq) as (x & Ix & Lx). exists x. split; auto. apply in_or_app. auto.
    + intros x Ix. apply in_app_iff in Ix. destruct (Z.ltb_spec b n) as [Kb|Kb].
      * specialize (U Kb). apply behind_true_open in U. destruct Ix as [Ix|[<-|[]]]; [|left; auto].
        specialize (Cr x e Ix ltac:(left; auto)). left. qlra.
      * destruct Ix as [Ix|[<-|[]]]; auto. right. intros q Hq. apply HL. lia.
    + auto.
Qed.
Theorem counts_exact init d counts : n < Z.of_nat (length counts) -> StronglySorted Qcle (init ++ [d]) ->
  exists c, fill_hist (init ++ [d]) axis counts = Ok c /\ length c = length counts /\
    (forall p, 0 <= p <= n -> oat c p = Some (count (half_open axis p) init + one (last_counted axis init d p))) /\
    (forall p, n < p -> oat c p = oat counts p).
Proof using Inc.
  intros H So. destruct (fill_ok axis (init ++ [d]) counts H) as (bs & c & E & B & Lc & O). exists c. split; auto. split; auto. split.
  - intros p Hp. rewrite O by (unfold n in *; lia). destruct (Z.leb_spec p (Z.of_nat (length axis))); [|unfold n in *; lia]. f_equal.
    change init with ([] ++ init) at 2. apply (bins_exact init d [] 0); auto; try lia; try (intros; contradiction).
  - intros p Hp. destruct (Z.ltb_spec p (Z.of_nat (length counts))).
    + rewrite O by (unfold n in *; lia). destruct (Z.leb_spec p (Z.of_nat (length axis))); [unfold n in *; lia|auto].
    + unfold oat. destruct (p <? 0); auto. rewrite (proj2 (nth_error_None c (Z.to_nat p))), (proj2 (nth_error_None counts (Z.to_nat p))); auto; lia.
Qed.
End Which.
