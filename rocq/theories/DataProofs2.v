From Verif Require Import DataSpec DataModel MatProofs MatProofs2 MatProofs3 MatProofs4 MatProofs5 MatProofs6 MatDotProofs ArrSpec ArrProofs DataProofs.
From Coq Require Import Lia ZifyBool.
Local Open Scope Z_scope.

Lemma rmap_ok {A B} (f : A -> res B) : forall l, (forall x, In x l -> exists y, f x = Ok y) ->
  exists r, rmap f l = Ok r /\ length r = length l /\ forall k x, nth_error l k = Some x -> exists y, nth_error r k = Some y /\ f x = Ok y.
Proof.
  induction l as [|x l IH]; intros H.
  - exists []. split; auto. split; auto. intros [|k] y E; discriminate.
  - destruct (H x (or_introl eq_refl)) as (y & E). destruct (IH (fun z Hz => H z (or_intror Hz))) as (r & Er & L & N).
    exists (y :: r). cbn [rmap]. rewrite E. cbn [bind]. rewrite Er. cbn [bind]. split; auto. split; [cbn; auto|].
    intros [|k] z Ez; cbn in *; [injection Ez as <-; eauto|eauto].
Qed.

Section Ts.
Context {A : Type}.
Variable by_row : bool.
Variable M : mat (option A).
Hypothesis W : mat_ok M.
Hypothesis HT : 0 < n_times by_row M.
Notation nv := (n_vars by_row M).
Notation nt := (n_times by_row M).

Lemma obs_some i t : 0 <= i < nv -> 0 <= t < nt -> exists v, obs by_row M i t = Some v.
Proof. unfold n_vars, n_times, obs. destruct by_row; intros; apply entry_some; auto; split; auto. Qed.
Lemma obs_in i t v : obs by_row M i t = Some v -> 0 <= i < nv /\ 0 <= t < nt.
Proof. unfold n_vars, n_times, obs. destruct by_row; intros H; apply entry_in in H; destruct H; auto. Qed.
Lemma series_ok i : 0 <= i < nv -> exists s, ts_series by_row M i = Ok s /\ Z.of_nat (length s) = nt /\
  forall t, 0 <= t < nt -> nth_error s (Z.to_nat t) = obs by_row M i t.
Proof.
  unfold ts_series, n_vars, n_times, obs in *. destruct by_row; intros Hi.
  - destruct (rmap_ok (fun j => get0 M i j) (zrange 0 (ncols M))) as (r & E & L & N).
    { intros x Hx. apply in_zrange in Hx. destruct (get0_ok M i x W) as (v & _ & G); [split; lia|eauto]. }
    exists r. split; auto. rewrite zrange_length in L. split; [lia|]. intros t Ht.
    destruct (N (Z.to_nat t) t) as (y & Ey & G). { rewrite zrange_nth by lia. f_equal. lia. }
    rewrite Ey. destruct (get0_ok M i t W) as (v & Ev & G2); [split; lia|]. congruence.
  - destruct (rmap_ok (fun t => rd (data M) (nrows M * i + t)) (zrange 0 (nrows M))) as (r & E & L & N).
    { intros x Hx. apply in_zrange in Hx. destruct (rd_get M x i W) as (v & G & _); [split; lia|]. exists v. rewrite <- G. f_equal. ring. }
    exists r. split; auto. rewrite zrange_length in L. split; [lia|]. intros t Ht.
    destruct (N (Z.to_nat t) t) as (y & Ey & G). { rewrite zrange_nth by lia. f_equal. lia. }
    rewrite Ey. destruct (rd_get M t i W) as (v & G2 & Ev); [split; lia|]. replace (t + i * nrows M) with (nrows M * i + t) in G2 by ring. congruence.
Qed.

Definition good_range (i : Z) (r : irange) : Prop :=
  is_not_valid r = false /\ known_at by_row M i (i_start r) /\ known_at by_row M i (i_end r) /\
  forall t, known_at by_row M i t -> i_start r <= t <= i_end r.
Lemma known_in i t : known_at by_row M i t -> 0 <= i < nv /\ 0 <= t < nt.
Proof. intros (v & H). eapply obs_in; eauto. Qed.
Lemma range_ok i : 0 <= i < nv -> exists s r m, ts_series by_row M i = Ok s /\ get_range_m s = Ok (r, m) /\
  ((good_range i r /\ (m = true <-> has_gap by_row M i)) \/ (is_not_valid r = true /\ m = false /\ forall t, ~ known_at by_row M i t)).
Proof.
  intros Hi. destruct (series_ok i Hi) as (s & Es & Ls & Ns). destruct (range_exact s) as (r & m & _ & Er & H).
  { intros ->. cbn in Ls. lia. }
  exists s, r, m. split; auto. split; auto.
  assert (K : forall t, 0 <= t -> (known s (Z.to_nat t) <-> known_at by_row M i t)).
  { intros t Ht. unfold known, val, known_at. split; intros (v & Hv).
    - exists v. rewrite <- Ns; auto. assert (Z.to_nat t < length s)%nat by (apply nth_error_Some; congruence). lia.
    - exists v. destruct (obs_in _ _ _ Hv). rewrite Ns by lia. auto. }
  destruct H as [(a & b & (Ka & Fa) & (Kb & Fb) & V & Ea & Eb & G)|H].
  - left.
    assert (GR : good_range i r).
    { split; auto. rewrite Ea, Eb. split; [apply K; [lia|rewrite Nat2Z.id; auto]|]. split; [apply K; [lia|rewrite Nat2Z.id; auto]|].
      intros t Kt. destruct (known_in i t Kt). assert (Kt2 : known s (Z.to_nat t)) by (apply K; [lia|auto]). specialize (Fa _ Kt2). specialize (Fb _ Kt2). lia. }
    split; auto. rewrite G. split.
    + intros (j & Hj & Mj). exists (Z.of_nat j). split.
      * exists (Z.of_nat a), (Z.of_nat b). split; [lia|]. split; apply K; try lia; rewrite Nat2Z.id; auto.
      * rewrite <- K by lia. rewrite Nat2Z.id. intros (v & Hv). unfold val, missing in *. congruence.
    + intros (t & (x & y & Hxy & Kx & Ky) & NK). exists (Z.to_nat t). destruct (known_in _ _ Kx). destruct (known_in _ _ Ky).
      assert (Nt : nth_error s (Z.to_nat t) = obs by_row M i t) by (apply Ns; lia).
      assert (Mt : missing s (Z.to_nat t)).
      { unfold missing. destruct (obs_some i t) as (v & Ev); [lia|lia|]. rewrite Nt, Ev. destruct v; auto. exfalso. apply NK. exists a0. auto. }
      split; auto. destruct GR as (_ & _ & _ & GR). pose proof (GR _ Kx). pose proof (GR _ Ky).
      assert (Z.to_nat t <> a) by (intros Q; rewrite Q in Mt; destruct Ka as (v & Hv); unfold val, missing in *; congruence).
      assert (Z.to_nat t <> b) by (intros Q; rewrite Q in Mt; destruct Kb as (v & Hv); unfold val, missing in *; congruence). lia.
  - right. destruct H as (N & V & Em). split; auto. split; auto.
    intros t Kt. destruct (known_in _ _ Kt). apply (K t) in Kt; [|lia]. destruct Kt as (v & Hv). eapply N. exists v. eauto.
Qed.

Definition range_for (i : Z) (r : irange) : Prop := good_range i r \/ (is_not_valid r = true /\ forall t, ~ known_at by_row M i t).
Lemma data_loop_ok : forall is st, Forall (fun i => 0 <= i < nv) is ->
  exists st' rs ms, ts_data_loop by_row M is st = Ok st' /\ ts_ranges st' = ts_ranges st ++ rs /\ Forall2 range_for is rs /\
    ts_missing st' = ts_missing st ++ ms /\ (forall i, In i ms <-> In i is /\ has_gap by_row M i) /\
    ts_has_missing st' = ts_has_missing st || negb (match ms with [] => true | _ => false end).
Proof.
  induction is as [|i t IH]; intros st F.
  - exists st, [], []. cbn. rewrite !app_nil_r, orb_false_r. split; auto. split; auto. split; auto. split; auto. split; auto. intros j. split; [tauto|tauto].
  - apply Forall_cons_iff in F. destruct F as (Hi & F). destruct (range_ok i Hi) as (s & r & m & Es & Er & H).
    cbn [ts_data_loop]. rewrite Es. cbn [bind]. rewrite Er. cbn [bind].
    edestruct IH as (st' & rs & ms & E & R & F2 & Ms & Gm & Hm); [exact F|]. rewrite E. cbn [ts_ranges ts_missing ts_has_missing] in *.
    exists st', (r :: rs), ((if m then [i] else []) ++ ms). split; auto. split; [rewrite R, <- app_assoc; auto|].
    split. { constructor; auto. unfold range_for. destruct H as [(H & _)|(H & _ & H2)]; auto. }
    assert (G : m = true <-> has_gap by_row M i).
    { destruct H as [(_ & H)|(_ & -> & N)]; auto. split; [discriminate|]. intros (u & (a & b & _ & Ka & _) & _). exfalso. eapply N; eauto. }
    split. { rewrite Ms. destruct m; cbn [app]; rewrite <- ?app_assoc; auto. }
    split. { intros j. rewrite in_app_iff, Gm. cbn [In]. destruct m; cbn [In]; split; intros HH.
      - destruct HH as [[<-|[]]|(H1 & H2)]; tauto.
      - destruct HH as ([<-|H1] & H2); tauto.
      - tauto.
      - destruct HH as ([<-|H1] & H2); [|tauto]. apply G in H2. discriminate. }
    rewrite Hm. destruct m; cbn [app negb orb]; rewrite ?orb_true_r, ?orb_false_r; auto.
Qed.
End Ts.
