(** Property C55: histograms. *)
From Verif Require Import Num HistModel HistSpec DescModel DescSpec DescProofs DescProofs2 MatProofs MatProofs6 HistProofs HistProofs2 Prop_Desc.
From Coq Require Import Lia ZifyBool Sorted Permutation.
Local Open Scope Z_scope.

(** Every observation is counted once, whatever the data and the axis (n + 1 bins for n axis points). *)
Theorem c55_total (ds axis : list Qc) (counts : list Z) : (length axis < length counts)%nat ->
  exists c, fill_hist ds axis counts = Ok c /\ length c = length counts /\ zsum (firstn (length axis + 1) c) = Z.of_nat (length ds).
Proof.
  intros H. destruct (fill_ok axis ds counts ltac:(lia)) as (bs & c & E & B & Lc & O). exists c. split; auto. split; auto.
  assert (R := bins_range axis ds 0 bs ltac:(lia) B). assert (Ln := bins_length axis ds 0 bs B).
  rewrite <- Ln, <- (zsum_occ (length axis + 1) bs) by (eapply Forall_impl; [|apply R]; cbn; intros; lia).
  f_equal. assert (L1 : length (firstn (length axis + 1) c) = length (map (fun i => occ (Z.of_nat i) bs) (seq 0 (length axis + 1)))).
  { rewrite map_length, seq_length, firstn_length. lia. }
  rewrite map_length, seq_length in L1. apply oat_ext; [rewrite map_length, seq_length; auto|]. intros i Hi. specialize (O i ltac:(lia)).
  destruct (Z.leb_spec i (Z.of_nat (length axis))) as [_|]; [|lia].
  unfold oat in *. destruct (Z.ltb_spec i 0); [lia|]. rewrite nth_firstn by lia. rewrite O. symmetry. rewrite nth_error_map.
  rewrite (nth_error_nth' _ 0%nat) by (rewrite seq_length; lia). rewrite seq_nth by lia. cbn [option_map Nat.add]. do 2 f_equal. lia.
Qed.
Print Assumptions c55_total.
(** No bin count is written outside of the storage: too small a storage is undefined behaviour. *)
Theorem c55_small_storage_refuted : exists ds axis counts, length counts = length axis /\ fill_hist ds axis counts = UB.
Proof. exists [], [], []. split; reflexivity. Qed.
Print Assumptions c55_small_storage_refuted.
Example c55_total_ex : exists c, fill_hist [qz 5; qz 1; qz 9] [qz 3; qz 6] [7; 7; 7; 7] = Ok c /\ zsum (firstn 3 c) = 3.
Proof. eexists. split; vm_compute; reflexivity. Qed.

(** The counts of sorted data on an increasing axis: all but the largest observation are counted in their half-open
    bin; the largest is counted in the bin closed on the right, except if it is tied and not the last axis point. *)
Theorem c55_counts (init : list Qc) (d : Qc) (axis : list Qc) (counts : list Z) : increasing axis -> (length axis < length counts)%nat -> StronglySorted Qcle (init ++ [d]) ->
  exists c, fill_hist (init ++ [d]) axis counts = Ok c /\ length c = length counts /\
    (forall p, 0 <= p <= Z.of_nat (length axis) -> oat c p = Some (count (half_open axis p) init + one (last_counted axis init d p))) /\
    (forall p, Z.of_nat (length axis) < p -> oat c p = oat counts p).
Proof. intros I0 H. apply counts_exact; auto. lia. Qed.
Print Assumptions c55_counts.
Example c55_counts_ex : increasing [qz 1; qz 2; qz 3] /\ StronglySorted Qcle ([qz 0; qz 1; qz 2] ++ [qz 3]) /\ fill_hist ([qz 0; qz 1; qz 2] ++ [qz 3]) [qz 1; qz 2; qz 3] [9; 9; 9; 9; 9] = Ok [1; 1; 2; 0; 9].
Proof.
  split; [|split; [repeat constructor; unfold Qcle; cbn; discriminate|vm_compute; reflexivity]].
  intros i j [H1 H2]. cbn [length] in H2. destruct j as [|[|[|j]]]; try lia; destruct i as [|[|i]]; try lia; reflexivity.
Qed.

Lemma existsb_not_in d l : ~ In d l -> existsb (qeqb d) l = false.
Proof. intros H. destruct (existsb (qeqb d) l) eqn:E; auto. apply existsb_exists in E. destruct E as (x & Ix & Ex). destruct (qeqb_spec d x); [subst; contradiction|discriminate]. Qed.
Lemma count_app f l x : count f (l ++ [x]) = count f l + one (f x).
Proof. unfold count, one. rewrite filter_app, app_length. cbn [filter]. destruct (f x); cbn [length]; lia. Qed.
Lemma xat_in (l : list Qc) i : 0 <= i < Z.of_nat (length l) -> In (xat l i) l.
Proof. intros H. unfold xat. destruct (Z.ltb_spec i 0); [lia|]. apply nth_In. lia. Qed.
(** If the largest observation is not an axis point, every count is the number of observations of the half-open bin. *)
Theorem c55_half_open_partial (init : list Qc) (d : Qc) (axis : list Qc) (counts : list Z) : increasing axis -> (length axis < length counts)%nat -> StronglySorted Qcle (init ++ [d]) -> ~ In d axis ->
  exists c, fill_hist (init ++ [d]) axis counts = Ok c /\ forall p, 0 <= p <= Z.of_nat (length axis) -> oat c p = Some (count (half_open axis p) (init ++ [d])).
Proof.
  intros I0 H So Nd. destruct (c55_counts init d axis counts I0 H So) as (c & E & _ & O & _). exists c. split; auto. intros p Hp. rewrite O by auto. rewrite count_app.
  enough (half_closed axis p d = half_open axis p d) as Q. { unfold last_counted. destruct (existsb (qeqb d) init && _); rewrite ?Q; auto. }
  assert (N : forall i, 0 <= i < Z.of_nat (length axis) -> xat axis i <> d). { intros i Hi <-. apply Nd. apply xat_in. auto. }
  unfold half_closed, half_open. f_equal.
  - destruct (Z.eqb_spec p 0) as [|P]; auto. cbn [orb]. specialize (N (p - 1) ltac:(lia)).
    destruct (qltb_spec (xat axis (p - 1)) d), (qleb_spec (xat axis (p - 1)) d); auto; exfalso; try qlra; apply N; apply Qcle_antisym; qlra.
  - destruct (Z.eqb_spec p (Z.of_nat (length axis))) as [|P]; auto. cbn [orb]. specialize (N p ltac:(lia)).
    destruct (qltb_spec d (xat axis p)), (qleb_spec d (xat axis p)); auto; exfalso; try qlra; apply N; apply Qcle_antisym; qlra.
Qed.
Print Assumptions c55_half_open_partial.
(** The documented bins: if the largest observation is the last axis point and is not tied, the last bin is closed and
    every count is the number of observations of its bin. *)
Theorem c55_documented_partial (init : list Qc) (axis : list Qc) (counts : list Z) : increasing axis -> (2 <= length axis)%nat -> (length axis < length counts)%nat ->
  let d := xat axis (Z.of_nat (length axis) - 1) in StronglySorted Qcle (init ++ [d]) -> ~ In d init ->
  exists c, fill_hist (init ++ [d]) axis counts = Ok c /\ forall p, 0 <= p <= Z.of_nat (length axis) -> oat c p = Some (count (documented axis p) (init ++ [d])).
Proof.
  intros I0 H2 H d So Nd. destruct (c55_counts init d axis counts I0 H So) as (c & E & _ & O & _). exists c. split; auto. intros p Hp. rewrite O by auto. rewrite count_app.
  set (n := Z.of_nat (length axis)) in *.
  assert (Lt : forall x, In x init -> (x < d)%Qc).
  { intros x Ix. assert (x <= d)%Qc. { clear - So Ix. induction init as [|y t IH]; [contradiction|]. cbn [app] in So. apply StronglySorted_inv in So. destruct So as [So F].
      destruct Ix as [<-|Ix]; auto. rewrite Forall_forall in F. apply F. apply in_or_app. right. left. auto. }
    apply Qcle_lt_or_eq in H0. destruct H0 as [|Ex]; auto. subst x. contradiction. }
  f_equal. f_equal.
  - unfold count. f_equal. f_equal. apply filter_ext_in. intros x Ix. specialize (Lt x Ix). unfold documented, half_open. fold n.
    destruct (Z.eqb_spec p (n - 1)) as [Ep|N1].
    + subst p. replace (n - 1 - 1) with (n - 2) by lia. destruct (Z.eqb_spec (n - 1) 0); [lia|]. destruct (Z.eqb_spec (n - 1) n); [lia|]. cbn [orb]. fold d. f_equal.
      destruct (qltb_spec x d), (qleb_spec x d); auto; exfalso; qlra.
    + destruct (Z.eqb_spec p n) as [Ep|N2]; auto. subst p. rewrite andb_true_r. destruct (Z.eqb_spec n 0); [lia|]. cbn [orb]. fold d.
      destruct (qltb_spec d x), (qleb_spec d x); auto; exfalso; qlra.
  - f_equal. unfold last_counted. rewrite existsb_not_in by auto. cbn [andb]. unfold half_closed, documented. fold n.
    assert (AL : forall i, 0 <= i < n - 1 -> (xat axis i < d)%Qc). { intros i Hi. apply axis_lt; auto; fold n; lia. }
    destruct (Z.eqb_spec p (n - 1)) as [Ep|N1].
    + subst p. replace (n - 1 - 1) with (n - 2) by lia. destruct (Z.eqb_spec (n - 1) 0); [lia|]. destruct (Z.eqb_spec (n - 1) n); [lia|]. cbn [orb]. fold d. f_equal.
      specialize (AL (n - 2) ltac:(lia)). destruct (qltb_spec (xat axis (n - 2)) d), (qleb_spec (xat axis (n - 2)) d); auto; exfalso; qlra.
    + destruct (Z.eqb_spec p n) as [Ep|N2].
      * subst p. rewrite andb_true_r. destruct (Z.eqb_spec n 0); [lia|]. reflexivity.
      * unfold half_open. fold n. destruct (Z.eqb_spec p n); [lia|]. cbn [orb]. specialize (AL p ltac:(lia)).
        destruct (qleb_spec d (xat axis p)); [exfalso; qlra|]. destruct (qltb_spec d (xat axis p)); [exfalso; qlra|]. rewrite !andb_false_r. auto.
Qed.
Print Assumptions c55_documented_partial.

(** The documented bins are not used for other data: an untied largest observation on an inner axis point is counted one
    bin too low, ties at the last axis point are split. *)
Theorem c55_inner_point_refuted : exists ds axis c, StronglySorted Qcle ds /\ increasing axis /\ fill_hist ds axis [0; 0; 0; 0] = Ok c /\
  oat c 1 = Some 2 /\ count (documented axis 1) ds = 1 /\ oat c 2 = Some 0 /\ count (documented axis 2) ds = 1.
Proof.
  exists [qz 1; qz 2], [qz 1; qz 2; qz 3]. eexists. split; [repeat constructor; unfold Qcle; cbn; discriminate|].
  split; [apply c55_counts_ex|]. split; [vm_compute; reflexivity|]. repeat split; vm_compute; reflexivity.
Qed.
Print Assumptions c55_inner_point_refuted.
Theorem c55_ties_split_refuted : exists ds axis c, StronglySorted Qcle ds /\ increasing axis /\ fill_hist ds axis [0; 0; 0; 0] = Ok c /\
  oat c 2 = Some 1 /\ oat c 3 = Some 1 /\ count (documented axis 2) ds = 2 /\ ds = [qz 3; qz 3].
Proof.
  exists [qz 3; qz 3], [qz 1; qz 2; qz 3]. eexists. split; [repeat constructor; unfold Qcle; cbn; discriminate|].
  split; [apply c55_counts_ex|]. split; [vm_compute; reflexivity|]. repeat split; vm_compute; reflexivity.
Qed.
Print Assumptions c55_ties_split_refuted.

(** A given axis: the data are sorted first. *)
Theorem c55_given_axis (ds axis : list Qc) (counts : list Z) : ds <> [] -> increasing axis -> (length axis < length counts)%nat ->
  exists init d c, compute_v ds axis counts = Ok (init ++ [d], c, Z.of_nat (length ds)) /\ Permutation (init ++ [d]) ds /\ StronglySorted Qcle (init ++ [d]) /\
    forall p, 0 <= p <= Z.of_nat (length axis) -> oat c p = Some (count (half_open axis p) init + one (last_counted axis init d p)).
Proof.
  intros N I0 H. assert (P := qsort_perm ds). assert (So := qsort_sorted ds).
  destruct (exists_last (l := qsort ds)) as (init & d & E). { intros E. rewrite E in P. apply Permutation_nil in P. contradiction. }
  rewrite E in P, So. destruct (c55_counts init d axis counts I0 H So) as (c & Ec & _ & O & _). exists init, d, c. split; auto.
  unfold compute_v. destruct ds as [|x t]; [contradiction|]. rewrite E, Ec. reflexivity.
Qed.
Print Assumptions c55_given_axis.
Theorem c55_no_data (axis : list Qc) counts k mn mx omn omx mult step : compute_v [] axis counts = Throw /\ compute [] axis counts k mn mx step = Throw /\ compute_size [] k omn omx mult step = Throw.
Proof. repeat split. Qed.
Print Assumptions c55_no_data.

(** The equidistant axis: [bincount] bins of the same length from min to max (plus DBL_EPSILON); if the (sorted) data are
    between min and max, no observation is counted outside of the axis, except a single observation which is the minimum. *)
Theorem c55_equal_bins (init : list Qc) (d : Qc) axis counts bincount mn mx : 2 <= bincount -> Z.of_nat (length axis) = bincount + 1 -> bincount + 2 <= Z.of_nat (length counts) -> (mn < mx)%Qc ->
  StronglySorted Qcle (init ++ [d]) -> (forall x, In x (init ++ [d]) -> mn <= x <= mx)%Qc ->
  exists a c, compute (init ++ [d]) axis counts bincount mn mx None = Ok (a, c, bincount) /\ length a = length axis /\
    (forall i, 0 <= i < bincount -> oat a i = Some (mn + qz i * ((mx - mn) / qz bincount))%Qc) /\ oat a bincount = Some (mx + dbl_eps)%Qc /\ increasing a /\
    (forall p, 0 <= p <= bincount + 1 -> oat c p = Some (count (half_open a p) init + one (last_counted a init d p))) /\
    oat c (bincount + 1) = Some 0 /\ (init <> [] \/ d <> mn -> oat c 0 = Some 0).
Proof.
  intros Hb La Lc Hm So Rg.
  assert (Hb0 : (0 < qz bincount)%Qc) by (change 0%Qc with (qz 0); apply qz_lt; lia).
  assert (Hs : (0 < (mx - mn) / qz bincount)%Qc).
  { unfold Qcdiv. assert (0 < / qz bincount)%Qc by (apply Qc_inv_pos; auto). assert (Q : (0 < mx - mn)%Qc) by qlra. assert (P := Qcmult_lt_compat_r _ _ _ H Q). rewrite Qcmult_0_l in P. auto. }
  assert (Hx : (mn + qz bincount * ((mx - mn) / qz bincount) = mx)%Qc). { field. apply Qc_pos_ne; auto. }
  destruct (step_axis axis bincount mn ((mx - mn) / qz bincount) ltac:(lia) La Hs) as (a & E & L1 & A1 & A2 & Inc).
  rewrite Hx in A2. destruct (c55_counts init d a counts Inc ltac:(lia) So) as (c & Ec & _ & O & _).
  exists a, c. split.
  - unfold compute. destruct (Z.eqb_spec (Z.of_nat (length (init ++ [d]))) 0) as [K|_]; [rewrite app_length in K; cbn in K; lia|].
    destruct (Z.eqb_spec bincount 1); [lia|]. destruct (Z.eqb_spec bincount 0) as [|NZ]; [lia|]. cbn [bind]. destruct (Z.eqb_spec bincount 0); [lia|].
    revert E. destruct (writes _ axis) as [a0| |]; cbn [bind]; try discriminate. intros ->. cbn [bind]. rewrite Ec. reflexivity.
  - split; auto. split; auto. split; auto. split; auto. replace (Z.of_nat (length a)) with (bincount + 1) in O by lia. split; auto.
    assert (X0 : xat a 0 = mn). { assert (Q := A1 0 ltac:(lia)). rewrite oat_xat in Q by lia. injection Q as ->. change (qz 0) with 0%Qc. ring. }
    assert (Xb : xat a bincount = (mx + dbl_eps)%Qc). { rewrite oat_xat in A2 by lia. injection A2 as ->. auto. }
    assert (Ep := eps_pos). remember dbl_eps as ep. split.
    + rewrite O by lia. f_equal. replace (count _ init) with 0.
      * unfold one, last_counted. assert (Rd := Rg d ltac:(apply in_or_app; right; left; auto)). destruct Rd as [_ Rd].
        replace (half_open a (bincount + 1) d) with false. 2:{ unfold half_open. replace (bincount + 1 - 1) with bincount by lia. rewrite Xb. destruct (Z.eqb_spec (bincount + 1) 0); [lia|]. cbn [orb]. destruct (qleb_spec (mx + ep)%Qc d); auto. exfalso. qlra. }
        replace (half_closed a (bincount + 1) d) with false. 2:{ unfold half_closed. replace (bincount + 1 - 1) with bincount by lia. rewrite Xb. destruct (Z.eqb_spec (bincount + 1) 0); [lia|]. cbn [orb]. destruct (qltb_spec (mx + ep)%Qc d); auto. exfalso. qlra. }
        destruct (_ && _); auto.
      * unfold count. replace (filter _ init) with (@nil Qc); auto. symmetry. assert (Rg' : forall x, In x init -> (x <= mx)%Qc) by (intros x Ix; apply Rg; apply in_or_app; auto).
        clear - Rg' Xb Ep Hb. induction init as [|x t IH]; auto. cbn [filter]. unfold half_open at 1. replace (bincount + 1 - 1) with bincount by lia. rewrite Xb. destruct (Z.eqb_spec (bincount + 1) 0); [lia|]. cbn [orb].
        specialize (Rg' x ltac:(left; auto)) as Rx. destruct (qleb_spec (mx + ep)%Qc x); [exfalso; qlra|]. cbn [andb]. apply IH. intros y Iy. apply Rg'. right. auto.
    + intros Nn. rewrite O by lia. f_equal.
      assert (H0 : forall x, In x (init ++ [d]) -> half_open a 0 x = false).
      { intros x Ix. destruct (Rg x Ix) as [Rx _]. unfold half_open. destruct (Z.eqb_spec 0 (Z.of_nat (length a))); [lia|]. rewrite X0. cbn [orb andb Z.eqb]. destruct (qltb_spec x mn); auto. exfalso. qlra. }
      replace (count _ init) with 0.
      * unfold one, last_counted. replace (Z.of_nat (length a) - 1) with bincount by lia. rewrite Xb. rewrite H0 by (apply in_or_app; right; left; auto).
        destruct (Rg d ltac:(apply in_or_app; right; left; auto)) as [Rd Rd2].
        destruct (existsb (qeqb d) init && negb (qeqb d (mx + ep))) eqn:K; auto.
        replace (half_closed a 0 d) with false; auto. symmetry. unfold half_closed. destruct (Z.eqb_spec 0 (Z.of_nat (length a))); [lia|]. rewrite X0. cbn [orb andb Z.eqb].
        destruct (qleb_spec d mn) as [G|]; auto. exfalso. assert (d = mn) by (apply Qcle_antisym; auto). subst d. destruct Nn as [Nn|Nn]; [|contradiction].
        destruct init as [|y t]; [contradiction|].
        assert (y = mn). { apply StronglySorted_inv in So. destruct So as [_ F]. rewrite Forall_forall in F. apply Qcle_antisym; [apply F; apply in_or_app; right; left; auto|]. apply (Rg y). left. auto. }
        subst y. cbn [existsb] in K. destruct (qeqb_spec mn mn); [|congruence]. cbn [orb andb] in K. destruct (qeqb_spec mn (mx + ep)%Qc) as [G'|]; [|discriminate].
        assert (mn < mx + ep)%Qc by qlra. rewrite <- G' in H. apply (Qclt_not_le _ _ H (Qcle_refl mn)).
      * unfold count. replace (filter _ init) with (@nil Qc); auto. symmetry. assert (H0' : forall x, In x init -> half_open a 0 x = false) by (intros; apply H0; apply in_or_app; auto).
        clear - H0'. induction init as [|x t IH]; auto. cbn [filter]. rewrite H0' by (left; auto). apply IH. intros. apply H0'. right. auto.
Qed.
Print Assumptions c55_equal_bins.
Example c55_equal_bins_ex : exists a, compute ([qz 1; qz 2; qz 2] ++ [qz 5]) [0; 0; 0]%Qc [0; 0; 0; 0] 2 (qz 1) (qz 5) None = Ok (a, [0; 3; 1; 0], 2).
Proof. eexists. vm_compute. reflexivity. Qed.
Theorem c55_single_minimum_refuted : exists a, compute [qz 1] [0; 0; 0]%Qc [0; 0; 0; 0] 2 (qz 1) (qz 5) None = Ok (a, [1; 0; 0; 0], 2).
Proof. eexists. vm_compute. reflexivity. Qed.
Print Assumptions c55_single_minimum_refuted.

(** ** The size computation *)
Lemma qmax_ok a b : (a <= qmax a b /\ b <= qmax a b)%Qc /\ (qmax a b = a \/ qmax a b = b).
Proof. unfold qmax. destruct (qltb_spec a b); (split; [split; qlra|auto]). Qed.
Lemma qmin_ok a b : (qmin a b <= a /\ qmin a b <= b)%Qc /\ (qmin a b = a \/ qmin a b = b).
Proof. unfold qmin. destruct (qltb_spec b a); (split; [split; qlra|auto]). Qed.
(** The data are sorted in place and the size of the axis is the number of bins plus one. *)
Theorem c55_size ds bincount mn mx mult step s k a b size : compute_size ds bincount mn mx mult step = Ok (s, k, a, b, size) ->
  Permutation s ds /\ StronglySorted Qcle s /\ size = k + 1.
Proof.
  unfold compute_size. destruct (Z.of_nat (length ds) =? 0); [discriminate|]. destruct (match mn, mx with Some a, Some b => qleb b a | _, _ => false end); [discriminate|].
  match goal with |- context [bind ?r _] => destruct r as [[[a0 b0] k0]| |] end; cbn [bind]; try discriminate.
  destruct (qeqb a0 b0); intros E; injection E as <- <- <- <- <-; (split; [apply qsort_perm|split; [apply qsort_sorted|auto]]).
Qed.
Print Assumptions c55_size.
(** A given range and a given number of bins are kept; an empty range is rejected. *)
Theorem c55_given_range ds bincount mn mx mult step : ds <> [] -> 0 < bincount -> (mn < mx)%Qc ->
  compute_size ds bincount (Some mn) (Some mx) mult step = Ok (qsort ds, bincount, mn, mx, bincount + 1).
Proof.
  intros N H L. unfold compute_size. destruct (Z.eqb_spec (Z.of_nat (length ds)) 0); [destruct ds; cbn in *; [contradiction|lia]|].
  destruct (qleb_spec mx mn); [exfalso; qlra|]. destruct (Z.ltb_spec 0 bincount); [|lia]. cbn [bind]. destruct (qeqb_spec mn mx); [exfalso; subst; qlra|]. reflexivity.
Qed.
Print Assumptions c55_given_range.
Theorem c55_empty_range ds bincount mn mx mult step : (mx <= mn)%Qc -> compute_size ds bincount (Some mn) (Some mx) mult step = Throw.
Proof.
  intros L. unfold compute_size. destruct (Z.of_nat (length ds) =? 0); auto. destruct (qleb_spec mx mn); auto. exfalso. qlra.
Qed.
Print Assumptions c55_empty_range.
Lemma quantiles_exist s : s <> [] -> StronglySorted Qcle s -> exists q1 q3, quantile_sorted s 0 = Ok (nth 0 s 0%Qc) /\ quantile_sorted s 1 = Ok (nth (length s - 1) s 0%Qc) /\
  quantile_sorted s (Q2Qc (1 # 4)) = Ok q1 /\ quantile_sorted s (Q2Qc (3 # 4)) = Ok q3 /\ (nth 0 s 0 <= q1 /\ q1 <= q3 /\ q3 <= nth (length s - 1) s 0)%Qc.
Proof.
  intros N So. apply sorted_nondec in So. destruct (quantile_ok s (Q2Qc (1 # 4)) N) as (q1 & E1 & _). destruct (quantile_ok s (Q2Qc (3 # 4)) N) as (q3 & E3 & _).
  exists q1, q3. split; [apply c78_ends; auto; apply Qcle_refl|]. split; [apply c78_ends; auto; apply Qcle_refl|]. split; auto. split; auto.
  split; [apply (c78_range s _ q1 N So E1)|]. split; [|apply (c78_range s _ q3 N So E3)].
  apply (c78_monotone s (Q2Qc (1 # 4)) (Q2Qc (3 # 4))); auto. unfold Qcle. cbn. discriminate.
Qed.
(** The automatic range: from the first quartile minus [mult] interquartile ranges (but not below the smallest observation)
    to the third quartile plus as much (but not above the largest one), widened by 0.01 on both sides if it is one point. *)
Theorem c55_auto_range ds bincount mult step s k a b size : ds <> [] -> (0 <= mult)%Qc -> compute_size ds bincount None None mult step = Ok (s, k, a, b, size) ->
  exists q1 q3 lo hi, quantile_sorted s (Q2Qc (1 # 4)) = Ok q1 /\ quantile_sorted s (Q2Qc (3 # 4)) = Ok q3 /\
    (forall z, lo <= z <-> nth 0 s 0 <= z /\ q1 - (q3 - q1) * mult <= z)%Qc /\ (forall z, z <= hi <-> z <= nth (length s - 1) s 0 /\ z <= q3 + (q3 - q1) * mult)%Qc /\
    (lo <= q1 /\ q1 <= q3 /\ q3 <= hi)%Qc /\ (a < b)%Qc /\
    (lo <> hi -> a = lo /\ b = hi) /\ (lo = hi -> a = lo - Q2Qc (1 # 100) /\ b = hi + Q2Qc (1 # 100))%Qc.
Proof.
  intros N Hm. unfold compute_size. destruct (Z.eqb_spec (Z.of_nat (length ds)) 0); [destruct ds; cbn in *; [contradiction|lia]|].
  assert (Ns : qsort ds <> []). { intros E. assert (P := qsort_perm ds). rewrite E in P. apply Permutation_nil in P. contradiction. }
  destruct (quantiles_exist (qsort ds) Ns (qsort_sorted ds)) as (q1 & q3 & E0 & E4 & E1 & E3 & L0 & L1 & L2).
  rewrite E0. cbn [bind]. rewrite E1. cbn [bind]. rewrite E3. cbn [bind]. rewrite E4. cbn [bind].
  assert (Hw : (0 <= (q3 - q1) * mult)%Qc). { assert (Q : (0 <= q3 - q1)%Qc) by qlra. assert (P := Qcmult_le_compat_r _ _ _ Q Hm). rewrite Qcmult_0_l in P. auto. }
  set (lo := qmax _ _). set (hi := qmin _ _). set (r := match step with None => _ | Some _ => _ end).
  assert (R : forall x, r = Ok x -> fst x = (lo, hi)).
  { subst r. intros x. destruct step as [st|].
    - destruct (qeqb st 0); [discriminate|]. destruct (to_int _); cbn [bind]; try discriminate. intros E; injection E as <-; auto.
    - destruct (bincount =? 0); [|intros E; injection E as <-; auto]. destruct (qltb (hi - lo) dbl_eps); [intros E; injection E as <-; auto|].
      destruct (qeqb _ _); [discriminate|]. destruct (to_int _); cbn [bind]; try discriminate. intros E; injection E as <-; auto. }
  clearbody r. destruct r as [[[a0 b0] k0]| |]; cbn [bind]; try discriminate. specialize (R _ eq_refl). cbn in R. injection R as -> ->.
  destruct (qmax_ok (nth 0 (qsort ds) 0%Qc) (q1 - (q3 - q1) * mult)%Qc) as [[M1 M2] M3]. fold lo in M1, M2, M3.
  destruct (qmin_ok (nth (length (qsort ds) - 1) (qsort ds) 0%Qc) (q3 + (q3 - q1) * mult)%Qc) as [[M4 M5] M6]. fold hi in M4, M5, M6.
  assert (B1 : (lo <= q1)%Qc) by (destruct M3 as [-> | ->]; qlra). assert (B2 : (q3 <= hi)%Qc) by (destruct M6 as [-> | ->]; qlra).
  clearbody lo hi. assert (H100 : (0 < Q2Qc (1 # 100))%Qc) by reflexivity. remember (Q2Qc (1 # 100)) as h.
  intros E. exists q1, q3, lo, hi.
  destruct (qeqb_spec lo hi) as [Eq|Ne]; injection E as <- <- <- <- <-; (split; [auto|split; [auto|]]).
  - split. { intros z. split; [intros Hz; split; qlra|]. intros [Z1 Z2]. destruct M3 as [-> | ->]; auto. }
    split. { intros z. split; [intros Hz; split; qlra|]. intros [Z1 Z2]. destruct M6 as [-> | ->]; auto. }
    split; [auto|]. split; [subst; qlra|]. split; [contradiction|auto].
  - split. { intros z. split; [intros Hz; split; qlra|]. intros [Z1 Z2]. destruct M3 as [-> | ->]; auto. }
    split. { intros z. split; [intros Hz; split; qlra|]. intros [Z1 Z2]. destruct M6 as [-> | ->]; auto. }
    split; [auto|]. split; [|split; [auto|contradiction]]. assert (Q : (lo <= hi)%Qc) by qlra. apply Qcle_lt_or_eq in Q. destruct Q; [auto|contradiction].
Qed.
Print Assumptions c55_auto_range.
(** The automatic number of bins: the integer part of the cube root of n times (max - min) / (2 iqr), one bin if the range
    is (nearly) one point. *)
Theorem c55_auto_bins ds mult s k a b size : ds <> [] -> (0 <= mult)%Qc -> compute_size ds 0 None None mult None = Ok (s, k, a, b, size) ->
  exists q1 q3, quantile_sorted s (Q2Qc (1 # 4)) = Ok q1 /\ quantile_sorted s (Q2Qc (3 # 4)) = Ok q3 /\
    ((q1 = q3 /\ k = 1) \/ ((b - a < dbl_eps)%Qc /\ k = 1) \/
     (let x := ((b - a) / (qz 2 * (q3 - q1)))%Qc in q1 < q3 /\ 0 <= qz k /\ qz k * qz k * qz k <= qn (length ds) * x * x * x /\ qn (length ds) * x * x * x < qz (k + 1)%Z * qz (k + 1)%Z * qz (k + 1)%Z)%Qc).
Proof.
  intros N Hm. unfold compute_size. destruct (Z.eqb_spec (Z.of_nat (length ds)) 0); [destruct ds; cbn in *; [contradiction|lia]|].
  assert (Ns : qsort ds <> []). { intros E. assert (P := qsort_perm ds). rewrite E in P. apply Permutation_nil in P. contradiction. }
  destruct (quantiles_exist (qsort ds) Ns (qsort_sorted ds)) as (q1 & q3 & E0 & E4 & E1 & E3 & L0 & L1 & L2).
  rewrite E0. cbn [bind]. rewrite E1. cbn [bind]. rewrite E3. cbn [bind]. rewrite E4. cbn [bind].
  assert (Hw : (0 <= (q3 - q1) * mult)%Qc). { assert (Q : (0 <= q3 - q1)%Qc) by qlra. assert (P := Qcmult_le_compat_r _ _ _ Q Hm). rewrite Qcmult_0_l in P. auto. }
  set (lo := qmax _ _). set (hi := qmin _ _).
  destruct (qmax_ok (nth 0 (qsort ds) 0%Qc) (q1 - (q3 - q1) * mult)%Qc) as [[M1 M2] M3]. fold lo in M1, M2, M3.
  destruct (qmin_ok (nth (length (qsort ds) - 1) (qsort ds) 0%Qc) (q3 + (q3 - q1) * mult)%Qc) as [[M4 M5] M6]. fold hi in M4, M5, M6.
  assert (B1 : (lo <= q1)%Qc) by (destruct M3 as [-> | ->]; qlra). assert (B2 : (q3 <= hi)%Qc) by (destruct M6 as [-> | ->]; qlra).
  cbn [Z.eqb]. assert (Ep := eps_pos).
  destruct (qltb_spec (hi - lo) dbl_eps) as [Sm|Lg].
  - cbn [bind]. destruct (qeqb_spec lo hi) as [Eq|Ne]; intros E; injection E as <- <- <- <- <-; exists q1, q3; (split; [auto|split; [auto|]]).
    + left. split; auto. apply Qcle_antisym; auto. rewrite Eq in B1. qlra.
    + right. left. auto.
  - destruct (qeqb_spec (q3 - q1) 0) as [Ez|Nz]; [discriminate|]. unfold to_int. destruct (_ || _)%bool eqn:Rg; [discriminate|]. cbn [bind].
    assert (Lt : (q1 < q3)%Qc). { apply Qcle_lt_or_eq in L1. destruct L1 as [|L1]; auto. exfalso. apply Nz. rewrite L1. ring. }
    destruct (qeqb_spec lo hi) as [Eq|Ne]; intros E; injection E as <- <- <- <- <-; exists q1, q3; (split; [auto|split; [auto|]]).
    + exfalso. rewrite Eq in B1. qlra.
    + right. right. cbv zeta. set (x := ((hi - lo) / (qz 2 * (q3 - q1)))%Qc). fold (qn (length ds)) in *.
      assert (Hx : (0 <= x)%Qc).
      { unfold x, Qcdiv. assert (P2 : (0 < qz 2 * (q3 - q1))%Qc). { change (qz 2) with (1 + 1)%Qc. assert (0 < q3 - q1)%Qc by qlra. qlra. }
        assert (I1 := Qc_inv_pos _ P2). assert (Q : (0 <= hi - lo)%Qc) by qlra. assert (P := Qcmult_le_compat_r _ _ (/ (qz 2 * (q3 - q1)))%Qc Q (Qclt_le_weak _ _ I1)). rewrite Qcmult_0_l in P. auto. }
      assert (Hy : (0 <= qn (length ds) * x * x * x)%Qc).
      { assert (0 <= qn (length ds))%Qc by (change 0%Qc with (qz 0); unfold qn; apply qz_le; lia).
        assert (M : forall u v, (0 <= u -> 0 <= v -> 0 <= u * v)%Qc). { intros u v Hu Hv. assert (P := Qcmult_le_compat_r _ _ _ Hu Hv). rewrite Qcmult_0_l in P. auto. }
        apply M; auto. }
      set (y := (qn (length ds) * x * x * x)%Qc) in *. destruct (qfloor_ok y) as [F1 F2].
      assert (F0 : 0 <= qfloor y). { destruct (Z.ltb_spec (qfloor y) 0) as [K|K]; [|auto]. exfalso. assert (K1 : (qz (qfloor y + 1)%Z <= 0)%Qc). { change 0%Qc with (qz 0). apply qz_le. lia. } qlra. }
      destruct (icbrt_ok (qfloor y) F0) as (R0 & R1 & R2). set (r := icbrt (qfloor y)) in *. rewrite <- !qz_mul.
      split; auto. split; [change 0%Qc with (qz 0); apply qz_le; auto|]. split.
      * apply Qcle_trans with (qz (qfloor y)); auto. apply qz_le. auto.
      * apply Qclt_le_trans with (qz (qfloor y + 1)); auto. apply qz_le. lia.
Qed.
Print Assumptions c55_auto_bins.
Definition ten : list Qc := map qz [0; 1; 2; 3; 4; 5; 6; 7; 8; 9; 10; 11; 12; 13; 14; 15].
Example c55_auto_ex : exists s a b, compute_size ten 0 None None (qz 2) None = Ok (s, 2, a, b, 3) /\ (a < b)%Qc.
Proof. do 3 eexists. split; [vm_compute; reflexivity|reflexivity]. Qed.

(** What goes wrong. One bin: the observations outside of the range are counted in the bin. *)
Theorem c55_one_bin_refuted : exists a, compute [qz 0; qz 7; qz 9] [0; 0]%Qc [0; 0; 0] 1 (qz 1) (qz 5) None = Ok (a, [0; 3; 0], 1).
Proof. eexists. vm_compute. reflexivity. Qed.
Print Assumptions c55_one_bin_refuted.
(** A negative number of bins (documented as automatic) is returned, and writes before the arrays. *)
Theorem c55_negative_bins_refuted : exists s a b, compute_size ten (-2) None None (qz 2) None = Ok (s, -2, a, b, -1) /\ forall axis counts, compute ten axis counts (-2) a b None = UB.
Proof. do 3 eexists. split; [vm_compute; reflexivity|]. intros. reflexivity. Qed.
Print Assumptions c55_negative_bins_refuted.
(** Small samples: the automatic number of bins is zero, which the second call rejects. *)
Theorem c55_small_sample_refuted : exists s a b, compute_size [qz 1; qz 2; qz 3] 0 None None (qz 2) None = Ok (s, 0, a, b, 1) /\ forall axis counts, compute s axis counts 0 a b None = Throw.
Proof. do 3 eexists. split; [vm_compute; reflexivity|]. intros. reflexivity. Qed.
Print Assumptions c55_small_sample_refuted.
(** A given minimum above the data is not rejected: the range is reversed. *)
Theorem c55_reversed_range_refuted : exists s a b, compute_size ten 3 (Some (qz 100)) None (qz 2) None = Ok (s, 3, a, b, 4) /\ (b < a)%Qc.
Proof. do 3 eexists. split; [vm_compute; reflexivity|reflexivity]. Qed.
Print Assumptions c55_reversed_range_refuted.
(** Equal quartiles with a given range: the number of bins is an infinity converted to an integer. *)
Theorem c55_equal_quartiles_refuted : compute_size [qz 5; qz 5; qz 5] 0 (Some (qz 1)) (Some (qz 9)) (qz 2) None = UB.
Proof. reflexivity. Qed.
Print Assumptions c55_equal_quartiles_refuted.
