From Verif Require Import DcCalcSpec.
From Coq Require Import Lia ZifyBool.
Local Open Scope Z_scope.

Lemma to_int_qz j : to_int (qz j) = j.
Proof.
  unfold to_int, qz. cbn [Q2Qc this]. rewrite Qred_identity by (cbn; apply Z.gcd_1_r). cbn. apply Z.quot_1_r.
Qed.
Lemma qs_cons a l : qsum (a :: l) = (a + qsum l)%Qc.
Proof. reflexivity. Qed.
Lemma count_loop_ok J ys : choices_upto J ys -> forall ws cs, length cs = Z.to_nat (J + 1) -> length ws = length ys ->
  exists cs', count_loop ys ws cs = Ok cs' /\ length cs' = length cs /\ forall j, 0 <= j <= J -> nth (Z.to_nat j) cs' 0%Qc = (nth (Z.to_nat j) cs 0 + weight_of ys ws j)%Qc.
Proof.
  induction ys as [|y ys IH]; intros V ws cs L W.
  - exists cs. split; [destruct ws; reflexivity|]. split; [reflexivity|]. intros j _. unfold weight_of. cbn. ring.
  - destruct ws as [|w ws]; [discriminate|]. cbn [count_loop]. destruct (V y (or_introl eq_refl)) as [i [Hi ->]].
    rewrite to_int_qz. unfold count_at. destruct (Z.leb_spec 0 i); [|lia]. destruct (Z.ltb_spec i (Z.of_nat (length cs))); [|lia]. cbn [andb bind].
    set (cs1 := upd _ _ cs). assert (L1 : length cs1 = length cs) by apply upd_length.
    destruct (IH (fun y H => V y (or_intror H)) ws cs1) as [cs' [E [L' N]]]; [lia|cbn in W; lia|].
    exists cs'. split; [exact E|]. split; [lia|]. intros j Hj. rewrite N by exact Hj.
    unfold weight_of. cbn [combine filter fst]. destruct (qeqb_spec (qz i) (qz j)) as [Q|Q].
    + apply qz_inj in Q. subst j. unfold cs1. rewrite nth_upd_same by lia. cbn [map snd]. rewrite qs_cons. ring.
    + assert (i <> j) by (intros ->; apply Q; reflexivity). unfold cs1. rewrite nth_upd_other by lia. reflexivity.
Qed.
Lemma weight_ones ys : choices_upto 1 ys -> weight_of ys (map (fun _ => 1%Qc) ys) 1 = qsum ys /\
  weight_of ys (map (fun _ => 1%Qc) ys) 0 = (qz (Z.of_nat (length ys)) - qsum ys)%Qc.
Proof.
  induction ys as [|y ys IH]; intros V; [split; unfold weight_of; cbn; [reflexivity|]|].
  - change (qz 0) with 0%Qc. ring.
  - destruct (IH (fun y H => V y (or_intror H))) as [A B]. destruct (V y (or_introl eq_refl)) as [i [Hi ->]].
    unfold weight_of in *. cbn [map combine filter fst length]. replace (Z.of_nat (S (length ys))) with (Z.of_nat (length ys) + 1) by lia. rewrite qz_add.
    assert (i = 0 \/ i = 1) as [-> | ->] by lia.
    + change (qeqb (qz 0) (qz 1)) with false. change (qeqb (qz 0) (qz 0)) with true. cbv iota. cbn [map snd]. rewrite !qs_cons, A. split.
      * change (qz 0) with 0%Qc. ring.
      * rewrite B. change (qz 0) with 0%Qc. change (qz 1) with 1%Qc. ring.
    + change (qeqb (qz 1) (qz 1)) with true. change (qeqb (qz 1) (qz 0)) with false. cbv iota. cbn [map snd]. rewrite !qs_cons, A. split.
      * change (qz 1) with 1%Qc. reflexivity.
      * rewrite B. change (qz 1) with 1%Qc. ring.
Qed.
Lemma binary_ok ys w : choices_upto 1 ys -> (forall ws, w = Some ws -> length ws = length ys) ->
  count_binary ys w = Ok [weight_of ys (row_weights ys w) 0; weight_of ys (row_weights ys w) 1].
Proof.
  intros V L. unfold count_binary, row_weights. destruct w as [ws|].
  - destruct (count_loop_ok 1 ys V ws [0%Qc; 0%Qc] eq_refl (L ws eq_refl)) as [cs [E [Lc N]]]. rewrite E. f_equal.
    assert (A := N 0 ltac:(lia)). assert (B := N 1 ltac:(lia)). change (Z.to_nat 0) with 0%nat in A. change (Z.to_nat 1) with 1%nat in B. destruct cs as [|a [|b [|]]]; try discriminate Lc. cbn [nth] in A, B. rewrite A, B.
    f_equal; [ring|]. f_equal. ring.
  - destruct (weight_ones ys V) as [A B]. rewrite A, B. reflexivity.
Qed.
Lemma ordered_ok J ys w : 0 <= J -> choices_upto J ys -> (forall ws, w = Some ws -> length ws = length ys) ->
  exists cs, count_ordered J ys w = Ok cs /\ length cs = Z.to_nat (J + 1) /\ forall j, 0 <= j <= J -> nth (Z.to_nat j) cs 0%Qc = weight_of ys (row_weights ys w) j.
Proof.
  intros HJ V L. unfold count_ordered. fold (row_weights ys w).
  destruct (count_loop_ok J ys V (row_weights ys w) (repeat 0%Qc (Z.to_nat (J + 1)))) as [cs [E [Lc N]]].
  - apply repeat_length.
  - destruct w as [ws|]; cbn; [apply L; reflexivity|apply map_length].
  - exists cs. rewrite repeat_length in Lc. split; [exact E|]. split; [exact Lc|]. intros j Hj. rewrite N by exact Hj.
    rewrite nth_repeat. ring.
Qed.
Lemma dc_new_sizes t n k0 c details d : dc_new t n k0 c details = Ok d ->
  dc_model d = t /\ dc_details d = details /\ dc_k d = k0 + c - 2 /\
  dc_storage d = k0 + c - 2 + (k0 + c - 2) * (k0 + c - 2) + c + (if details then 3 * (k0 + c - 2) else 0) /\
  dc_work d = Z.max (2 * n + c + n * k0 + ols_work n k0) (n + 2 * (k0 + c - 2) + (k0 + c - 2) * (k0 + c - 2) + 3 * (k0 + c - 2) + c) /\
  1 <= c /\ (t = Binary -> c <= 2) /\ (t = Ordered -> c <> 2).
Proof.
  unfold dc_new. destruct (Z.ltb_spec c 1); [discriminate|].
  destruct (Z.eqb_spec c 2) as [->|N]; destruct t; cbn [andb]; try discriminate;
    [change (2 <? 2) with false; cbn [andb]| destruct (Z.ltb_spec 2 c); try discriminate |]; cbn [andb];
    rewrite ?andb_false_r; intros E; apply (f_equal (fun r => match r with Ok x => x | _ => d end)) in E; cbv beta iota in E; rewrite <- E; cbn [dc_model dc_details dc_k dc_storage dc_work];
    unfold newton_work; destruct details; repeat split; try lia; try discriminate.
Qed.
Lemma dc_new_ok t n k0 c details : possible t c -> exists d, dc_new t n k0 c details = Ok d.
Proof.
  intros P. unfold dc_new. destruct t; cbn in P.
  - subst c. cbn [Z.ltb Z.eqb Z.compare Pos.compare Pos.compare_cont]. cbn [andb]. eexists. reflexivity.
  - destruct (Z.ltb_spec c 1); [lia|]. destruct (Z.eqb_spec c 2); [lia|]. cbn [andb]. rewrite andb_false_r. eexists. reflexivity.
Qed.
Lemma existsb_nth_all (f : Qc -> bool) cs c : length cs = Z.to_nat c ->
  (existsb f cs = false <-> forall j, 0 <= j <= c - 1 -> f (nth (Z.to_nat j) cs 0%Qc) = false).
Proof.
  intros L. split.
  - intros E j Hj. destruct (f (nth (Z.to_nat j) cs 0%Qc)) eqn:F; [|reflexivity].
    assert (existsb f cs = true); [|congruence]. apply existsb_exists. exists (nth (Z.to_nat j) cs 0%Qc). split; [apply nth_In; lia|exact F].
  - intros A. destruct (existsb f cs) eqn:E; [|reflexivity]. apply existsb_exists in E as [x [Hx F]].
    destruct (In_nth _ _ 0%Qc Hx) as [i [Hi Q]]. specialize (A (Z.of_nat i) ltac:(lia)). rewrite Nat2Z.id, Q in A. congruence.
Qed.
Lemma weights_pass (ys : list Qc) w : weights_match ys w ->
  (match w with Some ws => negb (Z.of_nat (length ws) =? Z.of_nat (length ys)) | None => false end) = false.
Proof. intros W. destruct w as [ws|]; [|reflexivity]. rewrite (W ws eq_refl), Z.eqb_refl. reflexivity. Qed.

(** The outcome for valid data. *)
Lemma calculate_ok t n0 k1 c0 details d ys k0 w c m :
  dc_new t n0 k1 c0 details = Ok d -> 1 <= Z.of_nat (length ys) <= n0 -> 1 <= k0 <= k1 -> c <= c0 ->
  possible t c -> (t = Ordered -> m = c) -> choices_upto (c - 1) ys -> weights_match ys w ->
  exists cs, length cs = Z.to_nat c /\ (forall j, 0 <= j <= c - 1 -> nth (Z.to_nat j) cs 0%Qc = weight_of ys (row_weights ys w) j) /\
    ((forall j, 0 <= j <= c - 1 -> enough t (weight_of ys (row_weights ys w) j)) ->
      dc_calculate d ys (Z.of_nat (length ys)) k0 w m = Ok (Start (c - 1) c (k0 + c - 2) cs)) /\
    (~ (forall j, 0 <= j <= c - 1 -> enough t (weight_of ys (row_weights ys w) j)) ->
      dc_calculate d ys (Z.of_nat (length ys)) k0 w m = Throw).
Proof.
  intros D Hn Hk Hc P M V W. destruct (dc_new_sizes _ _ _ _ _ _ D) as (T & Dd & Dk & Ds & Dw & C1 & CB & CO).
  destruct (dc_new_ok t (Z.of_nat (length ys)) k0 c details P) as [tmp Et]. destruct (dc_new_sizes _ _ _ _ _ _ Et) as (T' & Dd' & Dk' & Ds' & Dw' & _).
  assert (CL : 2 <= c) by (destruct t; cbn in P; lia).
  assert (SZ : ((dc_work d <? dc_work tmp) || (dc_storage d <? dc_storage tmp)) = false).
  { rewrite Dw, Dw', Ds, Ds'. unfold ols_work. set (n := Z.of_nat (length ys)) in *. clearbody n.
    apply orb_false_iff. split; apply Z.ltb_ge.
    - apply Z.max_le_compat; nia.
    - destruct details; nia. }
  assert (DK : (dc_k d <? k0 + c - 2) = false) by (apply Z.ltb_ge; lia).
  assert (CUT : (match dc_model d with
               | Binary => Ok 1
               | Ordered =>
                   do c <- (if m <=? 0 then match q_max ys None with Some m => Ok (to_int m) | None => UB end else Ok (m - 1));
                   if c <=? 0 then Throw else Ok c
               end) = Ok (c - 1)).
  { rewrite T. destruct t; cbn in P; [subst c; reflexivity|]. rewrite (M eq_refl). destruct (Z.leb_spec c 0); [lia|]. cbn [bind].
    destruct (Z.leb_spec (c - 1) 0); [lia|]. reflexivity. }
  unfold dc_calculate. cbv zeta. rewrite Z.eqb_refl. cbn [negb]. rewrite (weights_pass ys w W), CUT. cbn [bind].
  replace (c - 1 + 1) with c by lia. rewrite T, Dd, Et. cbn [bind]. rewrite SZ.
  destruct (Z.ltb_spec (Z.of_nat (length ys)) 1); [lia|]. replace (k0 + (c - 1) - 1) with (k0 + c - 2) by lia.
  destruct (Z.ltb_spec (k0 + c - 2) 1); [lia|]. cbn [orb]. rewrite DK.
  destruct t; cbn in P.
  - subst c. rewrite (binary_ok ys w V W). cbn [bind nth]. set (a := weight_of _ _ 0). set (b := weight_of _ _ 1).
    exists [a; b]. split; [reflexivity|]. split.
    { intros j Hj. assert (j = 0 \/ j = 1) as [-> | ->] by lia; reflexivity. }
    split.
    + intros E. assert (A := E 0 ltac:(lia)). assert (B := E 1 ltac:(lia)). fold a in A. fold b in B. cbn in A, B.
      destruct (qeqb_spec a 0); [contradiction|]. destruct (qeqb_spec b 0); [contradiction|]. reflexivity.
    + intros E. destruct (qeqb_spec a 0) as [A|A]; [reflexivity|]. destruct (qeqb_spec b 0) as [B|B]; [reflexivity|]. exfalso. apply E.
      intros j Hj. assert (j = 0 \/ j = 1) as [-> | ->] by lia; assumption.
  - destruct (ordered_ok (c - 1) ys w ltac:(lia) V W) as [cs [E [L N]]]. replace (c - 1 + 1) with c in L by lia.
    rewrite E. cbn [bind]. exists cs. split; [exact L|]. split; [exact N|]. split.
    + intros A. destruct (existsb (fun q => qltb q tiny) cs) eqn:X; [|reflexivity]. exfalso.
      assert (existsb (fun q => qltb q tiny) cs = false); [|congruence]. apply (existsb_nth_all _ _ _ L). intros j Hj. rewrite (N j Hj).
      specialize (A j Hj). cbn in A. destruct (qltb_spec (weight_of ys (row_weights ys w) j) tiny); [contradiction|reflexivity].
    + intros A. destruct (existsb (fun q => qltb q tiny) cs) eqn:X; [reflexivity|]. exfalso. apply A. intros j Hj. cbn.
      assert (K := proj1 (existsb_nth_all _ _ _ L) X j Hj). cbv beta in K. rewrite (N j Hj) in K.
      destruct (qltb_spec (weight_of ys (row_weights ys w) j) tiny); [discriminate|assumption].
Qed.
Lemma calculate_sizes d ys xr xc w m s : dc_calculate d ys xr xc w m = Ok s ->
  exists tmp, dc_new (dc_model d) (Z.of_nat (length ys)) xc (s_choices s) (dc_details d) = Ok tmp /\ dc_work tmp <= dc_work d /\ dc_storage tmp <= dc_storage d /\
    xr = Z.of_nat (length ys) /\ s_choices s = s_cutoffs s + 1 /\ s_params s = xc + s_cutoffs s - 1 /\ 1 <= s_params s <= dc_k d /\ 1 <= s_cutoffs s.
Proof.
  unfold dc_calculate. cbv zeta. destruct (Z.eqb_spec xr (Z.of_nat (length ys))) as [XR|]; [|discriminate]. cbn [negb].
  destruct (match w with Some ws => negb (Z.of_nat (length ws) =? Z.of_nat (length ys)) | None => false end); [discriminate|].
  set (CUT := match dc_model d with Binary => _ | Ordered => _ end).
  assert (C1 : forall c, CUT = Ok c -> 1 <= c).
  { intros c. unfold CUT. destruct (dc_model d); [intros [= <-]; lia|].
    destruct (if m <=? 0 then _ else _) as [c'| |]; cbn [bind]; try discriminate. destruct (Z.leb_spec c' 0); [discriminate|]. intros [= <-]. lia. }
  destruct CUT as [cut| |] eqn:EC; cbn [bind]; try discriminate. specialize (C1 cut eq_refl).
  destruct (dc_new (dc_model d) (Z.of_nat (length ys)) xc (cut + 1) (dc_details d)) as [tmp| |] eqn:Et; cbn [bind]; try discriminate.
  destruct (Z.ltb_spec (dc_work d) (dc_work tmp)); cbn [orb]; [discriminate|].
  destruct (Z.ltb_spec (dc_storage d) (dc_storage tmp)); [discriminate|].
  destruct (Z.ltb_spec (Z.of_nat (length ys)) 1); cbn [orb]; [discriminate|].
  destruct (Z.ltb_spec (xc + cut - 1) 1); [discriminate|].
  intros E. assert (exists cs, s = Start cut (cut + 1) (xc + cut - 1) cs /\ xc + cut - 1 <= dc_k d) as [cs [-> Kk]].
  { destruct (dc_model d).
    - destruct (count_binary ys w) as [cs| |]; cbn [bind] in E; try discriminate. destruct (_ || _); [discriminate|].
      destruct (Z.ltb_spec (dc_k d) (xc + cut - 1)); [discriminate|]. exists cs. inversion E. split; [reflexivity|lia].
    - destruct (count_ordered cut ys w) as [cs| |]; cbn [bind] in E; try discriminate. destruct (existsb _ _); [discriminate|].
      destruct (Z.ltb_spec (dc_k d) (xc + cut - 1)); [discriminate|]. exists cs. inversion E. split; [reflexivity|lia]. }
  exists tmp. cbn [s_choices s_cutoffs s_params]. repeat split; auto; lia.
Qed.
Lemma calculate_fits d ys xr xc w m s : 0 <= xc -> dc_calculate d ys xr xc w m = Ok s ->
  let n := Z.of_nat (length ys) in
  fits (storage_blocks (s_params s) (s_choices s) (dc_details d)) (dc_storage d) /\
  fits (prior_blocks (dc_model d) n xc (s_cutoffs s)) (dc_work d) /\
  fits (estimate_blocks (dc_model d) n xc (s_cutoffs s)) (dc_work d).
Proof.
  intros X E n. destruct (calculate_sizes _ _ _ _ _ _ _ E) as (tmp & Et & Lw & Ls & _ & EC & EP & PP & C1).
  destruct (dc_new_sizes _ _ _ _ _ _ Et) as (_ & _ & _ & Ds & Dw & _ & CB & CO). fold n in Dw.
  assert (0 <= n) by lia. clearbody n. rewrite EC in *. set (c := s_cutoffs s) in *. clearbody c. rewrite EP in *.
  unfold fits, storage_blocks, prior_blocks, estimate_blocks, newton_work. assert (W1 : 2 * n + (c + 1) + n * xc + ols_work n xc <= dc_work d) by lia.
  assert (W2 : n + 2 * (xc + (c + 1) - 2) + (xc + (c + 1) - 2) * (xc + (c + 1) - 2) + 3 * (xc + (c + 1) - 2) + (c + 1) <= dc_work d) by lia.
  assert (OW : 0 <= ols_work n xc) by (unfold ols_work; nia). assert (NX : 0 <= n * xc) by nia.
  assert (KK : 0 <= (xc + (c + 1) - 2) * (xc + (c + 1) - 2)) by nia.
  replace (xc + (c + 1) - 2) with (xc + c - 1) in * by lia. clear E Et Dw PP. set (q := (xc + c - 1) * (xc + c - 1)) in *. clearbody q.
  set (o := ols_work n xc) in *. clearbody o. set (nx := n * xc) in *. clearbody nx.
  split; [|split].
  - destruct (dc_details d); cbn [app in_a_row b_pos b_len]; repeat split; lia.
  - destruct (dc_model d); cbn [app in_a_row b_pos b_len]; repeat split; lia.
  - destruct (dc_model d); cbn [app in_a_row b_pos b_len]; repeat split; lia.
Qed.
Lemma calculate_too_large t n0 k1 c0 details d ys k0 w c m :
  dc_new t n0 k1 c0 details = Ok d -> possible t c -> (t = Ordered -> m = c) -> weights_match ys w ->
  0 <= n0 <= Z.of_nat (length ys) -> 1 <= k1 <= k0 -> c0 <= c -> n0 < Z.of_nat (length ys) \/ k1 < k0 \/ c0 < c ->
  dc_calculate d ys (Z.of_nat (length ys)) k0 w m = Throw.
Proof.
  intros D P M W Hn Hk Hc Big. destruct (dc_new_sizes _ _ _ _ _ _ D) as (T & Dd & Dk & Ds & Dw & C1 & CB & CO).
  destruct (dc_new_ok t (Z.of_nat (length ys)) k0 c details P) as [tmp Et]. destruct (dc_new_sizes _ _ _ _ _ _ Et) as (T' & Dd' & Dk' & Ds' & Dw' & _).
  assert (CL : 2 <= c) by (destruct t; cbn in P; lia).
  assert (CUT : (match dc_model d with
               | Binary => Ok 1
               | Ordered =>
                   do c <- (if m <=? 0 then match q_max ys None with Some m => Ok (to_int m) | None => UB end else Ok (m - 1));
                   if c <=? 0 then Throw else Ok c
               end) = Ok (c - 1)).
  { rewrite T. destruct t; cbn in P; [subst c; reflexivity|]. rewrite (M eq_refl). destruct (Z.leb_spec c 0); [lia|]. cbn [bind].
    destruct (Z.leb_spec (c - 1) 0); [lia|]. reflexivity. }
  unfold dc_calculate. cbv zeta. rewrite Z.eqb_refl. cbn [negb]. rewrite (weights_pass ys w W), CUT. cbn [bind].
  replace (c - 1 + 1) with c by lia. rewrite T, Dd, Et. cbn [bind].
  assert (SZ : ((dc_work d <? dc_work tmp) || (dc_storage d <? dc_storage tmp)) = true); [|rewrite SZ; reflexivity].
  rewrite Dw, Dw', Ds, Ds'. unfold ols_work. set (n := Z.of_nat (length ys)) in *. clearbody n. clear Dw Dw' Ds Ds' Et D CUT W.
  apply orb_true_iff. destruct (Z.eq_dec k0 k1) as [EK|NK]; [destruct (Z.eq_dec c c0) as [EC|NC]|].
  - left. apply Z.ltb_lt. subst k0 c. nia.
  - right. apply Z.ltb_lt. destruct details; nia.
  - right. apply Z.ltb_lt. destruct details; nia.
Qed.
Lemma q_max_spec ys : forall J m, choices_upto J ys -> (exists i, 0 <= i <= J /\ m = Some (qz i) \/ m = None) -> In (qz J) ys \/ m = Some (qz J) -> q_max ys m = Some (qz J).
Proof.
  induction ys as [|y ys IH]; intros J m V [i Hm] H; cbn [q_max].
  - destruct H as [ [] | -> ]; reflexivity.
  - destruct (V y (or_introl eq_refl)) as [a [Ha ->]].
    assert (V' : choices_upto J ys) by (intros y Hy; apply V; right; exact Hy).
    destruct Hm as [[Hi ->]| ->].
    + destruct (qltb_spec (qz i) (qz a)) as [L|L].
      * apply IH; [exact V'|exists a; left; auto|]. destruct H as [[E|H]|E]; [right; f_equal; exact E|left; exact H|].
        right. f_equal. f_equal. apply (f_equal (fun o => match o with Some x => x | None => 0%Qc end)) in E. cbv beta iota in E. apply qz_inj in E. apply (qz_lt i a) in L. lia.
      * apply IH; [exact V'|exists i; left; auto|]. destruct H as [[E|H]|E]; [|left; exact H|right; exact E].
        right. f_equal. f_equal. apply qz_inj in E. apply Qcnot_lt_le in L. apply (qz_le a i) in L. lia.
    + apply IH; [exact V'|exists a; left; auto|]. destruct H as [[E|H]|E]; [right; f_equal; exact E|left; exact H|discriminate].
Qed.
Lemma calculate_max d ys xr xc w m J : dc_model d = Ordered -> m <= 0 -> 1 <= J -> choices_upto J ys -> In (qz J) ys ->
  dc_calculate d ys xr xc w m = dc_calculate d ys xr xc w (J + 1).
Proof.
  intros T M HJ V H. unfold dc_calculate. rewrite T. destruct (Z.leb_spec m 0); [|lia]. destruct (Z.leb_spec (J + 1) 0); [lia|].
  rewrite (q_max_spec ys J None V); [|exists 0; auto|auto]. rewrite to_int_qz. replace (J + 1 - 1) with J by lia. reflexivity.
Qed.
Lemma weight_ones_nat ys j : exists n : nat, weight_of ys (map (fun _ => 1%Qc) ys) j = qn n.
Proof.
  induction ys as [|y ys [n E]]; [exists 0%nat; reflexivity|].
  unfold weight_of in *. cbn [map combine filter fst]. destruct (qeqb_spec y (qz j)) as [Q|Q]; [|exists n; exact E].
  exists (S n). cbn [map snd]. rewrite qs_cons, E, qn_S. ring.
Qed.
Lemma weight_ones_occurs ys j : enough Ordered (weight_of ys (map (fun _ => 1%Qc) ys) j) <-> In (qz j) ys.
Proof.
  assert (G : exists n : nat, weight_of ys (map (fun _ => 1%Qc) ys) j = qn n /\ (n = 0%nat <-> ~ In (qz j) ys)).
  { induction ys as [|y ys [n [E N]]]; [exists 0%nat; split; [reflexivity|cbn; tauto]|].
    unfold weight_of in *. cbn [map combine filter fst]. destruct (qeqb_spec y (qz j)) as [Q|Q].
    - exists (S n). cbn [map snd]. rewrite qs_cons, E, qn_S. split; [ring|]. split; [discriminate|]. intros K. exfalso. apply K. left. exact Q.
    - exists n. split; [exact E|]. rewrite N. cbn. split; intros K; [intros [A|A]; [exact (Q A)|exact (K A)]|intros A; apply K; right; exact A]. }
  destruct G as [n [-> N]]. cbn. split; intros K.
  - destruct n; [exfalso; apply K; vm_compute; reflexivity|].
    destruct (in_dec Qc_eq_dec (qz j) ys) as [I|I]; [exact I|]. apply N in I. discriminate I.
  - intros L. destruct n as [|n]; [apply (proj1 N eq_refl); exact K|]. revert L. apply Qcle_not_lt. apply Qcle_trans with 1%Qc; [vm_compute; discriminate|].
    change 1%Qc with (qn 1). unfold qn. apply qz_le. lia.
Qed.
