From Verif Require Import DcExtSpec DcCalcProofs SurSimProofs CorProofs HistProofs2.
From Coq Require Import Lia ZifyBool.
Local Open Scope Z_scope.

Lemma ext_new_sizes t rows cols weight nan c details nf costs weval e : ext_new t rows cols weight nan c details nf costs weval = Ok e ->
  exists m, dc_new t rows (exo cols weight) c details = Ok m /\ 0 < rows /\ 0 < cols /\
  x_model e = t /\ x_weight e = weight /\ x_nan e = nan /\ x_choices e = c /\ x_details e = details /\ x_costs e = costs /\ x_weval e = (weight && weval)%bool /\
  x_data e = rows * cols /\ x_mstorage e = dc_storage m /\
  x_storage e = rows * cols + dc_storage m + (if 0 <? nf then c * nf + nf * cols else 0) + (if details then c * rows + match costs with Some n => 2 * n | None => 0 end else 0) /\
  x_work e = Z.max 0 (Z.max (dc_work m) (if (0 <? nf) || details then rows + c - 2 else 0)).
Proof.
  unfold ext_new, exo. cbv zeta. destruct (Z.leb_spec cols 0); [discriminate|]. destruct (Z.leb_spec rows 0); [discriminate|]. cbn [orb].
  destruct (dc_new t rows _ c details) as [m| |]; cbn [bind]; try discriminate. intros E. apply (f_equal (fun r => match r with Ok x => x | _ => e end)) in E. cbv beta iota in E. subst e. exists m.
  cbn [x_model x_weight x_nan x_choices x_details x_costs x_weval x_data x_mstorage x_storage x_work].
  repeat split; try assumption; try reflexivity; destruct (0 <? nf), details, costs; cbn [orb]; lia.
Qed.
Lemma storage_nonneg t n k c details m : dc_new t n k c details = Ok m -> possible t c -> 0 <= k -> 0 <= dc_storage m.
Proof.
  intros D P K. destruct (dc_new_sizes _ _ _ _ _ _ D) as (_ & _ & _ & -> & _ & C1 & _). assert (2 <= c) by (destruct t; cbn in P; lia). destruct details; nia.
Qed.
Lemma ext_apart t n cols weight nan c details nf costs weval e : ext_new t n cols weight nan c details nf costs weval = Ok e -> possible t c ->
  0 <= exo cols weight -> 0 <= nf -> (forall k, costs = Some k -> 0 <= k) -> apart (ext_blocks e n cols nf (x_mstorage e)) 0 (x_storage e).
Proof.
  intros E P K NF C. destruct (ext_new_sizes _ _ _ _ _ _ _ _ _ _ _ E) as (m & D & R & L & _ & _ & _ & EC & ED & EO & _ & EA & EM & ES & _).
  assert (S0 := storage_nonneg _ _ _ _ _ _ D P K). assert (2 <= c) by (destruct t; cbn in P; lia).
  unfold ext_blocks. rewrite EC, ED, EO, EA, EM, ES. set (s := dc_storage m) in *. clearbody s.
  assert (0 <= n * cols) by nia. assert (0 <= nf * c) by nia. assert (0 <= nf * cols) by nia. assert (0 <= n * c) by nia.
  rewrite (Z.mul_comm c nf), (Z.mul_comm c n).
  set (nc := n * cols) in *. set (a := nf * c) in *. set (b := nf * cols) in *. set (d := n * c) in *. clearbody nc a b d.
  destruct (Z.ltb_spec 0 nf); destruct details; try destruct costs as [k|]; try (assert (0 <= k) by (apply C; reflexivity));
    cbn [app apart b_pos b_len]; repeat split; lia.
Qed.
Lemma predict_fits t m c size : possible t c -> 0 <= m -> (fits (predict_blocks t m (c - 1)) size <-> m + c - 2 <= size).
Proof. intros P M. unfold fits. destruct t; cbn in P; cbn [predict_blocks in_a_row b_pos b_len]; split; intros; intuition lia. Qed.
Lemma ext_work t n cols weight nan c details nf costs weval e : ext_new t n cols weight nan c details nf costs weval = Ok e -> possible t c ->
  0 <= exo cols weight -> exists m, dc_new t n (exo cols weight) c details = Ok m /\ dc_work m <= x_work e /\ x_mstorage e = dc_storage m /\ 2 * n + c <= x_work e.
Proof.
  intros E P K. destruct (ext_new_sizes _ _ _ _ _ _ _ _ _ _ _ E) as (m & D & R & L & _ & _ & _ & EC & ED & EO & _ & EA & EM & ES & EW).
  exists m. split; [exact D|]. destruct (dc_new_sizes _ _ _ _ _ _ D) as (_ & _ & _ & _ & W & _). rewrite EW. split; [lia|]. split; [exact EM|].
  assert (2 * n + c <= dc_work m); [|lia]. rewrite W. unfold ols_work. set (k := exo cols weight) in *. clearbody k. assert (0 <= n * k) by nia. assert (0 <= k * n) by nia. assert (0 <= 2 * k * k) by nia. lia.
Qed.

Section S.
Context (est : list fl -> list (list fl) -> option (list fl) -> res (list fl)) (probs : list fl -> Z -> fl -> list fl) (junk : Z -> fl).
Notation calc := (ext_calculate est probs junk).
Lemma existsb_nan r : existsb is_nan r = false <-> complete r.
Proof using.
  split.
  - intros E v Hv ->. assert (existsb is_nan r = true); [|congruence]. apply existsb_exists. exists None. auto.
  - intros C. destruct (existsb is_nan r) eqn:E; [|reflexivity]. apply existsb_exists in E as [v [Hv N]]. destruct v; [discriminate|]. exfalso. exact (C None Hv eq_refl).
Qed.
Lemma kept_complete rows r : In r (kept true rows) <-> In r rows /\ complete r.
Proof using. unfold kept. rewrite filter_In. rewrite <- existsb_nan. destruct (existsb is_nan r); cbn; clear; intuition congruence. Qed.
Lemma kept_all nan rows : (nan = true -> forall r, In r rows -> complete r) -> kept nan rows = rows.
Proof using.
  unfold kept. destruct nan; [|reflexivity]. intros C. specialize (C eq_refl). induction rows as [|r rows IH]; [reflexivity|]. cbn.
  rewrite (proj2 (existsb_nan r) (C r (or_introl eq_refl))). cbn. f_equal. apply IH. intros s Hs. apply C. right. exact Hs.
Qed.
(** What is given to the estimation. *)
Lemma calc_parts e data cols forecast R : calc e data cols forecast = Ok R ->
  r_y R = map (fun r => cell r 0) (kept (x_nan e) data) /\
  r_w R = (if x_weight e then Some (map (fun r => cell r 1) (kept (x_nan e) data)) else None) /\
  r_x R = map (skipn (if x_weight e then 2 else 1)) (kept (x_nan e) data) /\
  exists mem, est (r_y R) (r_x R) (r_w R) = Ok mem /\
    match forecast with None => r_pred R = None | Some f => exists p, r_pred R = Some p /\ get_probabilities probs mem f = Ok p end /\
    (r_details R <> None <-> x_details e = true) /\ (x_details e = true -> x_model e = Binary) /\
    (x_details e = true -> exists proj, get_probabilities probs mem (r_x R) = Ok proj /\
       let we := if x_weight e && x_weval e then r_w R else None in
       r_details R = Some (brier junk (length data) (concat (map (fun j => map (fun r => cell r j) (kept (x_nan e) data)) (seq 0 (Z.to_nat cols)))) (length (kept (x_nan e) data)) (x_weight e && x_weval e) (map (fun r => cell r 1) proj),
         (r_y R, map (fun r => cell r 0) proj, we), match x_costs e with Some _ => Some (r_y R, proj, we) | None => None end)).
Proof.
  unfold ext_calculate. cbv zeta. destruct (ext_new _ _ _ _ _ _ _ _ _ _) as [tmp| |]; cbn [bind]; try discriminate.
  destruct ((x_work e <? x_work tmp) || (x_storage e <? x_storage tmp))%bool; [discriminate|].
  destruct (est _ _ _) as [mem| |] eqn:EM; cbn [bind]; try discriminate.
  set (F := match forecast with Some f => _ | None => Ok None end). destruct F as [pred| |] eqn:EF; cbn [bind]; try discriminate.
  assert (HF : match forecast with None => pred = None | Some f => exists p, pred = Some p /\ get_probabilities probs mem f = Ok p end).
  { unfold F in EF. destruct forecast as [f|]; [|inversion EF; reflexivity]. destruct (get_probabilities probs mem f) as [p| |]; cbn in EF; inversion EF. eauto. }
  clear EF F. destruct (x_details e) eqn:ED.
  - destruct (get_probabilities probs mem _) as [proj| |] eqn:EP; cbn [bind]; try discriminate. destruct (x_model e); [|discriminate].
    intros E. inversion E; subst R. cbn [r_y r_w r_x r_pred r_details]. repeat (split; [reflexivity|]). exists mem. split; [exact EM|]. split; [exact HF|].
    split; [split; [reflexivity|discriminate]|]. split; [reflexivity|]. intros _. exists proj. split; [exact EP|]. reflexivity.
  - intros E. inversion E; subst R. cbn [r_y r_w r_x r_pred r_details]. repeat (split; [reflexivity|]). exists mem. split; [exact EM|]. split; [exact HF|].
    split; [split; [congruence|discriminate]|]. split; discriminate.
Qed.
Lemma fsum_some l : fsum (map Some l) = Some (qsum l).
Proof using. induction l as [|a l IH]; [reflexivity|]. cbn [map]. rewrite fsum_cons, IH. reflexivity. Qed.
Lemma predictor_ok coef rest row : length row = length coef ->
  fsum (map2 fmul (map Some row) (map Some coef ++ rest)) = Some (predictor coef row).
Proof using.
  intros L. unfold predictor. rewrite <- fsum_some. f_equal. revert row L. induction coef as [|b coef IH]; intros [|x row] L; try discriminate L; [reflexivity|].
  cbn [map app map2 combine]. rewrite IH by (cbn in L; lia). reflexivity.
Qed.
Lemma probabilities_ok coef rest rows : (forall r, In r rows -> length r = length coef) ->
  get_probabilities probs (map Some coef ++ rest) (map (map Some) rows) =
  Ok (map (fun r => probs (map Some coef ++ rest) (Z.of_nat (length coef)) (Some (predictor coef r))) rows).
Proof using.
  intros L. unfold get_probabilities. rewrite (rmap_total _ (fun r => probs (map Some coef ++ rest) (Z.of_nat (length coef)) (fsum (map2 fmul r (map Some coef ++ rest))))).
  - f_equal. rewrite map_map. apply map_ext_in. intros r Hr. rewrite predictor_ok by (apply L; exact Hr). reflexivity.
  - intros r Hr. apply in_map_iff in Hr as [q [<- Hq]]. rewrite map_length, (L q Hq), app_length, map_length.
    destruct (Nat.ltb_spec (length coef + length rest) (length coef)); [lia|reflexivity].
Qed.
Lemma nth_concat (cols : list (list fl)) n j i : (forall c, In c cols -> length c = n) -> (j < length cols)%nat -> (i < n)%nat ->
  nth_error (concat cols) (j * n + i) = nth_error (nth j cols []) i.
Proof using.
  revert j. induction cols as [|c cols IH]; intros j L J I; [cbn in J; lia|]. cbn [concat]. assert (LC := L c (or_introl eq_refl)). destruct j as [|j].
  - cbn [nth]. rewrite nth_error_app1 by lia. reflexivity.
  - cbn [nth]. rewrite nth_error_app2 by lia. rewrite <- IH; [f_equal; lia|intros; apply L; right; assumption|cbn in J; lia|exact I].
Qed.
Lemma flat_nth (use : list (list fl)) cols j i : (j < cols)%nat -> (i < length use)%nat ->
  nth_error (concat (map (fun j => map (fun r => cell r j) use) (seq 0 cols))) (j * length use + i) = Some (cell (nth i use []) j).
Proof using.
  intros J I. rewrite (nth_concat _ (length use)).
  - rewrite (nth_indep _ [] (map (fun r => cell r 0) use)) by (rewrite map_length, seq_length; exact J).
    rewrite (map_nth (fun j => map (fun r => cell r j) use) (seq 0 cols) 0%nat), seq_nth by exact J. cbn [plus].
    rewrite nth_error_map, (nth_error_nth' _ [] I). reflexivity.
  - intros c Hc. apply in_map_iff in Hc as [q [<- _]]. apply map_length.
  - rewrite map_length, seq_length. exact J.
  - exact I.
Qed.
(** The score when no row is removed. *)
Lemma brier_ok (use : list (list fl)) cols weighted p1 : (1 <= cols)%nat -> (weighted = true -> (2 <= cols)%nat) -> length p1 = length use ->
  brier junk (length use) (concat (map (fun j => map (fun r => cell r j) use) (seq 0 cols))) (length use) weighted p1 =
  fsum (map (fun i => (if weighted then cell (nth i use []) 1 else Some 1%Qc) *f ((cell (nth i use []) 0 -f nth i p1 None) *f (cell (nth i use []) 0 -f nth i p1 None))) (seq 0 (length use)))
  /f fsum (map (fun i => if weighted then cell (nth i use []) 1 else Some 1%Qc) (seq 0 (length use))).
Proof using.
  intros C CW L. unfold brier. cbv zeta. rewrite !map_map. cbn [fst].
  assert (A : forall i, (i < length use)%nat -> (if weighted then at_mem junk (concat (map (fun j => map (fun r => cell r j) use) (seq 0 cols))) (length use + i) else Some 1%Qc) = (if weighted then cell (nth i use []) 1 else Some 1%Qc)).
  { intros i Hi. destruct weighted; [|reflexivity]. unfold at_mem. specialize (CW eq_refl). assert (K := flat_nth use cols 1 i ltac:(lia) Hi). replace (1 * length use + i)%nat with (length use + i)%nat in K by lia. rewrite K. reflexivity. }
  f_equal; apply f_equal; apply map_ext_in; intros i Hi; apply in_seq in Hi; rewrite A by lia; [|reflexivity].
  unfold at_mem. assert (K := flat_nth use cols 0 i ltac:(lia) ltac:(lia)). cbn [Nat.mul plus] in K. rewrite K.
  rewrite (nth_error_nth' p1 None) by lia. reflexivity.
Qed.
End S.
Lemma rmap_length {A B} (f : A -> res B) l r : rmap f l = Ok r -> length r = length l.
Proof.
  revert r. induction l as [|a l IH]; intros r; cbn [rmap]; [intros E; inversion E; reflexivity|].
  destruct (f a); cbn [bind]; try discriminate. destruct (rmap f l) as [t| |]; cbn [bind]; try discriminate. intros E. inversion E. cbn. f_equal. apply IH. reflexivity.
Qed.
Lemma score_some (q : list (list Qc)) (weighted : bool) ps : length ps = length q ->
  let obs := map (fun '(r, p) => ((if weighted then nth 1 r 0 else 1)%Qc, nth 0 r 0%Qc, p)) (combine q ps) in
  (forall r, In r q -> (1 <= length r)%nat /\ (weighted = true -> (2 <= length r)%nat)) ->
  qsum (map (fun '(w, _, _) => w) obs) <> 0%Qc ->
  fsum (map (fun i => (if weighted then cell (nth i (map (map Some) q) []) 1 else Some 1%Qc) *f ((cell (nth i (map (map Some) q) []) 0 -f nth i (map Some ps) None) *f (cell (nth i (map (map Some) q) []) 0 -f nth i (map Some ps) None))) (seq 0 (length q)))
  /f fsum (map (fun i => if weighted then cell (nth i (map (map Some) q) []) 1 else Some 1%Qc) (seq 0 (length q))) = Some (brier_score obs).
Proof.
  intros L obs HL NZ. unfold brier_score.
  assert (B : forall i, (i < length q)%nat -> cell (nth i (map (map Some) q) []) 0 = Some (nth 0 (nth i q []) 0%Qc) /\ (weighted = true -> cell (nth i (map (map Some) q) []) 1 = Some (nth 1 (nth i q []) 0%Qc)) /\ nth i (map Some ps) None = Some (nth i ps 0%Qc)).
  { intros i Hi. rewrite (nth_indep _ [] (map Some (@nil Qc))) by (rewrite map_length; exact Hi). rewrite (map_nth (map Some) q (@nil Qc)).
    destruct (HL (nth i q []) (nth_In _ _ Hi)) as [L1 L2]. unfold cell. split; [|split].
    - rewrite (nth_indep _ None (Some 0%Qc)) by (rewrite map_length; lia). apply map_nth.
    - intros W. specialize (L2 W). rewrite (nth_indep _ None (Some 0%Qc)) by (rewrite map_length; lia). apply map_nth.
    - rewrite (nth_indep _ None (Some 0%Qc)) by (rewrite map_length; lia). apply map_nth. }
  assert (O : obs = map (fun i => ((if weighted then nth 1 (nth i q []) 0 else 1)%Qc, nth 0 (nth i q []) 0%Qc, nth i ps 0%Qc)) (seq 0 (length q))).
  { unfold obs. clear - L. revert ps L. induction q as [|r q IH]; intros [|p ps] L; try discriminate L; [reflexivity|].
    cbn [combine map length seq]. cbn [nth]. f_equal. rewrite <- seq_shift, map_map. rewrite IH by (cbn in L; lia). reflexivity. }
  rewrite O in *. rewrite !map_map in *. 
  assert (E1 : map (fun i => if weighted then cell (nth i (map (map Some) q) []) 1 else Some 1%Qc) (seq 0 (length q)) = map Some (map (fun i => (if weighted then nth 1 (nth i q []) 0 else 1)%Qc) (seq 0 (length q)))).
  { rewrite map_map. apply map_ext_in. intros i Hi. apply in_seq in Hi. destruct (B i ltac:(lia)) as (_ & W & _). destruct weighted; [apply W; reflexivity|reflexivity]. }
  rewrite E1, fsum_some.
  assert (E2 : map (fun i => (if weighted then cell (nth i (map (map Some) q) []) 1 else Some 1%Qc) *f ((cell (nth i (map (map Some) q) []) 0 -f nth i (map Some ps) None) *f (cell (nth i (map (map Some) q) []) 0 -f nth i (map Some ps) None))) (seq 0 (length q)) =
    map Some (map (fun i => (if weighted then nth 1 (nth i q []) 0 else 1) * ((nth 0 (nth i q []) 0 - nth i ps 0) * (nth 0 (nth i q []) 0 - nth i ps 0)))%Qc (seq 0 (length q)))).
  { rewrite map_map. apply map_ext_in. intros i Hi. apply in_seq in Hi. destruct (B i ltac:(lia)) as (Y & W & P). rewrite Y, P. destruct weighted; [rewrite W by reflexivity|]; reflexivity. }
  rewrite E2, fsum_some. unfold fdiv. destruct (qeqb_spec (qsum (map (fun i => (if weighted then nth 1 (nth i q []) 0 else 1)%Qc) (seq 0 (length q)))) 0) as [Z0|_]; [contradiction|]. reflexivity.
Qed.
Lemma brier_range obs : (forall w y p, In (w, y, p) obs -> (0 <= w)%Qc /\ (0 <= y)%Qc /\ (y <= 1)%Qc /\ (0 <= p)%Qc /\ (p <= 1)%Qc) -> (0 < qsum (map (fun '(w, _, _) => w) obs))%Qc ->
  (0 <= brier_score obs)%Qc /\ (brier_score obs <= 1)%Qc.
Proof.
  intros H P. unfold brier_score. set (s := qsum (map (fun '(w, y, p) => w * ((y - p) * (y - p)))%Qc obs)). set (t := qsum _) in *.
  assert (S : (0 <= s)%Qc /\ (s <= t)%Qc).
  { unfold s, t. clear - H. induction obs as [|[[w y] p] obs IH]; [split; apply Qcle_refl|]. cbn [map]. rewrite !qs_cons.
    destruct (H w y p (or_introl eq_refl)) as (W & Y0 & Y1 & P0 & P1). destruct IH as [A B]; [intros; apply H; right; assumption|].
    set (a := qsum _) in *. set (b := qsum (map (fun '(w, _, _) => w) obs)) in *. clearbody a b.
    assert (D : (0 <= (y - p) * (y - p))%Qc /\ ((y - p) * (y - p) <= 1)%Qc).
    { split.
      - destruct (Qclt_le_dec (y - p) 0) as [N|N]; [|apply (Qcmult_le_compat_r 0 (y - p) (y - p)) in N; [|exact N]; qlra].
        assert (N' : (0 <= p - y)%Qc) by qlra. assert (K := Qcmult_le_compat_r 0 (p - y) (p - y) N' N'). replace ((y - p) * (y - p))%Qc with ((p - y) * (p - y))%Qc by ring. qlra.
      - destruct (Qclt_le_dec (y - p) 0) as [N|N].
        + assert (N' : (0 <= p - y)%Qc) by qlra. assert (N1 : (p - y <= 1)%Qc) by qlra. assert (K := Qcmult_le_compat_r (p - y) 1 (p - y) N1 N'). replace ((y - p) * (y - p))%Qc with ((p - y) * (p - y))%Qc by ring. qlra.
        + assert (N1 : (y - p <= 1)%Qc) by qlra. assert (K := Qcmult_le_compat_r (y - p) 1 (y - p) N1 N). qlra. }
    destruct D as [D0 D1]. set (d := ((y - p) * (y - p))%Qc) in *. clearbody d.
    assert (K0 := Qcmult_le_compat_r 0 d w D0 W). assert (K1 := Qcmult_le_compat_r d 1 w D1 W). replace (w * d)%Qc with (d * w)%Qc by ring. split; qlra. }
  destruct S as [S0 S1]. clearbody s t. assert (I : (0 < / t)%Qc) by (apply HistProofs2.Qc_inv_pos; exact P). assert (NZ : t <> 0%Qc) by (intros ->; discriminate P).
  unfold Qcdiv. split.
  - assert (K := Qcmult_le_compat_r 0 s (/ t) S0 (Qclt_le_weak _ _ I)). qlra.
  - assert (K := Qcmult_le_compat_r s t (/ t) S1 (Qclt_le_weak _ _ I)). rewrite (Qcmult_inv_r t NZ) in K. exact K.
Qed.
