(** C102: discrete choice models with prediction and in-sample scores (DiscreteChoiceExtended). *)
From Verif Require Import DcExtSpec DcExtProofs DcCalcProofs.
From Coq Require Import Lia.
Local Open Scope Z_scope.

(** The rows without missing values, in their order, are given to the estimation: first column y, second column the weights if
    there are any, then x. The results of the ROC analysis and of the cost tables belong to exactly these rows. *)
Theorem c102_rows : forall est probs junk e data cols forecast R, ext_calculate est probs junk e data cols forecast = Ok R -> x_nan e = true ->
  exists rows, (forall r, In r rows <-> In r data /\ complete r) /\ rows = filter (fun r => negb (existsb is_nan r)) data /\
    r_y R = map (fun r => nth 0 r None) rows /\ (x_weight e = true -> r_w R = Some (map (fun r => nth 1 r None) rows)) /\ (x_weight e = false -> r_w R = None) /\
    r_x R = map (skipn (if x_weight e then 2 else 1)) rows /\
    (exists mem, est (r_y R) (r_x R) (r_w R) = Ok mem) /\
    (forall b y s w costs, r_details R = Some (b, (y, s, w), costs) -> y = r_y R /\ length s = length y /\ (w = None \/ w = r_w R)).
Proof.
  intros est probs junk e data cols forecast R E N. destruct (calc_parts _ _ _ _ _ _ _ _ E) as (Y & W & X & mem & EM & _ & D0 & _ & D).
  exists (kept (x_nan e) data). rewrite N in *. split; [exact (kept_complete data)|]. split; [reflexivity|]. split; [exact Y|].
  split; [intros HW; rewrite HW in W; exact W|]. split; [intros HW; rewrite HW in W; exact W|]. split; [exact X|]. split; [eauto|].
  intros b y s w costs HD. assert (DD : x_details e = true) by (apply D0; rewrite HD; discriminate). destruct (D DD) as (proj & EP & ER). cbv zeta in ER. rewrite HD in ER.
  apply (f_equal (fun o => match o with Some (_, t, _) => t | None => ([], [], None) end)) in ER. cbv beta iota in ER.
  assert (y = r_y R) by congruence. assert (s = map (fun r => cell r 0) proj) by congruence. assert (w = if x_weight e && x_weval e then r_w R else None) by congruence. subst.
  split; [reflexivity|]. split; [|destruct (x_weight e && x_weval e)%bool; auto].
  rewrite map_length. unfold get_probabilities in EP. rewrite (rmap_length _ _ _ EP), X, Y, !map_length. reflexivity.
Qed.
(** The predicted probabilities of a row are those of the model at the row's linear predictor, if it has a value for every coefficient. *)
Theorem c102_prediction : forall est probs junk e data cols f R coef rest, ext_calculate est probs junk e data cols (Some (map (map Some) f)) = Ok R ->
  est (r_y R) (r_x R) (r_w R) = Ok (map Some coef ++ rest) -> (forall r, In r f -> length r = length coef) ->
  r_pred R = Some (map (fun r => probs (map Some coef ++ rest) (Z.of_nat (length coef)) (Some (predictor coef r))) f).
Proof.
  intros est probs junk e data cols f R coef rest E EM L. destruct (calc_parts _ _ _ _ _ _ _ _ E) as (_ & _ & _ & mem & EM' & (p & HP & EP) & _).
  rewrite EM in EM'. apply (f_equal (fun r => match r with Ok x => x | _ => mem end)) in EM'. cbv beta iota in EM'. subst mem.
  rewrite (probabilities_ok probs coef rest f L) in EP. rewrite HP. f_equal.
  apply (f_equal (fun r => match r with Ok x => x | _ => p end)) in EP. cbv beta iota in EP. symmetry. exact EP.
Qed.
(** The number of columns of the new data is not checked: with another column the variance of the coefficient is used as a coefficient. *)
Theorem c102_prediction_columns_refuted : exists est probs e R, ext_new Binary 4 2 false false 2 false 1 None false = Ok e /\
  (forall y x w, est y x w = Ok [Some (qz 3); Some (qz 5); Some (qz 2); Some (qz 2)]) /\ (* coefficient 3, variance 5, counts 2 and 2 *)
  (forall mem k xb, probs mem k xb = [Some 1%Qc -f xb; xb]) /\
  ext_calculate est probs (fun _ => None) e [[Some 0; Some 0]; [Some 1; Some 1]; [Some 0; Some 1]; [Some 1; Some 0]]%Qc 2 (Some [[Some 1; Some 1]])%Qc = Ok R /\
  r_pred R = Some [[Some (qz (-7)); Some (qz 8)]].
Proof.
  exists (fun _ _ _ => Ok [Some (qz 3); Some (qz 5); Some (qz 2); Some (qz 2)]), (fun mem k xb => [Some 1%Qc -f xb; xb]).
  eexists. eexists. split; [vm_compute; reflexivity|]. split; [reflexivity|]. split; [reflexivity|]. split; [vm_compute; reflexivity|].
  vm_compute; repeat first [apply Qc_is_canon; reflexivity | f_equal].
Qed.
(** The Brier score is the (weighted) mean of (y - p)^2, provided that no row was removed. *)
Theorem c102_brier : forall est probs junk e q cols forecast R mem proj ps, (forall r, In r q -> length r = Z.to_nat cols) -> 1 <= exo cols (x_weight e) ->
  ext_calculate est probs junk e (map (map Some) q) cols forecast = Ok R -> x_details e = true ->
  est (r_y R) (r_x R) (r_w R) = Ok mem -> get_probabilities probs mem (r_x R) = Ok proj -> map (fun r => nth 1 r None) proj = map Some ps ->
  let weighted := (x_weight e && x_weval e)%bool in
  let obs := map (fun '(r, p) => ((if weighted then nth 1 r 0 else 1)%Qc, nth 0 r 0%Qc, p)) (combine q ps) in
  qsum (map (fun '(w, _, _) => w) obs) <> 0%Qc -> exists roc costs, r_details R = Some (Some (brier_score obs), roc, costs).
Proof.
  intros est probs junk e q cols forecast R mem proj ps L K E DD EM EP P1 weighted obs NZ.
  destruct (calc_parts _ _ _ _ _ _ _ _ E) as (Y & W & X & mem' & EM' & _ & _ & _ & D).
  rewrite EM in EM'. apply (f_equal (fun r => match r with Ok x => x | _ => mem end)) in EM'. cbv beta iota in EM'. subst mem'.
  destruct (D DD) as (proj' & EP' & ER). rewrite EP in EP'. apply (f_equal (fun r => match r with Ok x => x | _ => proj end)) in EP'. cbv beta iota in EP'. subst proj'.
  assert (KA : kept (x_nan e) (map (map Some) q) = map (map Some) q).
  { apply kept_all. intros _ r Hr v Hv ->. apply in_map_iff in Hr as [s [<- Hs]]. apply in_map_iff in Hv as [u [K' _]]. discriminate K'. }
  assert (LP : length ps = length q).
  { unfold get_probabilities in EP. apply rmap_length in EP. rewrite X, KA, !map_length in EP. rewrite <- EP. rewrite <- (map_length Some ps), <- P1. apply map_length. }
  cbv zeta in ER. rewrite KA in ER. change (x_weight e && x_weval e)%bool with weighted in ER. rewrite ER. eexists. eexists. f_equal. f_equal. f_equal.
  rewrite (brier_ok junk (map (map Some) q) (Z.to_nat cols) weighted (map (fun r => cell r 1) proj)).
  - rewrite map_length. change (fun r : list fl => cell r 1) with (fun r : list fl => nth 1 r (@None Qc)). unfold fl in *. rewrite P1.
    apply (score_some q weighted ps LP); [|exact NZ]. intros r Hr. rewrite (L r Hr). unfold exo in K. unfold weighted. destruct (x_weight e); cbn [andb]; split; try discriminate; intros; lia.
  - unfold exo in K. destruct (x_weight e); lia.
  - unfold weighted, exo in *. destruct (x_weight e); cbn [andb]; [intros; lia|discriminate].
  - unfold get_probabilities in EP. apply rmap_length in EP. rewrite X, KA, !map_length in EP. rewrite !map_length. exact EP.
Qed.
(** Hence it is between 0 and 1. *)
Theorem c102_brier_range : forall obs, (forall w y p, In (w, y, p) obs -> (0 <= w)%Qc /\ (0 <= y)%Qc /\ (y <= 1)%Qc /\ (0 <= p)%Qc /\ (p <= 1)%Qc) ->
  (0 < qsum (map (fun '(w, _, _) => w) obs))%Qc -> (0 <= brier_score obs)%Qc /\ (brier_score obs <= 1)%Qc.
Proof. exact brier_range. Qed.
(** If a row with a missing value was removed, the score depends on uninitialised memory. *)
Theorem c102_brier_nan_refuted : exists est probs e R R', ext_new Binary 3 2 false true 2 true 0 None false = Ok e /\
  let data := [[Some 0%Qc; Some 1%Qc]; [Some 1%Qc; Some 1%Qc]; [None; Some 1%Qc]] in
  ext_calculate est probs (fun _ => Some 0%Qc) e data 2 None = Ok R /\ ext_calculate est probs (fun _ => Some (qz 3)) e data 2 None = Ok R' /\
  r_details R <> r_details R'.
Proof.
  exists (fun _ _ _ => Ok [Some (Q2Qc (1 # 2)); Some 1%Qc; Some 1%Qc; Some 1%Qc]), (fun mem k xb => [Some 1%Qc -f xb; xb]).
  eexists. eexists. eexists. split; [vm_compute; reflexivity|]. cbv zeta. split; [vm_compute; reflexivity|]. split; [vm_compute; reflexivity|].
  intros K. apply (f_equal (fun o => match o with Some (Some v, _, _) => this v | _ => 0%Q end)) in K. vm_compute in K. discriminate K.
Qed.
(** The announced storage is enough, and its parts do not overlap, for the declared problem. *)
Theorem c102_storage : forall t n cols weight nan c details nf costs weval e,
  ext_new t n cols weight nan c details nf costs weval = Ok e -> possible t c -> 0 <= exo cols weight -> 0 <= nf -> (forall k, costs = Some k -> 0 <= k) ->
  apart (ext_blocks e n cols nf (x_mstorage e)) 0 (x_storage e).
Proof. exact ext_apart. Qed.
(** The announced work array is enough for the estimation and for in-sample predictions; out-of-sample it is enough for twice as many rows as the data have ... *)
Theorem c102_work : forall t n cols weight nan c details nf costs weval e,
  ext_new t n cols weight nan c details nf costs weval = Ok e -> possible t c -> 0 <= exo cols weight ->
  (exists m, dc_new t n (exo cols weight) c details = Ok m /\ dc_work m <= x_work e /\ x_mstorage e = dc_storage m) /\
  forall rows, 0 <= rows <= 2 * n -> fits (predict_blocks t rows (c - 1)) (x_work e).
Proof.
  intros t n cols weight nan c details nf costs weval e E P K. destruct (ext_work _ _ _ _ _ _ _ _ _ _ _ E P K) as (m & D & W & S & B). split; [eauto|].
  intros rows R. apply predict_fits; [exact P|lia|lia].
Qed.
(** ... but not for any number of them: with 10 rows and 1 regressor, predicting 50 rows writes beyond the announced array. *)
Theorem c102_work_refuted : exists e, ext_new Binary 10 2 false false 2 false 50 None false = Ok e /\ ~ fits (predict_blocks Binary 50 1) (x_work e).
Proof.
  eexists. split; [vm_compute; reflexivity|]. intros K. apply (predict_fits Binary 50 2) in K; [|reflexivity|lia]. revert K. vm_compute. intros K. apply K. reflexivity.
Qed.
(** An object declared for 10 rows accepts 5 rows with 2 rows to predict, though the predictions then lie beyond the announced storage. *)
Theorem c102_reuse_refuted : exists est probs e R, ext_new Binary 10 2 false false 2 false 0 None false = Ok e /\
  ext_calculate est probs (fun _ => None) e (repeat [Some 0; Some 1]%Qc 5) 2 (Some (repeat [Some 1%Qc] 2)) = Ok R /\
  ~ apart (ext_blocks e 5 2 2 4) 0 (x_storage e).
Proof.
  exists (fun _ _ _ => Ok [Some (qz 3); Some (qz 5); Some (qz 2); Some (qz 2)]), (fun mem k xb => [Some 1%Qc -f xb; xb]).
  eexists. eexists. split; [vm_compute; reflexivity|]. split; [vm_compute; reflexivity|]. vm_compute. intuition.
Qed.
(** Scores of ordered models are not available: after the estimation an exception is thrown. *)
Theorem c102_ordered_details_refuted : forall est probs junk e data cols forecast, x_model e = Ordered -> x_details e = true ->
  forall R, ext_calculate est probs junk e data cols forecast <> Ok R.
Proof.
  intros est probs junk e data cols forecast M D R E. destruct (calc_parts _ _ _ _ _ _ _ _ E) as (_ & _ & _ & mem & _ & _ & _ & B & _). rewrite (B D) in M. discriminate M.
Qed.
(** A non-trivial case: weights, a missing value, two new rows. *)
Example c102_example : exists est probs e R, ext_new Binary 4 3 true true 2 false 2 None true = Ok e /\
  ext_calculate est probs (fun _ => None) e [[Some 0; Some 1; Some 0]; [Some 1; Some 1; None]; [Some 0; Some 1; Some 1]; [Some 1; Some (qz 2); Some 0]]%Qc 3 (Some [[Some 1%Qc]; [Some 0%Qc]]) = Ok R /\
  r_y R = [Some 0; Some 0; Some 1]%Qc /\ r_w R = Some [Some 1; Some 1; Some (qz 2)]%Qc /\ r_x R = [[Some 0]; [Some 1]; [Some 0]]%Qc /\
  r_pred R = Some [[Some (qz (-2)); Some (qz 3)]; [Some (qz 1); Some (qz 0)]].
Proof.
  exists (fun _ _ _ => Ok [Some (qz 3); Some (qz 5); Some (qz 2); Some (qz 2)]), (fun mem k xb => [Some 1%Qc -f xb; xb]).
  eexists. eexists. split; [vm_compute; reflexivity|]. split; [vm_compute; reflexivity|]. repeat split; vm_compute; repeat first [apply Qc_is_canon; reflexivity | f_equal].
Qed.
Print Assumptions c102_rows.
Print Assumptions c102_brier.
