(** Model of the search over discrete choice models: /repo/src/ldt_statistics/modeling/discrete/discrete_choice_modelset.cpp.

    Simplifications: [None] is NaN; numbers are finite and arithmetic exact; unsigned arithmetic of seeds does not wrap; the estimation, the probabilities and the
    simulation (C98-C103), FrequencyCost and ROC (C33, C31) are parameters; RequestCancel is false during EstimateOneReg. *)
From Coq Require Import String.
From Verif Require Export SurExtModel CostModel.
Local Open Scope Z_scope.

(** What DModel.Calculate and DModel.GetProbabilities leave: condition number, AIC, SIC, Beta, the diagonal of BetaVar, the second column of Probs (entries beyond the usable rows are
    what the memory contains), CostIn.AverageRatio and AucIn.Result for the usable rows. *)
Record fitted_dc := FitD { d_cn : option R; d_aic : option R; d_sic : option R; d_beta : nat -> option R; d_var : nat -> option R; d_prob : nat -> R; d_cost : option R; d_auc : option R }.
(** CostRatios.Mean (), Auc, BrierScore *)
Record scored := Scored { s_cost : option R; s_auc : option R; s_brier : option R }.
Definition fin (x : option R) : val := match x with Some a => Some (Num a) | None => None end.
(** The data of the model: Data.Result.Data is [x_mem], y is in 0..count-1, followed by the weights (if there are any) and the exogenous variables. [x_obs] is the number of rows of the source *)
Record xdata := XData { x_mem : nat -> R; x_count : nat; x_obs : nat; x_weight : bool; x_weval : bool; x_choices : Z }.
(** discrete_choice_modelset.cpp:214-229: the loop goes over the rows of Probs, which are those of the source; a division by zero is [None] *)
Definition brier_in (x : xdata) (p : nat -> R) : option R :=
  let w i := if x_weight x && x_weval x then x_mem x (x_count x + i)%nat else 1%R in
  let '(b, s) := fold_left (fun '(b, s) i => ((b + w i * (x_mem x i - p i) * (x_mem x i - p i))%R, (s + w i)%R)) (seq 0 (x_obs x)) (0%R, 0%R) in
  if Req_EM_T s 0 then None else Some (b / s)%R.
(** discrete_choice_modelset.cpp:140-149 *)
Definition dc_before (k : chk) (x : xdata) (numexo : Z) : bool :=
  negb ((0 <? k_obs k) && (Z.of_nat (x_count x) <? k_obs k)) && negb ((0 <? k_dof k) && (Z.of_nat (x_count x) - numexo - x_choices x - 2 <? k_dof k)).
(** discrete_choice_modelset.cpp:160-176 *)
Definition dc_after (k : chk) (f : fitted_dc) : bool :=
  negb (k_checkcn_all k && vlt (Some (k_cn k)) (fin (d_cn f))) && negb (vlt (Some (k_aic k)) (fin (d_aic f))) && negb (vlt (Some (k_sic k)) (fin (d_sic f))).
(** discrete_choice_modelset.cpp:192-247; Set0 outside of the matrix of [rows] rows is UB *)
Definition dc_in (m : mopts) (rows : nat) (x : xdata) (f : fitted_dc) (M : nat -> nat -> option R) : res (nat -> nat -> option R) :=
  do ia <- at_key gof_eqb (m_inidx m) GAic; do M <- RegModel.set_row rows ia (fun _ => d_aic f) M;
  do is <- at_key gof_eqb (m_inidx m) GSic; do M <- RegModel.set_row rows is (fun _ => d_sic f) M;
  do ic <- at_key gof_eqb (m_inidx m) GFrequencyCost; do iu <- at_key gof_eqb (m_inidx m) GAuc; do ib <- at_key gof_eqb (m_inidx m) GBrier;
  do M <- (if 0 <? ib then RegModel.set_row rows ib (fun _ => brier_in x (d_prob f)) M else Ok M);
  do M <- (if 0 <? ic then RegModel.set_row rows ic (fun _ => d_cost f) M else Ok M);
  if 0 <? iu then RegModel.set_row rows iu (fun _ => d_auc f) M else Ok M.
(** discrete_choice_modelset.cpp:249-264 *)
Definition dc_outs (m : mopts) (rows : nat) (s : scored) (M : nat -> nat -> option R) : res (nat -> nat -> option R) :=
  let put k v M := do ind <- at_key sc_eqb (m_outidx m) k; if ind <? 0 then Ok M else RegModel.set_row rows (Z.of_nat (List.length (m_in m)) + ind) (fun _ => v) M in
  do M <- put SFrequencyCost (s_cost s) M; do M <- put SAuc (s_auc s) M; put SBrier (s_brier s) M.
(** discrete_choice_modelset.cpp:272-284; UB: outside of the Length1 elements *)
Fixpoint dc_type1 (len1 : nat) (f : fitted_dc) (l : list Z) (i : nat) (MV : (nat -> option R) * (nat -> option R)) : res ((nat -> option R) * (nat -> option R)) :=
  match l with
  | [] => Ok MV
  | b :: t =>
      let a := b - 1 in
      if (a <? 0) || (Z.of_nat len1 <=? a) then UB else
      dc_type1 len1 f t (S i) (fun r => if (r =? Z.to_nat a)%nat then d_beta f i else fst MV r, fun r => if (r =? Z.to_nat a)%nat then d_var f i else snd MV r)
  end.
Definition has_sim (m : mopts) : bool := (0 <? m_simfix m) && negb (match m_out m with [] => true | _ => false end).
(** discrete_choice_modelset.cpp:105-287 EstimateOneReg; [fit], [sim]: what the estimation and the simulation give for these data; DModel.WorkSize is positive if it was
    constructed, which is so if checks.Estimation *)
Definition dc_one (m : mopts) (k : chk) (len1 : nat) (cur : list Z) (logit : bool) (x : xdata) (fit : res fitted_dc) (sim : res scored) : res one :=
  let rows := (List.length (m_in m) + List.length (m_out m))%nat in
  let M0 := fun (_ _ : nat) => Some 0%R in
  if k_est k && negb (dc_before k x (Z.of_nat (List.length cur))) then Throw else
  do f <- (if k_est k then do f <- fit; if dc_after k f then Ok (Some f) else Throw else Ok None);
  do s <- (if has_sim m then do s <- sim; Ok (Some s) else Ok None);
  do M1 <- (match f with Some f => dc_in m rows x f M0 | None => Ok M0 end);
  do M2 <- (match s with Some s => dc_outs m rows s M1 | None => Ok M1 end);
  do '(T, V) <- (match f with
            | Some f => if (0 <? len1)%nat then dc_type1 len1 f cur 0 (fun _ => None, fun _ => Some 0%R) else Ok (fun _ => None, fun _ => Some 0%R)
            | None => Ok (fun _ => None, fun _ => Some 0%R)
            end);
  Ok (One "" M2 (fun r _ => T r) (fun r _ => V r) [if logit then 0 else 1]).

(** ** The constructors *)
(** matrix.cpp:308-333 EqualsValueArray (b = 1, epsilon = 0, NaN ignored) *)
Definition is_intercept (l : list (option R)) : bool := forallb (fun a => match a with None => true | Some v => if Req_EM_T v 1 then true else false end) l.
Definition round_pos (x : R) : Z := Int_part (x + / 2)%R.
(** discrete_choice_sim.cpp:15-56: the conditions of the constructor of the simulation *)
Definition sim_ok (ordered : bool) (rows choices costs trainfix : Z) (ratio : R) (auc : bool) : bool :=
  negb (choices <? 1) && negb ((choices =? 2) && ordered) && negb ((2 <? choices) && negb ordered) && negb ((costs =? 0) && negb auc) && negb (trainfix <? 0) &&
  negb ((trainfix =? 0) && ((if Rle_dec 1 ratio then true else false) || (if Rle_dec ratio 0 then true else false))) &&
  (let n0 := if 0 <? trainfix then trainfix else round_pos (IZR rows * ratio) in negb ((n0 =? 0) || (n0 =? rows))).
(** discrete_choice_modelset.cpp:17-102 with searcher.cpp:18-36 and discrete_choice.cpp:12-26 *)
Definition searcher_ok (ordered : bool) (m : mopts) (k : chk) (keep : bool) (len1 fix_ s rows choices costs : Z) (auc : Z) : bool :=
  negb (s <? fix_) && negb ((List.length (m_in m) + List.length (m_out m) =? 0)%nat) && negb (negb keep && (len1 =? 0)) && negb (fix_ =? 0) &&
  (if k_est k then negb (choices <? 1) && negb ((choices =? 2) && ordered) && negb ((2 <? choices) && negb ordered) else true) &&
  (if has_sim m then sim_ok ordered rows choices costs (m_trainfix m) (m_ratio m) (0 <=? auc) else true).
(** A searcher: size, logit or probit, seed *)
Fixpoint dc_sizes (ok : Z -> bool) (seed : Z) (logit probit : bool) (l : list Z) (co : Z) (acc : list (Z * bool * Z)) : res (list (Z * bool * Z)) :=
  match l with
  | [] => Ok acc
  | s :: t =>
      if s <=? 0 then Throw else
      let co := co + 1 in
      let sd := if seed =? 0 then 0 else if seed <? 0 then - seed else seed + co in
      if (logit || probit) && negb (ok s) then Throw else
      dc_sizes ok seed logit probit t co (acc ++ (if logit then [(s, true, sd)] else []) ++ (if probit then [(s, false, sd)] else []))
  end.
(** discrete_choice_modelset.cpp:335-466. The source: the number of rows, of exogenous variables (with the intercept), the largest value of the first column plus one, the
    column that must be the intercept *)
Record source := Source { o_rows : Z; o_exo : Z; o_choices : Z; o_intercept : list (option R) }.
Definition dc_modelset (ordered logit probit : bool) (m : mopts) (k : chk) (sizes : list Z) (parts : list (list Z)) (fix_ : Z) (keep : bool) (len1 : Z) (src : source) (costs : list (mat Qc)) : res (mopts * chk * list (Z * bool * Z)) :=
  let c := o_choices src in
  if c <? 2 then Throw else if o_exo src <? 1 then Throw else
  do m <- metrics_update true false m;
  do k <- checks_update m k;
  if negb (len1 =? 0) && negb (len1 =? o_exo src + c - 2) then Throw else
  if negb (len1 =? 0) && negb (k_est k) then Throw else
  if negb (is_intercept (o_intercept src)) then Throw else
  if existsb (existsb (fun a => (o_exo src <? a) || (a <? 0))) parts then Throw else
  do ci <- at_key gof_eqb (m_inidx m) GFrequencyCost; do cu <- at_key sc_eqb (m_outidx m) SFrequencyCost; do au <- at_key sc_eqb (m_outidx m) SAuc;
  do _ <- (if (ci =? -1) && (cu =? -1) then (match costs with [] => Ok tt | _ => Throw end)
           else if (0 <? ci) || (0 <? cu) then
             match costs with [] => Throw | _ => fold_left (fun r t => do _ <- r; fc_check t c) costs (Ok tt) end
           else Ok tt);
  do l <- dc_sizes (fun s => searcher_ok ordered m k keep len1 fix_ s (o_rows src) c (Z.of_nat (List.length costs)) au) (m_seed m) logit probit sizes 0 [];
  Ok (m, k, l).
