(** Model of the search over VARMA models: /repo/src/ldt_statistics/modeling/time_series/varma/varma_modelset.cpp.

    Simplifications: [None] is NaN; numbers are finite and arithmetic exact; the estimation, the forecasts and the simulation (C41-C52, C97) are parameters; RequestCancel is false
    during EstimateOneReg. *)
From Coq Require Import String.
From Verif Require Export SurExtModel.
Local Open Scope Z_scope.

(** DModel.Result.Aic, Sic *)
Record fitted_v := FitV { w_aic : option R; w_sic : option R }.
(** FModel.Forecast, FModel.Variance (equation, column), StartIndex; the number of columns is StartIndex plus the horizon *)
Record forecasts := Fc { c_start : nat; c_mean : nat -> nat -> option R; c_var : nat -> nat -> option R }.
(** PredictionLower and PredictionUpper: rows (horizon - 1), columns, elements *)
Record pbounds := Pb { b_rows : Z; b_cols : Z; b_low : Z -> Z -> option R; b_up : Z -> Z -> option R }.
Definition finv (x : option R) : val := match x with Some a => Some (Num a) | None => None end.
(** varma_modelset.cpp:128-137; X.RowsCount is the number of exogenous variables *)
Definition v_before (k : chk) (ycount numexo : Z) : bool := negb ((0 <? k_obs k) && (ycount <? k_obs k)) && negb ((0 <? k_dof k) && (ycount - numexo <? k_dof k)).
(** varma_modelset.cpp:155-166 *)
Definition v_after (k : chk) (f : fitted_v) : bool := negb (vlt (Some (k_aic k)) (finv (w_aic f))) && negb (vlt (Some (k_sic k)) (finv (w_sic f))).
(** varma_modelset.cpp:174-176 Forecast.Any (NAN), for [n] equations and [h] forecasts *)
Definition any_nan (n h : nat) (c : forecasts) : bool :=
  existsb (fun i => existsb (fun j => match c_mean c i j with None => true | Some _ => false end) (seq 0 (c_start c + h))) (seq 0 n).
(** varma_modelset.cpp:190-207 one horizon of one target: Get0r and Get0 are not checked (UB) *)
Definition bound_one (h : nat) (c : forecasts) (b : pbounds) (i : nat) (t hz : Z) : res unit :=
  let col := hz + Z.of_nat (c_start c) - 1 in
  if (col <? 0) || (Z.of_nat (c_start c + h) <=? col) || (hz - 1 <? 0) || (b_rows b <=? hz - 1) || (t <? 0) || (b_cols b <=? t) then UB else
  let f := finv (c_mean c i (Z.to_nat col)) in
  if vlt f (finv (b_low b (hz - 1) t)) then Throw else if vlt (finv (b_up b (hz - 1) t)) f then Throw else Ok tt.
(** varma_modelset.cpp:180-210 *)
Fixpoint bound_loop (L : Z) (horizons : list Z) (h : nat) (c : forecasts) (b : pbounds) (cur : list Z) (i : nat) : res unit :=
  match cur with
  | [] => Ok tt
  | t :: rest =>
      do _ <- (if t <? L then fold_left (fun r hz => do _ <- r; bound_one h c b i t hz) horizons (Ok tt) else Ok tt);
      bound_loop L horizons h c b rest (S i)
  end.
Definition varma_outs : list scoring := [SSign; SDirection; SMae; SMape; SRmse; SRmspe; SCrps].
(** varma_modelset.cpp:74-286 EstimateOneReg: [ycount] usable observations, [hcheck] is mMaxHorizonCheck, [params] the six orders; [fc] is the result of FModel.Calculate,
    [sim] that of Model.Calculate with at least one valid simulation (otherwise Throw). Set and Get in lines 276-280 are checked (Throw); FModel.WorkSize is positive if
    it was constructed (lines 39-50) *)
Definition varma_one (m : mopts) (k : chk) (L : Z) (len1 : nat) (hcheck : nat) (cur inner params : list Z) (bounds : option pbounds) (ycount : Z)
    (fit : res fitted_v) (fc : res forecasts) (sim : res (nat -> nat -> option R)) : res one :=
  let rows := (List.length (m_in m) + List.length (m_out m))%nat in
  let M0 := fun (_ _ : nat) => Some 0%R in
  do '(M1, fo) <- (if k_est k then
       if negb (v_before k ycount (Z.of_nat (List.length inner))) then Throw else
       do f <- fit; if negb (v_after k f) then Throw else
       do fo <- (if k_pred k then
            do c <- fc;
            if any_nan (List.length cur) hcheck c then Throw else
            do _ <- (match bounds with Some b => bound_loop L (m_horizons m) hcheck c b cur 0 | None => Ok tt end); Ok (Some c)
          else Ok None);
       do ia <- at_key gof_eqb (m_inidx m) GAic; do M <- RegModel.set_row rows ia (fun _ => w_aic f) M0;
       do is <- at_key gof_eqb (m_inidx m) GSic; do M <- RegModel.set_row rows is (fun _ => w_sic f) M; Ok (M, fo)
     else Ok (M0, None));
  do M2 <- (if (0 <? m_simfix m) && negb (match m_out m with [] => true | _ => false end) then do s <- sim; fold_left (set_out m rows s) varma_outs (Ok M1) else Ok M1);
  let targets := List.length (target_positions L cur) in
  do '(T, V) <- (match fo with
     | Some c => if (0 <? len1)%nat && (0 <? targets)%nat && (hcheck <? len1)%nat then Throw
                 else Ok (fun i t => if (i <? len1)%nat then c_mean c t (i + c_start c)%nat else None, fun i t => if (i <? len1)%nat then c_var c t (i + c_start c)%nat else Some 0%R)
     | None => Ok (fun _ _ => None, M0)
     end);
  Ok (One "" M2 T V params).

(** ** VarmaModelset, varma_modelset.cpp:292-391 *)
(** the integers 0..n *)
Definition upto (n : Z) : list Z := map Z.of_nat (seq 0 (Z.to_nat (n + 1))).
(** A searcher: size, orders p, d, q, P, D, Q and the exogenous variables *)
Definition vsearcher := (Z * list Z * list Z)%type.
(** the loops in lines 346-383; [exos] is ExoIndexes *)
Definition orders (mx : list Z) : list (list Z) :=
  let at_ i := nth i mx 0 in
  flat_map (fun p => flat_map (fun d => flat_map (fun q => flat_map (fun P => flat_map (fun D => flat_map (fun Q =>
    if (p =? 0) && (q =? 0) && (P =? 0) && (Q =? 0) then [] else [[p; d; q; P; D; Q]]) (upto (at_ 5%nat))) (upto (at_ 4%nat))) (upto (at_ 3%nat))) (upto (at_ 2%nat))) (upto (at_ 1%nat))) (upto (at_ 0%nat)).
(** [ok]: the constructors of VarmaSizes and VarmaSearcher do not throw *)
Fixpoint vsize_loop (ok : vsearcher -> bool) (mx : list Z) (exos : list (list Z)) (l : list Z) (acc : list vsearcher) : res (list vsearcher) :=
  match l with
  | [] => Ok acc
  | s :: t => if s <=? 0 then Throw else
      let new := flat_map (fun o => map (fun e => (s, o, e)) exos) (orders mx) in
      if forallb ok new then vsize_loop ok mx exos t (acc ++ new) else Throw
  end.
Definition varma_modelset (ok : mopts -> chk -> vsearcher -> bool) (m : mopts) (k : chk) (sizes : list Z) (parts groups : list (list Z)) (len1 targets endo : Z) (mx : list Z) : res (mopts * chk * list vsearcher) :=
  do m <- metrics_update false true m;
  do k <- checks_update m k;
  if targets <=? 0 then Throw (* summary.cpp:17-19 *) else
  if (0 <? len1) && negb (k_pred k) then Throw else
  if existsb (existsb (fun a => (endo <? a) || (a <? 0))) parts then Throw else
  if negb (List.length mx =? 6)%nat then Throw else if existsb (fun i => i <? 0) mx then Throw else
  let exos := match groups with [] => [[]] | _ => groups end in
  do l <- vsize_loop (ok m k) mx exos sizes [];
  Ok (m, k, l).
