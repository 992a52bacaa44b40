(** Model of the search over regressions: /repo/src/ldt_statistics/modeling/search/searcher_reg.cpp, the functions Update of
    /repo/src/ldt_statistics/modeling/search/summary.cpp:14-105 and /repo/src/ldt_statistics/modeling/linear/sur_modelset.cpp.

    Simplifications: [None] is NaN; a number is finite and arithmetic exact; unsigned arithmetic of seeds does not wrap; the estimation and the simulation
    of a system (C90-C96) are parameters; the vectors that are written element by element are written as lists. *)
From Coq Require Import String.
From Verif Require Export Base NamesModel WeightModel.
Local Open Scope Z_scope.

(** ** SearcherReg *)
(** SearchData, SearchItems, SearchMetricOptions and the constructor's arguments, as far as SearcherReg reads them. *)
Record reg := Reg {
  g_innerexo : bool;                    (* IsInnerExogenous *)
  g_inner : list Z;                     (* InnerIndices *)
  g_weight : bool;                      (* data.HasWeight *)
  g_endo : Z;                           (* data.NumEndo *)
  g_targets : Z;                        (* items.LengthTargets *)
  g_in : list gof; g_out : list scoring;(* MetricsIn, MetricsOut *)
  g_minin : list (gof * list R); g_minout : list (scoring * list R); (* MinMetricIn, MinMetricOut *)
  g_keep : bool;                        (* KeepModelEvaluations *)
  g_len1 : nat }.                       (* Length1 *)
(** searcher_reg.cpp:51-52, 72-73 *)
Definition target_positions (L : Z) (l : list Z) : list Z := filter (fun a => a <? L) l.
(** searcher_reg.cpp:10-58: the constructor, after that of Searcher *)
Definition reg_new (g : reg) : res reg :=
  if g_innerexo g then Ok g
  else match target_positions (g_targets g) (g_inner g) with [] => Throw | _ => Ok g end.
(** searcher_reg.cpp:27-49, 64-82: ColIndices and TargetsPositions when EstimateOneReg is called; [cur] is CurrentIndices *)
Definition col_indices (g : reg) (cur : list Z) : list Z :=
  let w := if g_weight g then 1 else 0 in
  let wcol := if g_weight g then [g_endo g] else [] in
  if g_innerexo g then cur ++ wcol ++ map (fun a => a + w) (g_inner g)
  else g_inner g ++ wcol ++ map (fun a => a + w) cur.
Definition reg_targets (g : reg) (cur : list Z) : list Z := target_positions (g_targets g) (if g_innerexo g then cur else g_inner g).
(** What EstimateOneReg leaves: a message, the metrics (measures x targets), type1_mean and type1_var (Length1 x targets) and extra. *)
Record one := One { o_msg : string; o_metrics : nat -> nat -> option R; o_mean : nat -> nat -> option R; o_var : nat -> nat -> option R; o_extra : list Z }.
(** A call of Push0 (p_third = None) or Push1: indices of the summary and the EstimationKeep. *)
Record push := Push { p_eval : nat; p_target : Z; p_third : option nat; p_metric : R; p_weight : option R;
  p_exo : list Z; p_extra : list Z; p_endo : list Z; p_mean : option (R * option R) }.
(** std::map::find and std::vector::at *)
Definition min_metric {A} (eqb : A -> A -> bool) (m : list (A * list R)) (k : A) (t : Z) : res R :=
  match find (fun e => eqb (fst e) k) m with
  | None => Ok 0%R
  | Some (_, l) => if t <? 0 then Throw else match nth_error l (Z.to_nat t) with Some v => Ok v | None => Throw end
  end.
Definition gof_eqb (a b : gof) : bool :=
  match a, b with GAic, GAic | GSic, GSic | GFrequencyCost, GFrequencyCost | GAuc, GAuc | GBrier, GBrier => true | _, _ => false end.
Definition sc_eqb (a b : scoring) : bool :=
  match a, b with
  | SDirection, SDirection | SSign, SSign | SMae, SMae | SMape, SMape | SRmse, SRmse | SRmspe, SRmspe | SCrps, SCrps
  | SFrequencyCost, SFrequencyCost | SAuc, SAuc | SBrier, SBrier => true
  | _, _ => false end.
(** searcher_reg.cpp:124-138: the weight of metric i *)
Definition weight_of (g : reg) (i : nat) (t : Z) (m : R) : res (option R) :=
  match nth_error (g_in g) i with
  | Some f => do mn <- min_metric gof_eqb (g_minin g) f t; Ok (gof_to_weight f m (Some mn))
  | None =>
      match nth_error (g_out g) (i - length (g_in g)) with
      | Some s => do mn <- min_metric sc_eqb (g_minout g) s t; Ok (sc_to_weight s m (Some mn))
      | None => Throw
      end
  end.
(** searcher_reg.cpp:113-176: the body of the loops for metric i and the j-th target t; Summaries.at (t) throws if t is negative *)
Definition cell_pushes (g : reg) (cur : list Z) (o : one) (i j : nat) (t : Z) : res (list push) :=
  match o_metrics o i j with
  | None => Ok []
  | Some m =>
      do w <- weight_of g i t m;
      let exo := if g_innerexo g then g_inner g else cur in
      let endo := if g_innerexo g then cur else g_inner g in
      let l0 := if g_keep g then [Push i t None m w exo (o_extra o) endo None] else [] in
      let l1 := flat_map (fun i1 => match o_mean o i1 j with
                                    | None => []
                                    | Some c => [Push i t (Some i1) m w exo (o_extra o) endo (Some (c, o_var o i1 j))]
                                    end) (seq 0 (g_len1 g)) in
      if (t <? 0) && negb (match l0 ++ l1 with [] => true | _ => false end) then Throw else Ok (l0 ++ l1)
  end.
(** The pushes of a sequence of steps up to the first exception, and whether there is one. *)
Fixpoint run {A} (l : list (res (list A))) : list A * bool :=
  match l with
  | [] => ([], false)
  | Ok p :: t => let '(q, b) := run t in (p ++ q, b)
  | _ :: _ => ([], true)
  end.
Definition indexed {A} (l : list A) : list (nat * A) := combine (seq 0 (length l)) l.
Definition measures (g : reg) : nat := length (g_in g) + length (g_out g).
Definition steps (g : reg) (cur : list Z) (o : one) : list (res (list push)) :=
  flat_map (fun i => map (fun '(j, t) => cell_pushes g cur o i j t) (indexed (reg_targets g cur))) (seq 0 (measures g)).
Definition all_nan (g : reg) (cur : list Z) (o : one) : bool :=
  forallb (fun i => forallb (fun j => match o_metrics o i j with None => true | Some _ => false end) (seq 0 (length (reg_targets g cur)))) (seq 0 (measures g)).
Inductive outcome := Msg (s : string) | Thrown.
(** searcher_reg.cpp:60-190 EstimateOne: the pushes and the message or exception. [est] is EstimateOneReg with ColIndices ([Throw]: an exception), [c1]
    and [c2] are RequestCancel before and after it. *)
Definition estimate_one (g : reg) (est : list Z -> res one) (c1 c2 : bool) (cur : list Z) : list push * outcome :=
  if (measures g =? 0)%nat then ([], Thrown) else
  match reg_targets g cur with [] => ([], Thrown) | _ =>
  if c1 then ([], Msg "cancel") else
  match est (col_indices g cur) with
  | Ok o =>
      if negb (String.eqb (o_msg o) "") then ([], Msg (o_msg o))
      else if c2 then ([], Msg "cancel")
      else let '(p, threw) := run (steps g cur o) in
           if threw then (p, Thrown) else if all_nan g cur o then (p, Thrown) else (p, Msg "")
  | _ => ([], Thrown)
  end end.

(** ** Options *)
(** double with infinities; no NaN is involved in std::isinf *)
Inductive lim := NegInf | PosInf | Num (x : R).
(** searchers.h: SearchMetricOptions. The maps of indices are association lists. *)
Record mopts := Mopts { m_in : list gof; m_out : list scoring; m_pos : list bool; m_trainfix : Z; m_ratio : R; m_simfix : Z; m_seed : Z; m_horizons : list Z;
  m_ts : bool; m_inidx : list (gof * Z); m_outidx : list (scoring * Z) }.
(** helpers.h:210-217 *)
Fixpoint index_of {A} (eqb : A -> A -> bool) (l : list A) (x : A) : Z :=
  match l with
  | [] => -1
  | y :: t => if eqb y x then 0 else let r := index_of eqb t x in if r <? 0 then -1 else r + 1
  end.
(** std::map::insert: no effect if the key is present *)
Definition insert {A} (eqb : A -> A -> bool) (m : list (A * Z)) (k : A) (v : Z) : list (A * Z) :=
  if existsb (fun e => eqb (fst e) k) m then m else m ++ [(k, v)].
(** std::map::at *)
Definition at_key {A} (eqb : A -> A -> bool) (m : list (A * Z)) (k : A) : res Z :=
  match find (fun e => eqb (fst e) k) m with Some (_, v) => Ok v | None => Throw end.
Definition all_gof : list gof := [GAic; GAuc; GBrier; GFrequencyCost; GSic].
Definition all_sc : list scoring := [SAuc; SBrier; SCrps; SDirection; SFrequencyCost; SMae; SMape; SRmse; SRmspe; SSign].
(** summary.cpp:23-74 SearchMetricOptions::Update *)
Definition metrics_update (random ts : bool) (m : mopts) : res mopts :=
  let seed := if random then m_seed m else 0 in
  let hor := if ts then m_horizons m else [] in
  let hasout := 0 <? m_simfix m in
  let outs := negb (match m_out m with [] => true | _ => false end) in
  let hors := negb (match hor with [] => true | _ => false end) in
  if negb hasout && outs then Throw else
  let ratio := if 0 <? m_trainfix m then 0%R else m_ratio m in
  if hasout && negb ts && (m_trainfix m =? 0) && (if Req_EM_T ratio 0 then true else false) then Throw else
  if ts && ((negb hors && outs) || (hors && negb outs)) then Throw else
  Ok (Mopts (m_in m) (m_out m) (map gof_positive (m_in m) ++ map sc_positive (m_out m)) (m_trainfix m) ratio (m_simfix m) seed hor ts
    (fold_left (fun a k => insert gof_eqb a k (index_of gof_eqb (m_in m) k)) all_gof (m_inidx m))
    (fold_left (fun a k => insert sc_eqb a k (index_of sc_eqb (m_out m) k)) all_sc (m_outidx m))).
(** searchers.h: SearchModelChecks *)
Record chk := Chk { k_est : bool; k_obs : Z; k_dof : Z; k_outsim : Z; k_r2 : lim; k_aic : lim; k_sic : lim; k_cn : lim; k_pred : bool; k_checkcn : bool; k_checkcn_all : bool }.
Definition isinf (x : lim) : bool := match x with Num _ => false | _ => true end.
(** summary.cpp:76-103 SearchModelChecks::Update *)
Definition checks_update (m : mopts) (k : chk) : res chk :=
  let pred := if m_ts m then k_pred k else false in
  if (0 <? m_simfix m) && (m_simfix m <? k_outsim k) then Throw else
  let outs := negb (match m_out m with [] => true | _ => false end) in
  let ins := negb (match m_in m with [] => true | _ => false end) in
  let cn := outs && negb (isinf (k_cn k)) in
  let cn_all := k_est k && negb (isinf (k_cn k)) in
  let est := if negb (k_est k) && (ins || (0 <? k_obs k) || (0 <? k_dof k) || negb (isinf (k_aic k)) || negb (isinf (k_sic k)) || negb (isinf (k_r2 k))) then true else k_est k in
  Ok (Chk est (k_obs k) (k_dof k) (k_outsim k) (k_r2 k) (k_aic k) (k_sic k) (k_cn k) pred cn cn_all).

(** ** Systems of equations *)
(** What the estimation with all data (C90-C95) gives: AIC, SIC, beta and its standard errors (exogenous x equation). *)
Record fitted_sur := FitS { f_aic : option R; f_sic : option R; f_beta : nat -> nat -> option R; f_std : nat -> nat -> option R }.
(** Matrix::Set0 for all targets of row [ind]; UB outside of the matrix of [rows] rows *)
Definition set_row (rows : nat) (ind : Z) (f : nat -> option R) (M : nat -> nat -> option R) : res (nat -> nat -> option R) :=
  if ind <? 0 then Ok M
  else if Z.of_nat rows <=? ind then UB
  else Ok (fun i j => if (i =? Z.to_nat ind)%nat then f j else M i j).
(** The types for which sur_modelset.cpp:108-140 copies a row; Results.Get0 (ind, .) is read from a matrix with a row for each metric *)
Definition sur_outs : list scoring := [SSign; SMae; SMape; SRmse; SRmspe; SCrps].
Definition set_out (m : mopts) (rows : nat) (sim : nat -> nat -> option R) (M : res (nat -> nat -> option R)) (s : scoring) : res (nat -> nat -> option R) :=
  do M <- M; do ind <- at_key sc_eqb (m_outidx m) s;
  if ind <? 0 then Ok M
  else if Z.of_nat (length (m_out m)) <=? ind then UB
  else set_row rows (Z.of_nat (length (m_in m)) + ind) (fun t => sim (Z.to_nat ind) t) M.
(** sur_modelset.cpp:148-161: row b - NumEndo of type1_mean and type1_var for each current index *)
Fixpoint set_type1 (E : Z) (len1 : nat) (f : fitted_sur) (l : list Z) (i : nat) (MV : (nat -> nat -> option R) * (nat -> nat -> option R)) : res ((nat -> nat -> option R) * (nat -> nat -> option R)) :=
  match l with
  | [] => Ok MV
  | b :: t =>
      let a := b - E in
      if (a <? 0) || (Z.of_nat len1 <=? a) then UB else
      let '(M, V) := MV in
      set_type1 E len1 f t (S i)
        (fun r j => if (r =? Z.to_nat a)%nat then f_beta f i j else M r j,
         fun r j => if (r =? Z.to_nat a)%nat then (match f_std f i j with Some s => Some (s * s)%R | None => None end) else V r j)
  end.
(** sur_modelset.cpp:63-167 SurSearcher::EstimateOneReg. [fit]: the estimation if checks.Estimation, [sim]: the results of the simulation if there is one;
    RequestCancel is false. The matrices that VMatrix creates are zero; type1_mean is set to NaN in SearcherReg. *)
Definition sur_one (m : mopts) (E : Z) (len1 : nat) (cur : list Z) (fit : option (res fitted_sur)) (sim : option (res (nat -> nat -> option R))) : res one :=
  let rows := (length (m_in m) + length (m_out m))%nat in
  let M0 := fun (_ _ : nat) => Some 0%R in
  do M1 <- (match fit with
            | None => Ok M0
            | Some f => do f <- f;
                do ia <- at_key gof_eqb (m_inidx m) GAic; do M <- set_row rows ia (fun _ => f_aic f) M0;
                do is <- at_key gof_eqb (m_inidx m) GSic; set_row rows is (fun _ => f_sic f) M
            end);
  do M2 <- (match sim with None => Ok M1 | Some s => do s <- s; fold_left (set_out m rows s) sur_outs (Ok M1) end);
  do '(T, V) <- (match fit with
            | Some f => if (0 <? len1)%nat then do f <- f; set_type1 E len1 f cur 0 (fun _ _ => None, M0) else Ok (fun _ _ => None, M0)
            | None => Ok (fun _ _ => None, M0)
            end);
  Ok (One "" M2 T V []).
(** The constructor of SurModelset, sur_modelset.cpp:173-235: the searchers (size, endogenous indices, seed). *)
Record combos := Combos { b_sizes : list Z; b_parts : list (list Z); b_fix : Z; b_groups : list (list Z) }.
Record items := Items { t_targets : Z; t_keep : bool; t_len1 : Z; t_endo : Z; t_exo : Z }.
(** [bad]: the constructor of Searcher throws (searcher.cpp:24-36, Length2 = 0); the constructors of SurExtended and SurSimulation do not throw. *)
Fixpoint group_loop (bad : bool) (L seed s : Z) (l : list (list Z)) (co : Z) (acc : list (Z * list Z * Z)) : res (Z * list (Z * list Z * Z)) :=
  match l with
  | [] => Ok (co, acc)
  | e :: t =>
      match e with
      | [] => Throw
      | e0 :: _ =>
          if L <? e0 then group_loop bad L seed s t co acc else
          let sd := if seed =? 0 then 0 else if seed <? 0 then - seed else seed + co in
          if bad then Throw else
          match target_positions L e with
          | [] => Throw (* searcher_reg.cpp:54-56 *)
          | _ => group_loop bad L seed s t (co + 1) (acc ++ [(s, e, sd)])
          end
      end
  end.
Fixpoint size_loop (bad : bool) (L seed fix_ : Z) (groups : list (list Z)) (l : list Z) (co : Z) (acc : list (Z * list Z * Z)) : res (list (Z * list Z * Z)) :=
  match l with
  | [] => Ok acc
  | s :: t =>
      if s <=? 0 then Throw
      else if s <? fix_ then size_loop bad L seed fix_ groups t co acc
      else do '(co, acc) <- group_loop bad L seed s groups co acc; size_loop bad L seed fix_ groups t co acc
  end.
Definition sur_modelset (m : mopts) (k : chk) (b : combos) (t : items) : res (mopts * chk * list (Z * list Z * Z)) :=
  do m <- metrics_update true false m;
  do k <- checks_update m k;
  if t_targets t <=? 0 then Throw (* summary.cpp:17-19 *) else
  if negb (t_len1 t =? 0) && negb (t_len1 t =? t_exo t) then Throw else
  if negb (t_len1 t =? 0) && negb (k_est k) then Throw else
  if existsb (existsb (fun a => (a <? t_endo t) || (t_endo t + t_exo t <=? a) || (a <? 0))) (b_parts b) then Throw else
  let bad := ((length (m_in m) + length (m_out m) =? 0)%nat || (negb (t_keep t) && (t_len1 t =? 0)))%bool in
  do l <- size_loop bad (t_targets t) (m_seed m) (b_fix b) (b_groups b) (b_sizes b) 0 [];
  Ok (m, k, l).
