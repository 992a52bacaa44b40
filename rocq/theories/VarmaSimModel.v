(** Model of /repo/src/ldt_statistics/modeling/time_series/varma/varma_simulation.cpp, the out-of-sample simulation of VARMA models.
    The data is the list of its observations, each with the value of every endogenous variable; [None] is NaN in the inputs, and
    NaN or infinite in the results; arithmetic is exact. What estimating and forecasting without the last [se] observations gives is
    an input, as are the square root, the inverse Box-Cox transformation and the normal CRPS. Cancellation, the sizes of the work
    arrays and the checks of CalculateE for missing data are not modelled. *)
From Verif Require Export SurSimModel.
Local Open Scope Z_scope.

(** varma_simulation.cpp:270-285, 485-507: an exception with its message, or the forecasts (and their variances) for 1, 2, ... steps. *)
Inductive vfit := VFail (msg : String.string) | VFit (forecasts vars : list (list fl)).
Definition vfit_ok (o : vfit) : bool := match o with VFail _ => false | VFit _ _ => true end.
(** The arguments; [vs_last] is the index of the last observation (T-1 in Calculate, D.End in CalculateE), [vs_T] the number
    of observations and [vs_sizes_T] the number for which the sizes are made. *)
Record vset := VSet { vs_ext : bool; vs_count : Z; vs_horizons : list Z; vs_metrics : list scoring; vs_yy : nat; vs_T : Z; vs_sizes_T : Z; vs_last : Z;
  vs_prev : bool; vs_maxinv : Z; vs_lambdas : option (list fl); vs_keep : bool }.
(** An element of Details: se, index of the metric, horizon, variable, and the values last, actual, forecast, error, std. *)
Record vdetail := VDet { vd_se : Z; vd_metric : Z; vd_h : Z; vd_var : Z; vd_last : fl; vd_act : fl; vd_forc : fl; vd_err : fl; vd_std : fl }.
(** ResultAggs, counter, ValidCounts, invalidCounts, success, Errors, Details *)
Record vst := VSt { v_res : list (list fl); v_counter : Z; v_valid : Z; v_inv : Z; v_success : bool; v_errors : list (reason * Z); v_details : list vdetail }.

Section Sim.
Context (root : Qc -> fl) (binv : Qc -> Qc -> fl) (crps : Qc -> Qc -> fl).

(** varma_simulation.cpp:68-149 GetScore for one element: actual, forecast, error, standard deviation and last value. Comparisons
    with NaN are false. *)
Definition v_less (a b : fl) : bool := less (dbl_of a) (dbl_of b).
Definition v_eq (a b : fl) : bool := match a, b with Some a, Some b => qeqb a b | _, _ => false end.
Definition half : Qc := (1 / qz 2)%Qc.
Definition v_score (k : scoring) (a f e s l : fl) : res fl :=
  match k with
  | SDirection => Ok (if is_none f then None else
      if v_less l a then (if v_less l f then Some 1%Qc else Some 0%Qc) else
      if v_less a l then (if v_less f l then Some 1%Qc else Some 0%Qc) else
      if v_eq a l then (if v_eq f l then Some 1%Qc else Some 0%Qc) else Some 0%Qc)
  | SSign => Ok (if is_none f then None else
      if v_eq a (Some 0%Qc) || v_eq f (Some 0%Qc) then Some half else
      if (v_less (Some 0%Qc) a && v_less f (Some 0%Qc)) || (v_less a (Some 0%Qc) && v_less (Some 0%Qc) f) then Some 0%Qc else Some 1%Qc)
  | SMae => Ok (fabs e)
  | SMape => Ok (if v_less a (Some 0%Qc) || v_eq a (Some 0%Qc) then None else fabs e /f a)
  | SRmse => Ok (e *f e)
  | SRmspe => Ok (if v_less a (Some 0%Qc) || v_eq a (Some 0%Qc) then None else (e *f e) /f (a *f a))
  | SCrps => Ok (match e, s with Some e, Some s => crps e s | _, _ => None end)
  | _ => Throw
  end.

(** A column of the working matrices: one element for each variable. *)
Definition nan_col (n : nat) : list fl := repeat None n.
(** boxCoxLambdas->at(a) for a = 0, ..., yy-1 (varma_simulation.cpp:313-333, 537-557); [None] leaves the values. *)
Fixpoint v_lambdas (ls : list fl) (n : nat) : res (list fl) :=
  match n, ls with
  | O, _ => Ok []
  | S _, [] => Throw
  | S n, l :: ls => do t <- v_lambdas ls n; Ok (l :: t)
  end.
Definition v_box (ls : list fl) (col : list fl) : list fl := map2 (fun l v => match l with None => v | Some lam => fbind (binv lam) v end) ls col.
Definition at_index (y : list (list fl)) (t : Z) : res (list fl) := if t <? 0 then UB else match nth_error y (Z.to_nat t) with Some c => Ok c | None => UB end.

(** varma_simulation.cpp:292-311, 515-529: the columns for the horizons. *)
Record vcols := VCols { k_act : list (list fl); k_forc : list (list fl); k_std : list (list fl); k_count : Z }.
Fixpoint columns (yy : nat) (y f v : list (list fl)) (act eff : Z) (hs : list Z) : res vcols :=
  match hs with
  | [] => Ok (VCols [] [] [] 0)
  | h :: t =>
    do r <- columns yy y f v act eff t;
    if h <=? eff then
      do a <- at_index y (act + h); do p <- at_index f (h - 1); do s <- at_index v (h - 1);
      Ok (VCols (a :: k_act r) (p :: k_forc r) (s :: k_std r) (k_count r + 1))
    else Ok (VCols (nan_col yy :: k_act r) (nan_col yy :: k_forc r) (nan_col yy :: k_std r) (k_count r))
  end.
Fixpoint score_col (k : scoring) (a f e s l : list fl) : res (list fl) :=
  match a, f, e, s, l with
  | a :: ar, f :: fr, e :: er, s :: sr, l :: lr => do v <- v_score k a f e s l; do t <- score_col k ar fr er sr lr; Ok (v :: t)
  | _, _, _, _, _ => Ok []
  end.
Fixpoint score_cols (k : scoring) (a f e s : list (list fl)) (l : list fl) : res (list (list fl)) :=
  match a, f, e, s with
  | a :: ar, f :: fr, e :: er, s :: sr => do v <- score_col k a f e s l; do t <- score_cols k ar fr er sr l; Ok (v :: t)
  | _, _, _, _ => Ok []
  end.
(** varma_simulation.cpp:349-358, 568-585: the columns used in the summation, with their horizons; k counts the horizons which are not skipped. *)
Fixpoint used {A} (eff : Z) (hs : list Z) (cols : list A) : list (Z * A) :=
  match hs with
  | [] => []
  | h :: t => if eff <? h then used eff t cols else match cols with c :: cs => (h, c) :: used eff t cs | [] => [] end
  end.
(** One metric: the sums. *)
Definition v_add (eff : Z) (hs : list Z) (k : scoring) (acc : list fl) (a f e s : list (list fl)) (l : list fl) : res (list fl) :=
  do temp <- score_cols k a f e s l; Ok (fold_left (map2 fadd) (map snd (used eff hs temp)) acc).
Fixpoint v_adds (eff : Z) (hs : list Z) (ks : list scoring) (acc : list (list fl)) (a f e s : list (list fl)) (l : list fl) : res (list (list fl)) :=
  match ks, acc with
  | k :: ks, r :: acc => do v <- v_add eff hs k r a f e s l; do t <- v_adds eff hs ks acc a f e s l; Ok (v :: t)
  | _, _ => Ok []
  end.
(** varma_simulation.cpp:574-579 the details of one metric. *)
Definition v_detail (se eff : Z) (hs : list Z) (c : Z) (yy : nat) (a f e s : list (list fl)) (l : list fl) : list vdetail :=
  flat_map (fun '(h, (a, (f, (e, s)))) => map (fun vi => VDet se c h (Z.of_nat vi) (nth vi l None) (nth vi a None) (nth vi f None) (nth vi e None) (nth vi s None)) (seq 0 yy))
    (used eff hs (combine a (combine f (combine e s)))).

Definition v_round (c : vset) (y : list (list fl)) (est : Z -> bool -> vfit) (se : Z) (st : vst) : res (vst + vst) :=
  (** [inl]: break; [inr]: go on (varma_simulation.cpp:238-362, 462-587) *)
  let hMin := hd 0 (vs_horizons c) in let hMax := last (vs_horizons c) 0 in
  let inv := v_inv st + 1 in
  let st1 := VSt (v_res st) (v_counter st) (v_valid st) inv (v_success st) (v_errors st) (v_details st) in
  let act := vs_last c - se in
  if act <? 0 then Ok (inl st1) else
  let eff := Z.min se hMax in
  if eff <? hMin then Ok (inl st1) else
  if Z.of_nat (List.length (filter (fun h => h <=? eff) (vs_horizons c))) <=? 0 then Ok (inl st1) else
  match est se (vs_prev c && v_success st) with
  | VFail msg => Ok (inr (VSt (v_res st) (v_counter st) (v_valid st) inv (v_success st) (if vs_ext c then add_error true (RModel msg) (v_errors st) else v_errors st) (v_details st)))
  | VFit f v =>
    let inv := inv - 1 in
    if negb (vs_ext c) && (vs_maxinv c <? inv) then Throw else
    do lst <- at_index y act;
    do k <- columns (vs_yy c) y f v act eff (vs_horizons c);
    let std := if existsb requires_variance (vs_metrics c) then map (map (fbind root)) (k_std k) else k_std k in
    do ls <- (match vs_lambdas c with None => Ok (nan_col (vs_yy c)) | Some ls => v_lambdas ls (vs_yy c) end);
    let lst := v_box ls lst in let a := map (v_box ls) (k_act k) in let f := map (v_box ls) (k_forc k) in
    let s := if existsb requires_variance (vs_metrics c) then map (v_box ls) std else std in
    let e := map2 (map2 fsub) a f in
    do r <- v_adds eff (vs_horizons c) (vs_metrics c) (v_res st) a f e s lst;
    let det := if vs_ext c && vs_keep c then flat_map (fun m => v_detail se eff (vs_horizons c) (Z.of_nat m) (vs_yy c) a f e s lst) (seq 0 (List.length (vs_metrics c))) else [] in
    Ok (inr (VSt r (v_counter st + k_count k) (v_valid st + 1) inv true (v_errors st) (v_details st ++ det)))
  end.
Fixpoint v_loop (c : vset) (y : list (list fl)) (est : Z -> bool -> vfit) (se : nat) (st : vst) : res vst :=
  match se with
  | O => Ok st
  | S n => do r <- v_round c y est (Z.of_nat se) st; match r with inl st => Ok st | inr st => v_loop c y est n st end
  end.
(** varma_simulation.cpp:371-388, 590-607 *)
Definition v_finish (n : Z) (k : scoring) (v : fl) : fl :=
  let v := v /f Some (qz n) in
  let v := match k with SRmse | SRmspe => fbind root v | _ => v end in
  match k with SMape | SRmspe => v *f Some (qz 100) | _ => v end.
(** varma_simulation.cpp:13-66 (the checks of the constructor), 151-389 Calculate and 391-608 CalculateE; [valid0], [errors0] and
    [details0] are ValidCounts, Errors and Details before a call of CalculateE, which does not reset them. *)
Definition v_calculate (c : vset) (y : list (list fl)) (est : Z -> bool -> vfit) (valid0 : Z) (errors0 : list (reason * Z)) (details0 : list vdetail) : res vst :=
  if (vs_count c =? 0) || (vs_sizes_T c <=? vs_count c) then Throw else
  match vs_horizons c with [] => Throw | _ :: _ =>
  if vs_T c - vs_count c <=? 0 then Throw else
  do st <- v_loop c y est (Z.to_nat (vs_count c))
    (VSt (repeat (repeat (Some 0%Qc) (vs_yy c)) (List.length (vs_metrics c))) 0 (if vs_ext c then valid0 else 0) 0 false errors0 details0);
  if negb (vs_ext c) && ((v_counter st =? 0) || (vs_maxinv c <? v_inv st)) then Throw else
  Ok (VSt (map2 (fun k r => map (v_finish (v_counter st) k) r) (vs_metrics c) (v_res st)) (v_counter st) (v_valid st) (v_inv st) (v_success st) (v_errors st) (v_details st))
  end.
End Sim.
