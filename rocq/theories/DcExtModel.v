(** Model of /repo/src/ldt_statistics/modeling/discrete/discrete_choice_extended.cpp without principal components. [None] is NaN;
    arithmetic is exact. The estimation (C98, C99, C101) is a parameter that gives the storage of the model, which starts with the
    coefficients; the probabilities of a row (C100) are a function of it. ROC (C34) and FrequencyCost (C35) are represented by
    their arguments. *)
From Verif Require Export DcCalcModel SurSimModel.
Local Open Scope Z_scope.

(** The declared object; [x_data] and [x_mstorage] are the announced storages of its members Data and Model. *)
Record ext := Ext { x_model : choice_model; x_weight : bool; x_nan : bool; x_choices : Z; x_details : bool; x_costs : option Z; x_weval : bool;
  x_storage : Z; x_work : Z; x_data : Z; x_mstorage : Z }.
(** discrete_choice_extended.cpp:11-75, frequency_cost.cpp:11-13, dataset.cpp:22-32; [costs] is the number of cost matrices *)
Definition ext_new (t : choice_model) (rows cols : Z) (weight nan : bool) (c : Z) (details : bool) (nf : Z) (costs : option Z) (weval : bool) : res ext :=
  let numExo := cols - (if weight then 2 else 1) in
  if (cols <=? 0) || (rows <=? 0) then Throw else
  do m <- dc_new t rows numExo c details;
  let storage := rows * cols + dc_storage m in
  let work := Z.max 0 (dc_work m) in
  let storage := if 0 <? nf then storage + (c * nf + nf * cols) else storage in
  let work := if 0 <? nf then Z.max work (rows + c - 2) else work in
  let storage := if details then storage + c * rows else storage in
  let work := if details then Z.max work (rows + c - 2) else work in
  let storage := match costs with Some n => if details then storage + 2 * n else storage | None => storage end in
  Ok (Ext t weight nan c details costs (weight && weval) storage work (rows * cols) (dc_storage m)).

(** The results. The arguments of ROC: labels, scores and weights; those of FrequencyCost: labels, all probabilities and weights. *)
Record ext_result := ExtR { r_y : list fl; r_w : option (list fl); r_x : list (list fl); r_pred : option (list (list fl));
  r_details : option (fl * (list fl * list fl * option (list fl)) * option (list fl * list (list fl) * option (list fl))) }.

Section Ext.
(** Estimation and probabilities (arguments: storage of the model, number of columns, linear predictor); [junk] is what an
    uninitialised part of the storage contains. *)
Context (est : list fl -> list (list fl) -> option (list fl) -> res (list fl)) (probs : list fl -> Z -> fl -> list fl) (junk : Z -> fl).

Definition is_nan (a : fl) : bool := match a with None => true | Some _ => false end.
(** dataset.cpp:34-61 (C30) *)
Definition kept (nan : bool) (rows : list (list fl)) : list (list fl) := if nan then filter (fun r => negb (existsb is_nan r)) rows else rows.
Definition cell (r : list fl) (j : nat) : fl := nth j r None.
(** discrete_choice.cpp:1070-1157 GetProbabilities: x.Dot0(Beta) multiplies as many coefficients as x has columns *)
Definition get_probabilities (mem : list fl) (x : list (list fl)) : res (list (list fl)) :=
  rmap (fun r => if Nat.ltb (length mem) (length r) then UB else Ok (probs mem (Z.of_nat (length r)) (fsum (map2 fmul r mem)))) x.
(** discrete_choice_extended.cpp:153-165: the loop goes over the rows of the projections; Y.Data[i] and W.Data[i] are elements of
    the dataset, which is stored by column ([flat]), beyond Y and W if rows were removed. *)
Definition at_mem (l : list fl) (i : nat) : fl := match nth_error l i with Some v => v | None => junk (Z.of_nat i) end.
Definition brier (n : nat) (flat : list fl) (count : nat) (weighted : bool) (p1 : list fl) : fl :=
  let terms := map (fun i => ((if weighted then at_mem flat (count + i) else Some 1%Qc),
                              let d := at_mem flat i -f at_mem p1 i in d *f d)) (seq 0 n) in
  fsum (map (fun '(w, d) => w *f d) terms) /f fsum (map fst terms).
(** discrete_choice_extended.cpp:77-205 Calculate; [data] are the rows of a matrix with [cols] columns *)
Definition ext_calculate (e : ext) (data : list (list fl)) (cols : Z) (forecast : option (list (list fl))) : res ext_result :=
  let nf := match forecast with Some f => Z.of_nat (length f) | None => 0 end in
  let numObs := Z.of_nat (length data) in
  do temp <- ext_new (x_model e) numObs cols (x_weight e) (x_nan e) (x_choices e) (x_details e) nf (x_costs e) (x_weval e);
  if (x_work e <? x_work temp) || (x_storage e <? x_storage temp) then Throw else
  let use := kept (x_nan e) data in
  let y := map (fun r => cell r 0) use in
  let w := if x_weight e then Some (map (fun r => cell r 1) use) else None in
  let x := map (skipn (if x_weight e then 2 else 1)) use in
  let flat := concat (map (fun j => map (fun r => cell r j) use) (seq 0 (Z.to_nat cols))) in
  do mem <- est y x w;
  do pred <- (match forecast with Some f => do p <- get_probabilities mem f; Ok (Some p) | None => Ok None end);
  if x_details e then
    do proj <- get_probabilities mem x;
    let b := brier (length data) flat (length use) (x_weight e && x_weval e) (map (fun r => cell r 1) proj) in
    let we := if x_weight e && x_weval e then w else None in
    match x_model e with
    | Ordered => Throw
    | Binary => Ok (ExtR y w x pred (Some (b, (y, map (fun r => cell r 0) proj, we), match x_costs e with Some _ => Some (y, proj, we) | None => None end)))
    end
  else Ok (ExtR y w x pred None).
End Ext.

(** discrete_choice_extended.cpp:100-202: the parts of the storage for data of [n] rows and [cols] columns and [nf] rows to predict;
    the positions are computed from the declared members. The results of Model have [m] doubles. *)
Definition ext_blocks (e : ext) (n cols nf m : Z) : list block :=
  let p := x_data e + x_mstorage e in
  [Block 0 (n * cols); Block (x_data e) m] ++
  (if 0 <? nf then [Block p (nf * x_choices e)] else []) ++
  (let p := p + (if 0 <? nf then nf * x_choices e else 0) in
   if x_details e then [Block p (n * x_choices e)] ++ match x_costs e with Some k => [Block (p + n * x_choices e) (2 * k)] | None => [] end else []).
