(** Model of /repo/src/ldt_statistics/modeling/discrete/discrete_choice_sim.cpp, the out-of-sample simulation of discrete choice
    models, without principal components. The random split (C32, C33) and the estimation and prediction of one iteration (C102) are an input ([draw]).
    ROC (C34) and FrequencyCost (C35) are parameters. Labels are whole numbers; [None] is NaN; arithmetic is exact. Cancellation
    is not modelled. *)
From Verif Require Export DcExtModel DescModel.
From Verif Require SplitModel.
Local Open Scope Z_scope.

(** A row of the testing sample: label, weight, predicted probabilities. *)
Definition trow := (Z * Qc * list fl)%type.
(** model.Calculate throws, or the testing sample with its predictions (discrete_choice_sim.cpp:228-253). *)
Inductive dcdraw := DFailed | DFitted (rows : list trow).
(** The object after the constructor. *)
Record dcs := Dcs { k_model : choice_model; k_choices : Z; k_weight : bool; k_weval : bool; k_brier : bool; k_auc : bool; k_table : bool; k_costs : Z;
  k_n1 : Z; k_storage : Z; k_work : Z }.
(** discrete_choice_sim.cpp:15-80, data_split.cpp:134; [pct] is the training percentage *)
Definition dcs_new (t : choice_model) (weight : bool) (rows cols c : Z) (pct : Qc) (fix_size costs : Z) (brier auc table weval : bool) : res dcs :=
  if c <? 1 then Throw
  else if (c =? 2) && (match t with Ordered => true | Binary => false end) then Throw
  else if (2 <? c) && (match t with Binary => true | Ordered => false end) then Throw
  else if (costs =? 0) && negb table && negb auc then Throw
  else if fix_size <? 0 then Throw
  else if (fix_size =? 0) && (qleb 1 pct || qleb pct 0) then Throw
  else
    let n0 := SplitModel.train_size rows pct fix_size in
    if (n0 =? 0) || (n0 =? rows) then Throw
    else
      let n1 := rows - n0 in
      let storage := (if 0 <? costs then costs else 0) + (if table then 10 * c else 0) in
      do m <- ext_new t n0 cols weight false c false n1 None false;
      Ok (Dcs t c weight (weight && weval) brier auc table costs n1 storage (costs + 2 * costs + rows * cols + x_storage m + x_work m)).
(** discrete_choice_sim.cpp:126-134, 176-186: the parts of the storage and of the work array *)
Definition dcs_storage_blocks (k : dcs) : list block :=
  let p := if k_table k then 10 * k_choices k else 0 in
  (if k_table k then [Block 0 (10 * k_choices k)] else []) ++ (if 0 <? k_costs k then [Block p (k_costs k)] else []).
Definition dcs_work_blocks (costs rows cols : Z) (m : ext) : list block :=
  [Block 0 (2 * costs); Block (2 * costs) (rows * cols); Block (2 * costs + rows * cols) (x_storage m);
   Block (2 * costs + rows * cols + x_storage m) costs; Block (2 * costs + rows * cols + x_storage m + costs) (x_work m)].

(** What is accumulated; [a_brier] is BrierScore ([None] if not computed). *)
Record dcst := Dcst { a_brier : option fl; a_sums : list Qc; a_counts : list Qc; a_auc : fl; a_table : list Qc; a_inv : Z; a_valid : Z }.
Record dcsr := Dcsr { o_valid : Z; o_brier : option fl; o_ratios : list fl; o_auc : fl; o_table : list Qc }.

Section Sim.
(** ROC and FrequencyCost for the rows of a testing sample; the first argument tells whether the weights are given *)
Context (roc : bool -> list trow -> res fl) (cost : bool -> list trow -> res (list Qc * list Qc)).
(** discrete_choice_sim.cpp:255-270 *)
Definition weight_in (k : dcs) (r : trow) : Qc := if k_weight k then snd (fst r) else 1%Qc.
Definition test_brier (k : dcs) (rows : list trow) : fl :=
  fsum (map (fun r => let d := Some (qz (fst (fst r))) -f nth 1 (snd r) None in Some (weight_in k r) *f (d *f d)) rows)
  /f fsum (map (fun r => Some (weight_in k r)) rows).
(** discrete_choice_sim.cpp:297-315: the table is stored by column, 10 rows *)
Fixpoint table_loop (k : dcs) (rows : list trow) (t : list Qc) : res (list Qc) :=
  match rows with
  | [] => Ok t
  | r :: rows =>
      let yc := fst (fst r) in
      if yc <? 0 then UB else
      match nth_error (snd r) (Z.to_nat yc) with
      | None => UB
      | Some None => Throw
      | Some (Some p) =>
          let j := qfloor (p * qz 10)%Qc in
          let j := if j =? 10 then 9 else j in
          do t <- count_at t (j + 10 * yc) (weight_in k r);
          table_loop k rows t
      end
  end.
(** discrete_choice_sim.cpp:214-322 one iteration *)
Definition dcs_step (k : dcs) (maxinv : Z) (s : dcst) (d : dcdraw) : res dcst :=
  match d with
  | DFailed => Ok (Dcst (a_brier s) (a_sums s) (a_counts s) (a_auc s) (a_table s) (a_inv s + 1) (a_valid s))
  | DFitted rows =>
      let b := if k_brier k then Some (test_brier k rows) else a_brier s in
      do sc <- (if 0 <? k_costs k then do v <- cost (k_weight k && k_weval k) rows;
                                       Ok (map2 Qcplus (a_sums s) (fst v), map2 Qcplus (a_counts s) (snd v))
                else Ok (a_sums s, a_counts s));
      do a <- (if k_auc k then do v <- roc (k_weight k && k_weval k) rows; Ok (a_auc s +f v) else Ok (a_auc s));
      do t <- (if k_table k then table_loop k rows (a_table s) else Ok (a_table s));
      let inv := a_inv s + 1 - 1 in
      if maxinv <? inv then Throw else Ok (Dcst b (fst sc) (snd sc) a t inv (a_valid s + 1))
  end.
Fixpoint dcs_loop (k : dcs) (maxinv : Z) (s : dcst) (ds : list dcdraw) : res dcst :=
  match ds with [] => Ok s | d :: t => do s <- dcs_step k maxinv s d; dcs_loop k maxinv s t end.
(** discrete_choice_sim.cpp:82-340 Calculate; the size check is passed *)
Definition dcs_calculate (k : dcs) (maxinv : Z) (ds : list dcdraw) : res dcsr :=
  match k_model k with
  | Ordered => Throw
  | Binary =>
      let z := repeat 0%Qc (Z.to_nat (k_costs k)) in
      do s <- dcs_loop k maxinv (Dcst None z z (Some 0%Qc) (repeat 0%Qc (Z.to_nat (10 * k_choices k))) 0 0) ds;
      if maxinv <? a_inv s then Throw
      else if a_valid s =? 0 then Throw
      else Ok (Dcsr (a_valid s) (a_brier s) (map2 (fun a b => Some a /f Some b) (a_sums s) (a_counts s)) (a_auc s /f Some (qz (a_valid s))) (a_table s))
  end.
End Sim.
