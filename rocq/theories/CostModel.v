(** Model of /repo/src/ldt_statistics/scoring/frequency_cost.cpp. Floating point numbers are rationals; a
    label or a score that is NaN is [None]; labels fit an int. *)
From Verif Require Export MatModel.
Local Open Scope Qc_scope.

(** static_cast<int> of a floating point number. *)
Definition trunc (q : Qc) : Z := Z.quot (Qnum q) (Zpos (Qden q)).
(** frequency_cost.cpp:46-49 the first row with a threshold not below the score ([n] rows are left). *)
Fixpoint find_row (c : mat Qc) (p : option Qc) (n : nat) (r : Z) : res Z :=
  match n with
  | O => Ok r
  | S n' => do t <- get0 c r 0; if (match p with Some x => qleb x t | None => false end) then Ok r else find_row c p n' (r + 1)
  end.
(** frequency_cost.cpp:42-59 one observation in the table with number [j]; [sums] and [counts] are CostSums
    and CostCounts. *)
Definition charge (c : mat Qc) (j : Z) (p : option Qc) (actual : Z) (w : Qc) (sums counts : list Qc) : res (list Qc * list Qc) :=
  do r <- find_row c p (rows c) 0;
  do v <- get0 c r (actual + 1);
  if qeqb v 0 then do k <- rd counts j; do counts' <- wr counts j (k + w); Ok (sums, counts')
  else do s <- rd sums j; do sums' <- wr sums j (s + v * w); do k <- rd counts j; do counts' <- wr counts j (k + w); Ok (sums', counts').
Fixpoint charges (cs : list (mat Qc)) (j : Z) (p : option Qc) (actual : Z) (w : Qc) (st : list Qc * list Qc) : res (list Qc * list Qc) :=
  match cs with [] => Ok st | c :: t => do st' <- charge c j p actual w (fst st) (snd st); charges t (j + 1) p actual w st' end.
(** frequency_cost.cpp:29-61 the loop over the observations. *)
Fixpoint fc_loop (cs : list (mat Qc)) (scores : mat (option Qc)) (ws : option (list Qc)) (y : list (option Qc)) (i : Z) (st : list Qc * list Qc) : res (list Qc * list Qc) :=
  match y with
  | [] => Ok st
  | None :: t => fc_loop cs scores ws t (i + 1) st
  | Some yi :: t =>
      let actual := trunc yi in
      do w <- match ws with Some l => rd l i | None => Ok 1 end;
      do p <- get0 scores i actual;
      do st' <- charges cs 0 p actual w st;
      fc_loop cs scores ws t (i + 1) st'
  end.
(** frequency_cost.cpp:63-66 AverageRatio; [None] if not finite. *)
Fixpoint ratios (sums counts : list Qc) : option Qc :=
  match sums, counts with
  | s :: ss, k :: kk => if qeqb k 0 then None else match ratios ss kk with Some r => Some (s / k + r) | None => None end
  | _, _ => Some 0
  end.
(** frequency_cost.cpp:15-67 Calculate (StorageSize is large enough): CostSums, CostCounts, AverageRatio. *)
Definition fc_calculate (cs : list (mat Qc)) (y : list (option Qc)) (scores : mat (option Qc)) (ws : option (list Qc)) : res (list Qc * list Qc * option Qc) :=
  let z := repeat 0 (length cs) in
  do st <- fc_loop cs scores ws y 0 (z, z);
  Ok (fst st, snd st, match cs with [] => None | _ => match ratios (fst st) (snd st) with Some r => Some (r / qn (length cs)) | None => None end end).

(** frequency_cost.cpp:77-95 the loop of Check; [pre] is the previous threshold, [n] rows are left. *)
Fixpoint check_rows (c : mat Qc) (n : nat) (i : Z) (pre : Qc) : res unit :=
  match n with
  | O => Ok tt
  | S n' => do d <- get0 c i 0;
      if (qltb d 0 || qltb 1 d)%bool then Throw else
      if ((0 <? i)%Z && qleb d pre)%bool then Throw else check_rows c n' (i + 1) d
  end.
(** frequency_cost.cpp:69-97 Check *)
Definition fc_check (c : mat Qc) (choices : Z) : res unit :=
  if (nrows c <=? 1)%Z then Throw else if negb (ncols c =? choices + 1)%Z then Throw else check_rows c (rows c) 0 0.
