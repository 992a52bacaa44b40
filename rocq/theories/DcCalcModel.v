(** Model of the checks, sizes and counts of discrete choice models: /repo/src/ldt_statistics/modeling/discrete/discrete_choice.cpp:11-112,
    262-300, 547-606. Exact arithmetic; the dependent variable and the weights are single columns without NaN. *)
From Verif Require Export Base Num.
Local Open Scope Z_scope.

Inductive choice_model := Binary | Ordered.
(** The declared object; [dc_k] is the size of its optimizer (mK). *)
Record dc := Dc { dc_model : choice_model; dc_details : bool; dc_storage : Z; dc_work : Z; dc_k : Z }.
(** newton.cpp:11-15, statistics.cpp:87 *)
Definition newton_work (k : Z) : Z := 3 * k.
Definition ols_work (n k : Z) : Z := 2 * k * k + k * n.
(** discrete_choice.cpp:12-45, the constructor *)
Definition dc_new (t : choice_model) (numObs numExo numChoices : Z) (details : bool) : res dc :=
  if numChoices <? 1 then Throw
  else if (numChoices =? 2) && (match t with Ordered => true | Binary => false end) then Throw
  else if (2 <? numChoices) && (match t with Binary => true | Ordered => false end) then Throw
  else
    let k := numExo + numChoices - 2 in
    let storage := k + k * k + numChoices in
    let storage := if details then storage + 3 * k else storage in
    let priorWork := 2 * numObs + numChoices + numObs * numExo + ols_work numObs numExo in
    Ok (Dc t details storage (Z.max priorWork (numObs + 2 * k + k * k + newton_work k + numChoices)) k).

(** static_cast<Ti> of a double: rounds towards zero (of a number too large for an int: not modelled) *)
Definition to_int (q : Qc) : Z := Z.quot (Qnum q) (Zpos (Qden q)).
(** matrix.cpp:2421-2437 Maximum of the elements; of no elements it is -inf *)
Fixpoint q_max (l : list Qc) (m : option Qc) : option Qc :=
  match l with [] => m | x :: t => q_max t (match m with Some v => if qltb v x then Some x else m | None => Some x end) end.
(** Counts.Data[j] += w *)
Definition count_at (cs : list Qc) (j : Z) (w : Qc) : res (list Qc) :=
  if (0 <=? j) && (j <? Z.of_nat (length cs)) then Ok (upd (Z.to_nat j) (nth (Z.to_nat j) cs 0%Qc + w)%Qc cs) else UB.
(** the loops in discrete_choice.cpp:278-282, 566-575; [ws] are the weights, or ones in line 574 *)
Fixpoint count_loop (ys ws : list Qc) (cs : list Qc) : res (list Qc) :=
  match ys, ws with
  | [], _ => Ok cs
  | _ :: _, [] => UB
  | y :: ys, w :: ws => do cs <- count_at cs (to_int y) w; count_loop ys ws cs
  end.
(** discrete_choice.cpp:277-291 EstimateBinary *)
Definition count_binary (ys : list Qc) (w : option (list Qc)) : res (list Qc) :=
  match w with
  | Some ws => count_loop ys ws [0%Qc; 0%Qc]
  | None => let c1 := qsum ys in Ok [(qz (Z.of_nat (length ys)) - c1)%Qc; c1]
  end.
(** discrete_choice.cpp:565-575 EstimateOrdered *)
Definition count_ordered (J : Z) (ys : list Qc) (w : option (list Qc)) : res (list Qc) :=
  count_loop ys (match w with Some ws => ws | None => map (fun _ => 1%Qc) ys end) (repeat 0%Qc (Z.to_nat (J + 1))).
(** 1e-16 *)
Definition tiny : Qc := Q2Qc (1 # 10000000000000000).
(** What is known before the estimation starts. *)
Record dc_start := Start { s_cutoffs : Z; s_choices : Z; s_params : Z; s_counts : list Qc }.
(** discrete_choice.cpp:47-112 Calculate, 262-291, 547-580; [ys] are the rows of y, x is xr x xc;
    the last check is that of Newton::Minimize2, newton.cpp:183 *)
Definition dc_calculate (d : dc) (ys : list Qc) (xr xc : Z) (w : option (list Qc)) (numChoices : Z) : res dc_start :=
  let n := Z.of_nat (length ys) in
  if negb (xr =? n) then Throw
  else if (match w with Some ws => negb (Z.of_nat (length ws) =? n) | None => false end) then Throw
  else
    do cut <- (match dc_model d with
               | Binary => Ok 1
               | Ordered =>
                   do c <- (if numChoices <=? 0 then match q_max ys None with Some m => Ok (to_int m) | None => UB end else Ok (numChoices - 1));
                   if c <=? 0 then Throw else Ok c
               end);
    let numChoices := cut + 1 in
    do temp <- dc_new (dc_model d) n xc numChoices (dc_details d);
    if (dc_work d <? dc_work temp) || (dc_storage d <? dc_storage temp) then Throw
    else
      let k := xc + cut - 1 in
      if (n <? 1) || (k <? 1) then Throw
      else match dc_model d with
        | Binary =>
            do cs <- count_binary ys w;
            if qeqb (nth 0 cs 0%Qc) 0 || qeqb (nth 1 cs 0%Qc) 0 then Throw
            else if dc_k d <? k then Throw else Ok (Start cut numChoices k cs)
        | Ordered =>
            do cs <- count_ordered cut ys w;
            if existsb (fun c => qltb c tiny) cs then Throw
            else if dc_k d <? k then Throw else Ok (Start cut numChoices k cs)
        end.

(** ** The buffers. A block of [b_len] doubles from [b_pos]. *)
Record block := Block { b_pos : Z; b_len : Z }.
(** discrete_choice.cpp:84-105: Beta, BetaVar, Counts, BetaStd, BetaZ, BetaProb *)
Definition storage_blocks (k numChoices : Z) (details : bool) : list block :=
  [Block 0 k; Block k (k * k); Block (k + k * k) numChoices] ++
  (if details then [Block (k + k * k + numChoices) k; Block (k + k * k + numChoices + k) k; Block (k + k * k + numChoices + 2 * k) k] else []).
(** discrete_choice.cpp:192-200, 460-470: initial values; xb, (mu,) y0, x0 and the work of Ols *)
Definition prior_blocks (t : choice_model) (n k0 cut : Z) : list block :=
  match t with
  | Binary => [Block 0 n; Block n n; Block (2 * n) (n * k0); Block (2 * n + n * k0) (ols_work n k0)]
  | Ordered => [Block 0 n; Block n cut; Block (n + cut) n; Block (2 * n + cut) (n * k0); Block (2 * n + cut + n * k0) (ols_work n k0)]
  end.
(** discrete_choice.cpp:297-308, 584-599: estimation; xb, xi, vg, Hi, (mu,) and the work of Newton *)
Definition estimate_blocks (t : choice_model) (n k0 cut : Z) : list block :=
  let k := k0 + cut - 1 in
  match t with
  | Binary => [Block 0 n; Block n k; Block (n + k) k; Block (n + 2 * k) (k * k); Block (n + 2 * k + k * k) (newton_work k)]
  | Ordered => [Block 0 n; Block n k0; Block (n + k0) k; Block (n + k0 + k) (k * k); Block (n + k0 + k + k * k) (cut - 1);
                Block (n + k0 + k + k * k + cut - 1) (newton_work k)]
  end.
(** discrete_choice.cpp:1062-1063, 1099-1100 GetProbabilities for m rows: xb and mu *)
Definition predict_blocks (t : choice_model) (m cut : Z) : list block :=
  match t with Binary => [Block 0 m] | Ordered => [Block 0 m; Block m (cut - 1)] end.
