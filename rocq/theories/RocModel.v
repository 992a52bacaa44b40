(** Model of /repo/src/ldt_math/auc.cpp and /repo/src/ldt_statistics/scoring/roc.cpp. Floating point
    numbers are rationals; a result that is not finite (a division by zero) is [None]. *)
From Verif Require Export SortModel.
Local Open Scope Qc_scope.

Definition qabs (x : Qc) : Qc := if qltb x 0 then - x else x.
Notation point := (Qc * Qc)%type.
(** auc.cpp:19-33 the loop of AucPoints. *)
Fixpoint auc_loop (vert : bool) (base : Qc) (ps : list point) (x0 y0 r : Qc) : Qc :=
  match ps with
  | [] => r
  | (x, y) :: t =>
      let dx := x - x0 in let dy := y - y0 in
      auc_loop vert base t x y (r + (if vert then dy * (x0 - base + dx / qz 2) else dx * (y0 - base + dy / qz 2)))
  end.
(** auc.cpp:11-34 AucPoints *)
Definition auc_points (vert : bool) (base : Qc) (ps : list point) : Qc :=
  match ps with [] => 0 | [_] => 0 | (x, y) :: _ => auc_loop vert base ps x y 0 end.

(** scoring.h:318-349 RocOptions: a threshold that is NaN, Costs or CostMatrix without Data are None. *)
Record roc_options := { o_normalize : bool; o_lower : option Qc; o_upper : option Qc; o_eps : Qc; o_pessimistic : bool;
  o_costs : option (list Qc); o_matrix : option (nat * nat * list Qc) }.
(** Reading an array. *)
Definition elt (l : list Qc) (i : nat) : res Qc := match nth_error l i with Some x => Ok x | None => UB end.

Record roc_state := { s_pre : Qc; s_fp : Qc; s_tp : Qc; s_h : Qc; s_v : Qc; s_pts : list point }.
(** roc.cpp:65-74 a new threshold. *)
Definition roc_push (o : roc_options) (th : Qc) (s : roc_state) : roc_state :=
  if qltb (o_eps o) (qabs (th - s_pre s)) then
    let tp := s_tp s + s_v s in let fp := s_fp s + s_h s in
    {| s_pre := th; s_fp := fp; s_tp := tp; s_h := 0; s_v := 0;
       s_pts := s_pts s ++ (if o_pessimistic o then [(fp, 0)] else []) ++ [(fp, tp)] |}
  else s.
(** roc.cpp:79-106 the size of the move of one observation. *)
Definition roc_move (o : roc_options) (has_cost neg : bool) (w : Qc) (ind : nat) : res Qc :=
  if has_cost then
    match o_matrix o with
    | None => UB
    | Some (_, _, c) =>
        do xi <- match o_costs o with Some cs => elt cs ind | None => Ok 1 end;
        do c0 <- elt c 0; do c2 <- elt c 2;
        let b_tp := c0 * xi - c2 in
        if qltb b_tp 0 then Throw
        else do c1 <- elt c 1; do c3 <- elt c 3;
             let c_fp := - (c1 * xi - c3) in
             if qltb c_fp 0 then Throw else Ok (if neg : bool then w * c_fp else w * b_tp)
    end
  else Ok w.
(** roc.cpp:56-110 the loop. *)
Fixpoint roc_loop (o : roc_options) (has_cost : bool) (y sc : list Qc) (ws : option (list Qc)) (inds : list nat) (s : roc_state) : res roc_state :=
  match inds with
  | [] => Ok s
  | ind :: t =>
      do th <- elt sc ind; do yi <- elt y ind;
      do w <- match ws with Some l => elt l ind | None => Ok 1 end;
      let s1 := roc_push o th s in
      let neg := qeqb yi 0 in
      do m <- roc_move o has_cost neg w ind;
      roc_loop o has_cost y sc ws t
        {| s_pre := s_pre s1; s_fp := s_fp s1; s_tp := s_tp s1; s_pts := s_pts s1;
           s_h := if neg then s_h s1 + m else s_h s1; s_v := if neg then s_v s1 else s_v s1 + m |}
  end.
(** roc.cpp:127-155 the points between the thresholds; the slope is only used where x <> x0. *)
Definition clip_step (lo up : Qc) (p0 p : point) : list point :=
  let '(x0, y0) := p0 in let '(x, y) := p in let slope := (y - y0) / (x - x0) in
  if qleb lo x && qleb x0 up then
    (if qltb lo x && qltb x0 lo then [(lo, y0 + (lo - x0) * slope)] else []) ++
    (if qleb lo x && qleb x up then [(x, y)] else []) ++
    (if qltb up x && qltb x0 up then [(up, y - (x - up) * slope)] else [])
  else [].
Fixpoint clip_loop (lo up : Qc) (p0 : point) (ps : list point) : list point :=
  match ps with [] => [] | p :: t => clip_step lo up p0 p ++ clip_loop lo up p t end.

Record roc_result := { r_auc : option Qc; r_points : option (list point) }.
Definition check_bounds (o : roc_options) : res unit :=
  match o_lower o, o_upper o with
  | Some lo, Some up => if qltb up lo || qltb 1 up || qltb lo 0 then Throw else Ok tt
  | _, _ => Ok tt
  end.
Definition check_matrix (o : roc_options) (has_cost : bool) : res unit :=
  if has_cost then match o_matrix o with Some (2%nat, 2%nat, _) => Ok tt | _ => Throw end else Ok tt.
(** roc.cpp:112-171 the result, given all points and the totals. *)
Definition roc_finish (o : roc_options) (pts : list point) (fp tp : Qc) : roc_result :=
  let none := {| r_auc := None; r_points := None |} in
  let normal := map (fun p => (fst p / fp, snd p / tp)) pts in
  match o_lower o, o_upper o with
  | Some lo, Some up =>
      if qeqb fp 0 || qeqb tp 0 then none
      else {| r_auc := if qeqb up lo then None else Some (auc_points false 0 (clip_loop lo up (0, 0) normal) / (up - lo)); r_points := Some normal |}
  | _, _ =>
      if o_normalize o then if qeqb fp 0 || qeqb tp 0 then none else {| r_auc := Some (auc_points false 0 normal); r_points := Some normal |}
      else {| r_auc := if qeqb (fp * tp) 0 then None else Some (auc_points false 0 pts / (fp * tp)); r_points := Some pts |}
  end.
(** roc.cpp:17-172 Calculate; [ws] is given iff hasWeight. *)
Definition roc_calculate (o : roc_options) (has_cost : bool) (y sc : list Qc) (ws : option (list Qc)) : res roc_result :=
  do _ <- check_bounds o; do _ <- check_matrix o has_cost;
  let n := length y in
  if (n =? 0)%nat then Throw
  else if (length sc <? n)%nat then UB
  else
    let inds := sort_indexes true (firstn n sc) in
    do th0 <- elt sc (hd 0%nat inds);
    do s <- roc_loop o has_cost y sc ws inds {| s_pre := th0; s_fp := 0; s_tp := 0; s_h := 0; s_v := 0; s_pts := [(0, 0)] |};
    let tp := s_tp s + s_v s in let fp := s_fp s + s_h s in
    Ok (roc_finish o (s_pts s ++ [(fp, tp)]) fp tp).
