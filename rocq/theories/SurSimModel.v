(** Model of /repo/src/ldt_statistics/modeling/linear/sur_simulation.cpp, the out-of-sample simulation of systems of equations.
    A matrix is the list of its columns; [None] is NaN in the inputs, and NaN or infinite in the results; arithmetic is exact. The
    random split and the estimation of one iteration are an input ([draw]); the square root, the inverse Box-Cox transformation
    and the normal CRPS are parameters. Cancellation is not modelled. *)
From Verif Require Export ColModel NamesModel.
From Coq Require String.
Local Open Scope Z_scope.

(** scoring.cpp:39-50 RequiresVariance *)
Definition requires_variance (e : scoring) : bool := match e with SMae | SMape | SRmse | SRmspe => false | _ => true end.

(** What one iteration gives (sur_simulation.cpp:150-158): an exception with a message, or a condition number, the dependent
    variables in the testing sample, and the means and variances of the projections. *)
Inductive draw := Failed (msg : String.string) | Fitted (cn : dbl) (y means vars : list (list fl)).
(** The texts given to AddError: of the model, or one of those in sur_simulation.cpp:155, 172, 207. *)
Inductive reason := RModel (msg : String.string) | RCondition | RVariance | RErrors.
(** The arguments (sur_simulation.cpp:11-15, 96-101); [ss_n1] is the number of rows of the testing sample. *)
Record sset := SSet { ss_metrics : list scoring; ss_m : nat; ss_n1 : Z; ss_maxcn : dbl; ss_maxinv : Z; ss_lambdas : option (list fl); ss_keep : bool }.
(** Results, ValidCounts, ValidIters, invalidCounts, Errors *)
Record sst := SSt { st_res : list (list fl); st_counts : Z; st_iters : Z; st_inv : Z; st_errors : list (reason * Z) }.

Section Sim.
Context (root : Qc -> fl) (binv : Qc -> Qc -> fl) (crps : Qc -> Qc -> fl).

Definition is_none (a : fl) : bool := match a with None => true | Some _ => false end.
Definition fbind (f : Qc -> fl) (a : fl) : fl := match a with Some x => f x | None => None end.
Definition fabs (a : fl) : fl := match a with Some x => Some (if qltb x 0 then - x else x)%Qc | None => None end.

(** sur_simulation.cpp:26-31 mDoForecastVar *)
Definition do_var (c : sset) : bool := existsb requires_variance (ss_metrics c).

Definition reason_eqb (a b : reason) : bool :=
  match a, b with
  | RModel s, RModel t => String.eqb s t
  | RCondition, RCondition | RVariance, RVariance | RErrors, RErrors => true
  | _, _ => false
  end.
(** sur_simulation.cpp:51-61 AddError; the order of std::map is not modelled. *)
Fixpoint count_up (r : reason) (l : list (reason * Z)) : list (reason * Z) :=
  match l with
  | [] => [(r, 1)]
  | (k, n) :: t => if reason_eqb k r then (k, n + 1) :: t else (k, n) :: count_up r t
  end.
Definition add_error (keep : bool) (r : reason) (l : list (reason * Z)) : list (reason * Z) :=
  if keep then (if reason_eqb r (RModel String.EmptyString) then l else count_up r l) else l.

Definition zip4 (a e f s : list fl) : list (fl * (fl * (fl * fl))) := combine a (combine e (combine f s)).
(** sur_simulation.cpp:63-94 sumScores; a comparison with NaN is false. *)
Definition sum_scores (k : scoring) (a e f s : list fl) : res fl :=
  match k with
  | SSign => Ok (fsum (map (fun '(a, (_, (f, _))) => Some (match a *f f with Some v => if qltb 0 v then 1 else 0 | None => 0 end)%Qc) (zip4 a e f s)))
  | SMae => Ok (fsum (map (fun '(_, (e, _)) => fabs e) (zip4 a e f s)))
  | SMape => Ok (fsum (map (fun '(a, (e, _)) => fabs (e /f a)) (zip4 a e f s)))
  | SRmse => Ok (fsum (map (fun '(_, (e, _)) => e *f e) (zip4 a e f s)))
  | SRmspe => Ok (fsum (map (fun '(a, (e, _)) => (e /f a) *f (e /f a)) (zip4 a e f s)))
  | SCrps => Ok (fsum (map (fun '(_, (e, (_, s))) => match e, s with Some e, Some s => crps e s | _, _ => None end) (zip4 a e f s)))
  | _ => Throw
  end.

(** array.cpp:155-179 BoxCoxInv: nothing for a NaN parameter. *)
Definition box_inv (l : fl) (col : list fl) : list fl := match l with None => col | Some lam => map (fbind (binv lam)) col end.
(** sur_simulation.cpp:181-199: column j with boxCoxLambdas->at(j). *)
Fixpoint box_cols (ls : list fl) (cols : list (list fl)) : res (list (list fl)) :=
  match cols, ls with
  | [], _ => Ok []
  | _ :: _, [] => Throw
  | c :: cs, l :: ls => do t <- box_cols ls cs; Ok (box_inv l c :: t)
  end.
Definition box_all (ls : option (list fl)) (cols : list (list fl)) : res (list (list fl)) :=
  match ls with None => Ok cols | Some ls => box_cols ls cols end.

Fixpoint map2 {A B C} (f : A -> B -> C) (l : list A) (r : list B) : list C :=
  match l, r with a :: l, b :: r => f a b :: map2 f l r | _, _ => [] end.
(** sur_simulation.cpp:219-233: the scores of one iteration, added to the results. *)
Fixpoint add_row (k : scoring) (acc : list fl) (a e f s : list (list fl)) : res (list fl) :=
  match acc, a, e, f, s with
  | r :: acc, a1 :: a, e1 :: e, f1 :: f, s1 :: s => do v <- sum_scores k a1 e1 f1 s1; do t <- add_row k acc a e f s; Ok ((r +f v) :: t)
  | _, _, _, _, _ => Ok []
  end.
Fixpoint add_rows (ks : list scoring) (acc : list (list fl)) (a e f s : list (list fl)) : res (list (list fl)) :=
  match ks, acc with
  | k :: ks, r :: acc => do v <- add_row k r a e f s; do t <- add_rows ks acc a e f s; Ok (v :: t)
  | _, _ => Ok []
  end.

(** sur_simulation.cpp:143-234: one iteration. *)
Definition sim_step (c : sset) (s : sst) (d : draw) : res sst :=
  let err r := Ok (SSt (st_res s) (st_counts s) (st_iters s) (st_inv s + 1) (add_error (ss_keep c) r (st_errors s))) in
  match d with
  | Failed msg => err (RModel msg)
  | Fitted cn y means vars =>
    if less (ss_maxcn c) cn then err RCondition else
    if do_var c && existsb is_none (concat vars) then err RVariance else
    do y' <- box_all (ss_lambdas c) y;
    do m' <- box_all (ss_lambdas c) means;
    do s' <- (if do_var c then box_all (ss_lambdas c) (map (map (fbind root)) vars) else Ok (map (map (fun _ => None)) means));
    let e := map2 (map2 fsub) y' m' in
    if existsb is_none (concat e) then err RErrors else
    let inv := st_inv s + 1 - 1 in
    if ss_maxinv c <? inv then Throw else
    do r <- add_rows (ss_metrics c) (st_res s) y' e m' s';
    Ok (SSt r (st_counts s + ss_n1 c) (st_iters s + 1) inv (st_errors s))
  end.
Fixpoint sim_loop (c : sset) (s : sst) (ds : list draw) : res sst :=
  match ds with [] => Ok s | d :: t => do s <- sim_step c s d; sim_loop c s t end.

(** sur_simulation.cpp:239-256: the mean, the root and the percentage. *)
Definition finish (n : Z) (k : scoring) (v : fl) : fl :=
  let v := v /f Some (qz n) in
  let v := match k with SRmse | SRmspe => fbind root v | _ => v end in
  match k with SMape | SRmspe => v *f Some (qz 100) | _ => v end.
(** sur_simulation.cpp:96-257 Calculate; [ds] are the maxIteration draws. *)
Definition sim_calculate (c : sset) (ds : list draw) : res sst :=
  if Z.of_nat (List.length ds) <=? 0 then Throw else
  do s <- sim_loop c (SSt (repeat (repeat (Some 0%Qc) (ss_m c)) (List.length (ss_metrics c))) 0 0 0 []) ds;
  if ss_maxinv c <? st_inv s then Throw else
  Ok (SSt (map2 (fun k r => map (finish (st_counts s) k) r) (ss_metrics c) (st_res s)) (st_counts s) (st_iters s) (st_inv s) (st_errors s)).
End Sim.
