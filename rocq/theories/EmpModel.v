(** Model of /repo/src/ldt_statistics/distributions/empirical103.cpp: a distribution given by 103 quantiles. Numbers are
    exact; a table is the memory from [Quantiles] on. *)
From Coq Require Export Qround.
From Verif Require Export OptModel.
Local Open Scope Qc_scope.

(** A double argument or result *)
Inductive number := Fin (q : Qc) | PInf | NInf | NotNum.
Definition p4 : Qc := Q2Qc (1 # 10000).
Definition p3 : Qc := Q2Qc (1 # 1000).
Definition p2 : Qc := Q2Qc (1 # 100).
Definition u4 : Qc := Q2Qc (9999 # 10000).
Definition u3 : Qc := Q2Qc (999 # 1000).
Definition u2 : Qc := Q2Qc (99 # 100).
(** a / b; a division by zero is NaN or infinite: all of these are [None] *)
Definition div (a b : Qc) : option Qc := if qeqb b 0 then None else Some (a / b).
(** empirical103.cpp:40-44 the loop that looks for the position, from [i], [fuel] = 103 - i; [d] is the last element that was read *)
Fixpoint scan (t : list Qc) (x : Qc) (fuel : nat) (i : Z) (d : Qc) : res (Z * Qc) :=
  match fuel with
  | O => Ok (i, d)
  | S n => do d <- rd t i; if qleb x d then Ok (i, d) else scan t x n (i + 1)%Z d
  end.
(** empirical103.cpp:46-61 the step h and the probability y at position i *)
Definition step_prob (i : Z) : Qc * Qc :=
  if (i =? 1)%Z then (p3 - p4, p3)
  else if (i =? 102)%Z then (u4 - u3, u4)
  else if (i =? 2)%Z then (p2 - p3, p2)
  else if (i =? 101)%Z then (u3 - u2, u3)
  else (p2, qz (i - 1) / qz 100).
(** empirical103.cpp:18-66 GetCDFApprox for a number *)
Definition cdf_num (t : list Qc) (x : Qc) : res (option Qc) :=
  do q0 <- rd t 0%Z;
  if qleb x q0 then
    do q1 <- rd t 1%Z;
    Ok (match div ((x - q0) * (p3 - p4)) (q1 - q0) with Some shift => Some (p4 - shift) | None => None end)
  else
    do q102 <- rd t 102%Z;
    if qleb q102 x then
      do q101 <- rd t 101%Z;
      Ok (match div ((x - q102) * (u4 - u3)) (q102 - q101) with Some shift => Some (u4 - shift) | None => None end)
    else
      do s <- scan t x 102 1%Z 0;
      let (i, d) := s in let (h, y) := step_prob i in
      do qi <- rd t i; do qb <- rd t (i - 1)%Z;
      Ok (match div ((d - x) * h) (qi - qb) with Some shift => Some (y - shift) | None => None end).
(** empirical103.cpp:18-66 GetCDFApprox. All comparisons with NaN are false: the loop ends at i = 103 and Quantiles[103] is read. *)
Definition cdf_approx (t : list Qc) (x : number) : res (option Qc) :=
  match x with
  | Fin q => cdf_num t q
  | PInf => Ok (Some 1)
  | NInf => Ok (Some 0)
  | NotNum => do _ <- rd t 0%Z; do _ <- rd t 102%Z; do _ <- rd t 103%Z; Ok None
  end.
(** empirical103.cpp:68-117 GetQuantileApprox, for a number p; floor(p * 100) / 100 * 100 is exact *)
Definition quantile_approx (t : list Qc) (p : Qc) : res number :=
  if qleb p 0 then Ok NInf else if qleb 1 p then Ok PInf else
  if qleb p p4 then
    do q1 <- rd t 1%Z; do q0 <- rd t 0%Z; Ok (Fin (q0 + (p - p4) * (q1 - q0) / (p3 - p4)))
  else if qleb u4 p then
    do q102 <- rd t 102%Z; do q101 <- rd t 101%Z; Ok (Fin (q102 + (p - u4) * (q102 - q101) / (u4 - u3)))
  else
    let '(i, d, h) :=
      (if qltb p p3 then (0%Z, p4, p3 - p4)
       else if qltb u3 p then (101%Z, u3, u4 - u3)
       else if qltb p p2 then (1%Z, p3, p2 - p3)
       else if qltb u2 p then (100%Z, u2, u3 - u2)
       else let f := Qfloor (this (p * qz 100)) in ((f + 1)%Z, qz f / qz 100, p2)) in
    do a <- rd t (i + 1)%Z; do b <- rd t i;
    Ok (Fin (b + (p - d) * (a - b) / h)).
(** empirical103.cpp:138-149 the objective: the distance of the weighted sum of distribution functions from [prob];
    [dw] has the tables with their weights *)
Fixpoint weighted (dw : list (list Qc * Qc)) (x : Qc) (wa : Qc) : option Qc :=
  match dw with
  | [] => Some wa
  | (t, w) :: r => match cdf_num t x with Ok (Some c) => weighted r x (wa + w * c) | _ => None end
  end.
Definition objective (dw : list (list Qc * Qc)) (prob x : Qc) : val :=
  match weighted dw x 0 with Some wa => Num (qabs (wa - prob)) | None => Nan end.
(** empirical103.cpp:155-159 *)
Definition prob_of (i : Z) : Qc :=
  if (i =? 0)%Z then p4 else if (i =? 1)%Z then p3 else if (i =? 101)%Z then u3 else if (i =? 102)%Z then u4 else qz (i - 1) / qz 100.
(** empirical103.cpp:161-167 the smallest first element; None is INFINITY *)
Fixpoint smallest (ts : list (list Qc)) (mi : option Qc) : res (option Qc) :=
  match ts with
  | [] => Ok mi
  | t :: r => do q <- rd t 0%Z; smallest r (match mi with None => Some q | Some m => if qltb q m then Some q else Some m end)
  end.
(** empirical103.cpp:154-171 from element [i] on *)
Fixpoint combine_loop (dw : list (list Qc * Qc)) (fuel : nat) (i : Z) (start : Qc) : list Qc :=
  match fuel with
  | O => []
  | S n => let s := fst (minimize1 (objective dw (prob_of i)) start (Q2Qc (1 # 10)) 500 (Q2Qc (1 # 100000000)) (Some start) None) in
           s :: combine_loop dw n (i + 1)%Z s
  end.
(** [n] elements of an array, from [i] on *)
Fixpoint read_n (t : list Qc) (n : nat) (i : Z) : res (list Qc) :=
  match n with O => Ok [] | S m => do x <- rd t i; do r <- read_n t m (i + 1)%Z; Ok (x :: r) end.
(** empirical103.cpp:119-171 Combine; the tables must have 103 elements (UB otherwise, which C++ has only where it reads them) *)
Definition combine_emp (ts : list (list Qc)) (weights : option (list Qc)) : res (list Qc) :=
  match ts with
  | [] => Throw
  | [t] => read_n t 103 0%Z
  | _ =>
      if negb (forallb (fun t => Nat.leb 103 (List.length t)) ts) then UB else
      do ws <- (match weights with None => Ok (repeat (1 / qn (List.length ts)) (List.length ts)) | Some w => read_n w (List.length ts) 0%Z end);
      do mi <- smallest ts None;
      match mi with None => UB | Some start => Ok (combine_loop (combine ts ws) 103 0%Z start) end
  end.
