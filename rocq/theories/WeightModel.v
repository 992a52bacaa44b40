(** Model of the conversions between metrics and weights (/repo/src/ldt_statistics/scoring/scoring.cpp:52-185)
    and of the Box-Cox transformation (/repo/src/array.cpp:145-179). Floating point numbers are real numbers;
    a number that is NaN (or infinite) is [None]. *)
From Coq Require Export Reals List ZArith.
From Verif Require Export Base NamesModel.
Export ListNotations.
Local Open Scope R_scope.

(** std::log: NaN or infinite if not positive. *)
Definition log_ (x : R) : option R := if Rlt_dec 0 x then Some (ln x) else None.
(** exp(-0.5 * (metric - minMetric)); minMetric is NAN by default. *)
Definition exp_weight (m : R) (mn : option R) : option R := match mn with Some a => Some (exp (- (1 / 2) * (m - a))) | None => None end.
Definition exp_metric (w : R) (mn : option R) (scale : R) : option R :=
  match mn, log_ w with Some a, Some l => Some (-2 * l * scale + a) | _, _ => None end.
(** scoring.cpp:52-73 GoodnessOfFit::ToWeight *)
Definition gof_to_weight (t : gof) (m : R) (mn : option R) : option R :=
  match t with GAic | GSic | GBrier => exp_weight m mn | GAuc => Some m | GFrequencyCost => Some (1 - m) end.
(** scoring.cpp:75-91 GoodnessOfFit::FromWeight *)
Definition gof_from_weight (t : gof) (w : R) (mn : option R) : option R :=
  match t with GAic | GSic | GBrier => exp_metric w mn 1 | GAuc => Some w | GFrequencyCost => Some (1 - w) end.
(** scoring.cpp:93-106 GoodnessOfFit::IsPositiveOriented *)
Definition gof_positive (t : gof) : bool := match t with GAuc => true | _ => false end.
(** scoring.cpp:108-138 Scoring::ToWeight *)
Definition sc_to_weight (t : scoring) (m : R) (mn : option R) : option R :=
  match t with
  | SDirection | SSign => Some m
  | SMae | SRmse | SBrier | SCrps => exp_weight m mn
  | SMape | SRmspe => match mn with Some a => Some (exp (- (1 / 2) * (m - a) / 100)) | None => None end
  | SAuc => Some m
  | SFrequencyCost => Some (1 - m)
  end.
(** scoring.cpp:140-168 Scoring::FromWeight *)
Definition sc_from_weight (t : scoring) (w : R) (mn : option R) : option R :=
  match t with
  | SDirection | SSign => Some w
  | SMae | SRmse | SBrier | SCrps => exp_metric w mn 1
  | SMape | SRmspe => exp_metric w mn 100
  | SAuc => Some w
  | SFrequencyCost => Some (1 - w)
  end.
(** scoring.cpp:170-191 Scoring::IsPositiveOriented *)
Definition sc_positive (t : scoring) : bool := match t with SDirection | SSign | SAuc => true | _ => false end.

(** std::pow for real arguments: negative bases only with integer exponents. *)
Definition pow_ (x y : R) : option R :=
  if Rlt_dec 0 x then Some (Rpower x y)
  else if Req_EM_T x 0 then (if Rlt_dec 0 y then Some 0 else if Req_EM_T y 0 then Some 1 else None)
  else if Req_EM_T y (IZR (Int_part y)) then Some (powerRZ x (Int_part y)) else None.
(** array.cpp:145-153 BoxCox0 *)
Definition box_cox (v l : option R) : option R :=
  match l with
  | None => v
  | Some l => match v with
      | None => None
      | Some x => if Req_EM_T l 0 then log_ x else match pow_ x l with Some p => Some ((p - 1) / l) | None => None end
      end
  end.
(** array.cpp:155-163 BoxCoxInv0 *)
Definition box_cox_inv (v l : option R) : option R :=
  match l with
  | None => v
  | Some l => match v with
      | None => None
      | Some x => if Req_EM_T l 0 then Some (exp x) else pow_ (l * x + 1) (1 / l)
      end
  end.
(** array.cpp:165-179 BoxCox, BoxCoxInv: the first [n] elements of an array are replaced; reading outside
    the array is UB. *)
Fixpoint each (f : option R -> option R) (n : nat) (d : list (option R)) : res (list (option R)) :=
  match n, d with O, _ => Ok d | S n', a :: t => do t' <- each f n' t; Ok (f a :: t') | S _, [] => UB end.
Definition box_cox_array (d : list (option R)) (n : nat) (l : option R) : res (list (option R)) :=
  match l with None => Ok d | Some _ => each (fun v => box_cox v l) n d end.
Definition box_cox_inv_array (d : list (option R)) (n : nat) (l : option R) : res (list (option R)) :=
  match l with None => Ok d | Some _ => each (fun v => box_cox_inv v l) n d end.
