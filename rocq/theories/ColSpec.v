(** Textbook statistics of lists and of the columns of a matrix; [None] is NaN. *)
From Verif Require Export MatSpec DescSpec.
Local Open Scope Qc_scope.

(** The elements of a matrix column after column, and of one column. *)
Definition elements (M : mat (option Qc)) : list (option Qc) := map (fun k => opel M (k mod nrows M) (k / nrows M)) (upto (nrows M * ncols M)).
Definition col_values (M : mat (option Qc)) (j : Z) : list (option Qc) := map (fun i => opel M i j) (upto (nrows M)).
Definition row_values (M : mat (option Qc)) (i : Z) : list (option Qc) := map (fun j => opel M i j) (upto (ncols M)).
Definition has_nan (l : list (option Qc)) : Prop := In None l.

(** Mean, variance (divisor n - 1 for a sample, otherwise n); NaN if not defined. *)
Definition mean_spec (l : list Qc) : option Qc := match l with [] => None | _ => Some (avg l) end.
Definition variance_spec (sample : bool) (l : list Qc) : option Qc :=
  if sample then match l with [] | [_] => None | _ => Some (var_sample l) end
  else match l with [] => None | _ => Some (var_pop l) end.
(** Sum of the products of the deviations; covariance. *)
Definition xs (P : list (Qc * Qc)) : list Qc := map fst P.
Definition ys (P : list (Qc * Qc)) : list Qc := map snd P.
Definition codev (P : list (Qc * Qc)) : Qc := qsum (map (fun p => (fst p - avg (xs P)) * (snd p - avg (ys P))) P).
Definition covariance_spec (sample : bool) (P : list (Qc * Qc)) : option Qc :=
  if sample then match P with [] | [_] => None | _ => Some (codev P / qz (Z.of_nat (length P) - 1)) end
  else match P with [] => None | _ => Some (codev P / qn (length P)) end.

(** Extremes: [a] is better than [b]; [m] at place [k] is the first best number of a list, of a matrix. *)
Definition better (bigger : bool) (a b : Qc) : Prop := if bigger then b < a else a < b.
Definition no_number (l : list (option Qc)) : Prop := forall k, In k l -> k = None.
Record first_best (bigger : bool) (l : list (option Qc)) (m : Qc) (k : Z) : Prop := {
  fb_in : oat l k = Some (Some m);
  fb_best : forall k' v, oat l k' = Some (Some v) -> ~ better bigger v m;
  fb_first : forall k' v, (k' < k)%Z -> oat l k' = Some (Some v) -> better bigger m v }.
Record first_best_at (bigger : bool) (M : mat (option Qc)) (m : Qc) (i j : Z) : Prop := {
  fa_inside : inside M i j;
  fa_in : opel M i j = Some m;
  fa_best : forall i' j' v, opel M i' j' = Some v -> ~ better bigger v m;
  fa_first : forall i' j' v, ((j' < j)%Z \/ j' = j /\ (i' < i)%Z) -> opel M i' j' = Some v -> better bigger m v }.

(** A statistic which is NaN as soon as one of the values is. *)
Definition is_nan (x : option Qc) : bool := match x with None => true | _ => false end.
Definition if_no_nan (l : list (option Qc)) (f : list Qc -> option Qc) : option Qc := if existsb is_nan l then None else f (present l).
Definition cov_no_nan (sample : bool) (M : mat (option Qc)) (j k : Z) : option Qc :=
  if existsb is_nan (col_values M j) || existsb is_nan (col_values M k) then None else covariance_spec sample (complete_pairs M j k).
(** The given numbers, or all below n if none is given. *)
Definition or_all (idx : list Z) (n : Z) : list Z := match idx with [] => upto n | _ => idx end.
