(** What an out-of-sample simulation of a system should report. *)
From Verif Require Export SurSimModel.
Local Open Scope Z_scope.

Section Spec.
Context (root : Qc -> fl) (binv : Qc -> Qc -> fl) (crps : Qc -> Qc -> fl).

(** The value in original units: the inverse transformation with the parameter of equation j, if there is one. *)
Definition original (ls : option (list fl)) (j : nat) (v : fl) : fl :=
  match ls with
  | None => v
  | Some ls => match nth j ls None, v with Some l, Some x => binv l x | _, _ => v end
  end.
(** The value of row i in column j. *)
Definition at_ (M : list (list fl)) (i j : nat) : fl := nth i (nth j M []) None.
(** m columns with n rows *)
Definition shape (m n : nat) (M : list (list fl)) : Prop := List.length M = m /\ forall j, (j < m)%nat -> List.length (nth j M []) = n.
Definition needs_variance (c : sset) : Prop := exists k, In k (ss_metrics c) /\ ~ In k [SMae; SMape; SRmse; SRmspe].
(** The metrics which are implemented for systems. *)
Definition implemented (k : scoring) : Prop := match k with SSign | SMae | SMape | SRmse | SRmspe | SCrps => True | _ => False end.

(** A draw is usable if it is estimated, its condition number is not too large, no variance is NaN (if they are needed) and no
    forecast error is NaN. *)
Definition usable (c : sset) (n : nat) (d : draw) : Prop :=
  match d with
  | Failed _ => False
  | Fitted cn y f v =>
    less (ss_maxcn c) cn = false /\
    (needs_variance c -> forall i j, (i < n)%nat -> (j < ss_m c)%nat -> at_ v i j <> None) /\
    forall i j, (i < n)%nat -> (j < ss_m c)%nat -> original (ss_lambdas c) j (at_ y i j) -f original (ss_lambdas c) j (at_ f i j) <> None
  end.
Definition usable_b (c : sset) (n : nat) (d : draw) : bool :=
  match d with
  | Failed _ => false
  | Fitted cn y f v =>
    negb (less (ss_maxcn c) cn) &&
    (negb (existsb requires_variance (ss_metrics c)) || forallb (fun j => forallb (fun i => negb (is_none (at_ v i j))) (seq 0 n)) (seq 0 (ss_m c))) &&
    forallb (fun j => forallb (fun i => negb (is_none (original (ss_lambdas c) j (at_ y i j) -f original (ss_lambdas c) j (at_ f i j)))) (seq 0 n)) (seq 0 (ss_m c))
  end.
(** One test observation: actual value, forecast and standard deviation, in original units. *)
Definition point (c : sset) (j i : nat) (d : draw) : fl * fl * fl :=
  match d with
  | Failed _ => (None, None, None)
  | Fitted _ y f v => (original (ss_lambdas c) j (at_ y i j), original (ss_lambdas c) j (at_ f i j), original (ss_lambdas c) j (fbind root (at_ v i j)))
  end.
(** All test observations of equation j in all usable draws. *)
Definition points (c : sset) (n j : nat) (ds : list draw) : list (fl * fl * fl) :=
  flat_map (fun d => map (fun i => point c j i d) (seq 0 n)) (filter (usable_b c n) ds).
(** The score of one observation. *)
Definition score (k : scoring) (p : fl * fl * fl) : fl :=
  let '(a, f, s) := p in
  match k with
  | SSign => match a, f with Some a, Some f => Some (if qltb 0 (a * f) then 1 else 0)%Qc | _, _ => Some 0%Qc end
  | SMae => fabs (a -f f)
  | SMape => fabs ((a -f f) /f a)
  | SRmse => (a -f f) *f (a -f f)
  | SRmspe => ((a -f f) /f a) *f ((a -f f) /f a)
  | SCrps => match a -f f, s with Some e, Some s => crps e s | _, _ => None end
  | _ => None
  end.
(** NaN if one of the values is NaN or there is none. *)
Definition mean_score (k : scoring) (ps : list (fl * fl * fl)) : fl := fsum (map (score k) ps) /f Some (qz (Z.of_nat (List.length ps))).
Definition summary (k : scoring) (v : fl) : fl :=
  match k with
  | SRmse => fbind root v
  | SMape => v *f Some (qz 100)
  | SRmspe => fbind root v *f Some (qz 100)
  | _ => v
  end.
(** Why a draw is not usable. *)
Definition why (c : sset) (n : nat) (d : draw) : option reason :=
  match d with
  | Failed msg => Some (RModel msg)
  | Fitted cn y f v =>
    if less (ss_maxcn c) cn then Some RCondition else
    if existsb requires_variance (ss_metrics c) && negb (forallb (fun j => forallb (fun i => negb (is_none (at_ v i j))) (seq 0 n)) (seq 0 (ss_m c))) then Some RVariance else
    if negb (usable_b c n d) then Some RErrors else None
  end.
(** What the caller has to provide: matrices of the right size and a parameter for each equation. *)
Definition well_shaped (c : sset) (n : nat) (d : draw) : Prop :=
  match d with Failed _ => True | Fitted _ y f v => shape (ss_m c) n y /\ shape (ss_m c) n f /\ shape (ss_m c) n v end.
Definition enough_lambdas (c : sset) : Prop := match ss_lambdas c with None => True | Some ls => (ss_m c <= List.length ls)%nat end.
Definition count_b {A} (p : A -> bool) (l : list A) : Z := Z.of_nat (List.length (filter p l)).
Definition errors_of (r : reason) (l : list (reason * Z)) : Z := fold_right Z.add 0 (map snd (filter (fun p => reason_eqb (fst p) r) l)).
End Spec.
