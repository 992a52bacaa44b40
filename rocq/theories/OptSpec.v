(** Specification of the optimizers. *)
From Verif Require Export OptModel StatSpec.
Local Open Scope Z_scope.

Definition at0 (l : list Qc) (i : Z) : Qc := nth (Z.to_nat i) l 0%Qc.
Definition dim (l : list Qc) : Z := Z.of_nat (length l).
Definition inner (a b : list Qc) : Qc := sum_to (dim a) (fun i => at0 a i * at0 b i)%Qc.
(** The symmetric matrix given by the lower triangle of h. *)
Definition sym (h : Z -> Z -> Qc) (i j : Z) : Qc := if j <=? i then h i j else h j i.
Definition quad (h : Z -> Z -> Qc) (v : list Qc) : Qc := sum_to (dim v) (fun i => sum_to (dim v) (fun j => at0 v i * h i j * at0 v j))%Qc.
Definition posdef (n : Z) (h : Z -> Z -> Qc) : Prop := forall v, dim v = n -> (exists i, at0 v i <> 0%Qc) -> (0 < quad h v)%Qc.
(** The contract of dposv with the lower triangle: a solution if the matrix is positive definite, and an error otherwise. *)
Definition posv_sound (posv : (Z -> Z -> Qc) -> list Qc -> option (list Qc)) : Prop :=
  forall h b d, posv h b = Some d -> length d = length b /\ posdef (dim b) (sym h) /\
    forall i, 0 <= i < dim b -> sum_to (dim b) (fun j => sym h i j * at0 d j)%Qc = at0 b i.
Definition posv_complete (n : Z) (posv : (Z -> Z -> Qc) -> list Qc -> option (list Qc)) : Prop :=
  forall h b, dim b = n -> posdef n (sym h) -> posv h b <> None.
(** x + t d *)
Definition move (t : Qc) (d x : list Qc) : list Qc := map (fun p => snd p + t * fst p)%Qc (combine d x).
(** ** Values *)
Definition vle (a b : val) : Prop := match a, b with Num p, Num q => (p <= q)%Qc | Num _, Inf => True | Inf, Inf => True | _, _ => False end.
(** Optional bounds *)
Definition bound (b : option (list Qc)) (i : Z) : option Qc := option_map (fun l => at0 l i) b.
Definition within (q : Qc) (lo up : option Qc) : Prop := (forall l, lo = Some l -> (l <= q)%Qc) /\ (forall u, up = Some u -> (q <= u)%Qc).
Definition inside_bounds (x : list Qc) (lower upper : option (list Qc)) : Prop := forall i, 0 <= i < dim x -> within (at0 x i) (bound lower i) (bound upper i).
Definition bounds_for (n : Z) (b : option (list Qc)) : Prop := forall l, b = Some l -> dim l = n.
(** y is x if it is within the bounds, and otherwise the bound that x violates. *)
Definition nearest (x y : Qc) (lo up : option Qc) : Prop :=
  within y lo up /\ (within x lo up -> y = x) /\ (forall l, lo = Some l -> (x < l)%Qc -> y = l) /\ (forall u, up = Some u -> (u < x)%Qc -> y = u).
(** ** The Nelder-Mead algorithm *)
Definition vlt (a b : val) : Prop := match a, b with Num p, Num q => (p < q)%Qc | Num _, Inf => True | _, _ => False end.
Definition is_number (v : val) : Prop := exists q, v = Num q.
(** c + a (x - c): the point c for a = 0 and the point x for a = 1 *)
Definition blend (c : list Qc) (a : Qc) (x : list Qc) : list Qc := map (fun p => fst p + a * (snd p - fst p))%Qc (combine c x).
(** The mean of n points of dimension n *)
Definition mean_point (n : Z) (ps : list (list Qc)) : list Qc := map (fun i => qsum (map (fun p => at0 p i) ps) / qz n)%Qc (upto n).
(** The starting point and, for each coordinate, the point in which one is added to the coordinate *)
Definition first_simplex (x : list Qc) : list (list Qc) :=
  x :: map (fun i => map (fun j => at0 x j + (if i =? j then 1 else 0))%Qc (upto (dim x))) (upto (dim x)).
(** Points with the largest (least) value: those with a NaN do not count. *)
Definition worst_of (f : list Qc -> val) (Sx : list (list Qc)) (w : list Qc) : Prop := In w Sx /\ f w <> Nan /\ forall p, In p Sx -> f p <> Nan -> vle (f p) (f w).
Definition best_of (f : list Qc -> val) (Sx : list (list Qc)) (b : list Qc) : Prop := In b Sx /\ is_number (f b) /\ forall p, In p Sx -> f p <> Nan -> vle (f b) (f p).
Definition reflected (o : nm_opt) (n : Z) (others : list (list Qc)) (w : list Qc) : list Qc := blend (mean_point n others) (- p_reflection o)%Qc w.
Definition expanded (o : nm_opt) (n : Z) (others : list (list Qc)) (w : list Qc) : list Qc := blend (mean_point n others) (p_expansion o) (reflected o n others w).
Definition contracted (o : nm_opt) (n : Z) (others : list (list Qc)) (w : list Qc) : list Qc := blend (mean_point n others) (p_contraction o) w.
(** One iteration: w is the worst point, l and r the points before and after it, b the best point. *)
Inductive nm_step (f : list Qc -> val) (o : nm_opt) (n : Z) : list (list Qc) -> list (list Qc) -> Prop :=
| StepExpand l w r b : worst_of f (l ++ w :: r) w -> best_of f (l ++ w :: r) b ->
    vlt (f (reflected o n (l ++ r) w)) (f b) -> vlt (f (expanded o n (l ++ r) w)) (f (reflected o n (l ++ r) w)) ->
    nm_step f o n (l ++ w :: r) (l ++ expanded o n (l ++ r) w :: r)
| StepReflectBest l w r b : worst_of f (l ++ w :: r) w -> best_of f (l ++ w :: r) b ->
    vlt (f (reflected o n (l ++ r) w)) (f b) -> ~ vlt (f (expanded o n (l ++ r) w)) (f (reflected o n (l ++ r) w)) ->
    nm_step f o n (l ++ w :: r) (l ++ reflected o n (l ++ r) w :: r)
| StepReflect l w r b p : worst_of f (l ++ w :: r) w -> best_of f (l ++ w :: r) b ->
    ~ vlt (f (reflected o n (l ++ r) w)) (f b) -> In p (l ++ r) -> vlt (f (reflected o n (l ++ r) w)) (f p) ->
    nm_step f o n (l ++ w :: r) (l ++ reflected o n (l ++ r) w :: r)
| StepContract l w r b : worst_of f (l ++ w :: r) w -> best_of f (l ++ w :: r) b ->
    ~ vlt (f (reflected o n (l ++ r) w)) (f b) -> (forall p, In p (l ++ r) -> ~ vlt (f (reflected o n (l ++ r) w)) (f p)) ->
    vlt (f (contracted o n (l ++ r) w)) (f w) -> nm_step f o n (l ++ w :: r) (l ++ contracted o n (l ++ r) w :: r)
| StepShrink l w r b : worst_of f (l ++ w :: r) w -> best_of f (l ++ w :: r) b ->
    ~ vlt (f (reflected o n (l ++ r) w)) (f b) -> (forall p, In p (l ++ r) -> ~ vlt (f (reflected o n (l ++ r) w)) (f p)) ->
    ~ vlt (f (contracted o n (l ++ r) w)) (f w) -> nm_step f o n (l ++ w :: r) (map (blend b (p_shrink o)) (l ++ w :: r)).
Inductive nm_steps (f : list Qc -> val) (o : nm_opt) (n : Z) : Z -> list (list Qc) -> list (list Qc) -> Prop :=
| StepsNil Sx : nm_steps f o n 0 Sx Sx
| StepsCons k Sx S1 S2 : nm_step f o n Sx S1 -> nm_steps f o n k S1 S2 -> nm_steps f o n (k + 1) Sx S2.
(** The difference of the largest and the least value is below the tolerance. *)
Definition nm_converged (f : list Qc -> val) (o : nm_opt) (Sx : list (list Qc)) : Prop :=
  exists w b vw vb, worst_of f Sx w /\ best_of f Sx b /\ f w = Num vw /\ f b = Num vb /\ (vw - vb < p_tol o)%Qc.
(** h decreases until m and increases from m. *)
Definition unimodal (h : Qc -> Qc) (m : Qc) : Prop :=
  (forall x y, x < y -> y <= m -> h y < h x)%Qc /\ (forall x y, m <= x -> x < y -> h x < h y)%Qc.
(** ** A quadratic objective: 1/2 x'Ax - b'x + c *)
Definition quadratic (a : Z -> Z -> Qc) (b : list Qc) (c : Qc) (x : list Qc) : Qc := (Q2Qc (1 # 2) * quad a x - inner b x + c)%Qc.
Definition quadratic_gradient (a : Z -> Z -> Qc) (b x : list Qc) : list Qc := map (fun i => sum_to (dim b) (fun j => a i j * at0 x j) - at0 b i)%Qc (upto (dim b)).
