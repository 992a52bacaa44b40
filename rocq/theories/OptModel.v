(** Model of /repo/src/ldt_math/optimization/newton.cpp and nelder_mead.cpp. Points are lists of exact numbers; functions
    may return NaN or infinity, or throw (Nelder-Mead). LAPACK's dposv is an oracle. *)
From Verif Require Export Num MatModel.
Local Open Scope Z_scope.

(** ** Vectors *)
Fixpoint map2 {A B C} (f : A -> B -> C) (l : list A) (m : list B) : list C :=
  match l, m with x :: l', y :: m' => f x y :: map2 f l' m' | _, _ => [] end.
(** matrix_la.cpp:38-53 VectorDotVector0 *)
Definition vdot (a b : list Qc) : Qc := qsum (map2 Qcmult a b).

(** ** Newton *)
(** The value of the objective: a number, or NaN. The gradient is None if it has a NaN or an infinite element. *)
Record problem := Prob { fval : list Qc -> option Qc; fgrad : list Qc -> option (list Qc); fhess : list Qc -> Z -> Z -> Qc }.
Definition c1 : Qc := Q2Qc (1 # 10000).
Definition c2 : Qc := Q2Qc (9 # 10).
Definition half_sum (a b : Qc) : Qc := (Q2Qc (1 # 2) * (a + b))%Qc.
(** newton.cpp:51-77 the loop of the line search from Iteration = i (fuel: maxIterations - i); beta = None is infinity.
    The result is the new point, value and gradient (or None), and beta. *)
Fixpoint wolfe_loop (P : problem) (d x0 : list Qc) (vf0 : option Qc) (gd0 : option Qc) (fuel : nat) (alpha : Qc) (beta : option Qc) (t : Qc)
  : option (list Qc * option Qc * option (list Qc)) * option Qc * nat :=
  match fuel with
  | O => (None, beta, O)
  | S n =>
      let w := map2 (fun di xi => (t * di + xi)%Qc) d x0 in
      let fv := fval P w in
      let armijo := match fv, vf0, gd0 with
                    | None, _, _ => false
                    | Some v, Some v0, Some g => negb (qltb (v0 + c1 * t * g) v)
                    | Some _, _, _ => true (* a comparison with NaN is false *)
                    end in
      if negb armijo then wolfe_loop P d x0 vf0 gd0 n alpha (Some t) (half_sum alpha t)
      else
        let g := fgrad P w in
        let curvature := match g, gd0 with
                         | None, _ => false
                         | Some g, Some g0 => negb (qltb (vdot d g) (c2 * g0))
                         | Some _, None => true
                         end in
        if negb curvature then
          wolfe_loop P d x0 vf0 gd0 n t beta (match beta with None => (1 + 1) * t | Some b => half_sum t b end)%Qc
        else (Some (w, fv, g), beta, fuel)
  end.
(** newton.cpp:37-90, 141-143 with t = 1 and 100 iterations (99 are done). *)
Definition wolfe_weak (P : problem) (d x0 : list Qc) (vf0 : option Qc) (g0 : option (list Qc)) : res (list Qc * option Qc * option (list Qc)) :=
  match wolfe_loop P d x0 vf0 (option_map (vdot d) g0) 99 0%Qc None 1%Qc with
  | (Some r, _, _) => Ok r
  | (None, None, _) => Throw
  | (None, Some _, _) => Ok (x0, vf0, g0)
  end.
Record newton_opt := NOpt { n_tolf : Qc; n_tolg : Qc; n_line : bool }.
(** newton.cpp:123-130: sqrt(sum) < tol for tol > 0 is sum < tol^2. A NaN or infinite element makes the norm NaN or infinite. *)
Definition small_gradient (o : newton_opt) (g : list Qc) : bool := qltb (vdot g g) (n_tolg o * n_tolg o)%Qc.
Definition qabs (q : Qc) : Qc := if qltb q 0 then (- q)%Qc else q.
(** newton.cpp:150-154 *)
Definition small_change (o : newton_opt) (pre v : option Qc) : bool :=
  qltb 0 (n_tolf o) && match pre, v with Some a, Some b => qltb (qabs (a - b)) (n_tolf o) | _, _ => false end.
(** newton.cpp:119-158; [posv H b] is the solution of H d = b by the Cholesky method, None if info <> 0; fuel:
    IterationMax - Iteration (IterationMax >= 0). A NaN in the gradient makes dposv return NaN; without the gradient
    tolerance the line search then cannot accept a point: modelled as UB, it does not occur in the theorems. *)
Fixpoint newton_loop (posv : (Z -> Z -> Qc) -> list Qc -> option (list Qc)) (P : problem) (o : newton_opt) (fuel : nat)
  (x : list Qc) (v : option Qc) (g : option (list Qc)) (it : Z) : res (list Qc * option Qc * option (list Qc) * Z) :=
  match fuel with
  | O => Ok (x, v, g, it)
  | S n =>
      let checkg := qltb 0 (n_tolg o) in
      match g with
      | None => if checkg then Throw else UB
      | Some gv =>
          if checkg && small_gradient o gv then Ok (x, v, g, it)
          else match posv (fhess P x) (map (fun q => (- (1) * q)%Qc) gv) with
               | None => Throw
               | Some d =>
                   do r <- (if n_line o then wolfe_weak P d x v g
                            else let x' := map2 Qcplus x d in Ok (x', fval P x', g));
                   let '(x', v', g') := r in
                   if small_change o v v' then Ok (x', v', g', it) else newton_loop posv P o n x' v' g' (it + 1)
               end
      end
  end.
(** newton.cpp:92-118 *)
Definition newton (posv : (Z -> Z -> Qc) -> list Qc -> option (list Qc)) (P : problem) (o : newton_opt) (max : nat) (x0 : list Qc)
  : res (list Qc * option Qc * option (list Qc) * Z) :=
  newton_loop posv P o max x0 (fval P x0) (fgrad P x0) 0.

(** ** Nelder-Mead *)
(** Values; minus infinity is not modelled. *)
Inductive val := Num (q : Qc) | Inf | Nan.
(** IEEE comparison: false if a NaN is compared. *)
Definition vltb (a b : val) : bool :=
  match a, b with Num p, Num q => qltb p q | Num _, Inf => true | _, _ => false end.
Definition vadd (a : val) (q : Qc) : val := match a with Num p => Num (p + q)%Qc | v => v end.
(** array.h:449-472, 496-520 MinIndex, MaxIndex: index -1 if no element is below infinity (above minus infinity). *)
Fixpoint min_index (l : list val) (i : Z) (m : val) (index : Z) : Z :=
  match l with [] => index | d :: t => if vltb d m then min_index t (i + 1) d i else min_index t (i + 1) m index end.
Definition above (m : option val) (d : val) : bool := match m, d with _, Nan => false | None, _ => true | Some m, d => vltb m d end.
Fixpoint max_index (l : list val) (i : Z) (m : option val) (index : Z) : Z :=
  match l with [] => index | d :: t => if above m d then max_index t (i + 1) (Some d) i else max_index t (i + 1) m index end.
(** nelder_mead.cpp:10-32; the bounds are absent or arrays (of the length of x). *)
Fixpoint penalty (x : list Qc) (lower upper : option (list Qc)) : Qc :=
  match x with
  | [] => 0%Qc
  | xi :: t =>
      let lo := match lower with Some (l :: _) => Some l | _ => None end in
      let up := match upper with Some (u :: _) => Some u | _ => None end in
      let above_ := match up with Some u => if qltb u xi then (xi - u) * (xi - u) else 0 | None => 0 end%Qc in
      let p := match lo with Some l => if qltb xi l then (l - xi) * (l - xi) else above_ | None => above_ end%Qc in
      (p + penalty t (option_map (@tl Qc) lower) (option_map (@tl Qc) upper))%Qc
  end.
(** nelder_mead.cpp:40-55 the starting point, element by element; an error if a lower bound is above the upper bound. *)
Fixpoint clamp (x : list Qc) (lower upper : option (list Qc)) : res (list Qc) :=
  match x with
  | [] => Ok []
  | xi :: t =>
      let lo := match lower with Some (l :: _) => Some l | _ => None end in
      let up := match upper with Some (u :: _) => Some u | _ => None end in
      if match lo, up with Some l, Some u => qltb u l | _, _ => false end then Throw
      else
        let x1 := match lo with Some l => if qltb xi l then l else xi | None => xi end in
        let x2 := match up with Some u => if qltb u x1 then u else x1 | None => x1 end in
        do r <- clamp t (option_map (@tl Qc) lower) (option_map (@tl Qc) upper); Ok (x2 :: r)
  end.
(** nelder_mead.cpp:57-64; an exception (None) is infinity. *)
Definition penalized (objective : list Qc -> option val) (lower upper : option (list Qc)) (mult : Qc) (x : list Qc) : val :=
  match objective x with Some v => vadd v (mult * penalty x lower upper)%Qc | None => Inf end.
Record nm_opt := NM { p_reflection : Qc; p_expansion : Qc; p_contraction : Qc; p_shrink : Qc; p_tol : Qc }.
Definition nm_default : nm_opt := NM 1 (1 + 1) (Q2Qc (1 # 2)) (Q2Qc (1 # 2)) (Q2Qc (1 # 1000000)).
(** c + a (x - c) *)
Definition toward (c : list Qc) (a : Qc) (x : list Qc) : list Qc := map2 (fun ci xi => (ci + a * (xi - ci))%Qc) c x.
(** nelder_mead.cpp:75-80 *)
Definition vertex (start : list Qc) (i : nat) : list Qc :=
  match i with O => start | S k => upd k (nth k start 0 + 1)%Qc start end.
Definition simplex0 (start : list Qc) : list (list Qc) := map (vertex start) (seq 0 (S (length start))).
(** The elements without that at index i. *)
Definition without {A} (i : Z) (l : list A) : list A := firstn (Z.to_nat i) l ++ skipn (S (Z.to_nat i)) l.
(** nelder_mead.cpp:103-112 *)
Definition centroid (n : nat) (ps : list (list Qc)) : list Qc :=
  map (fun s => (s / qz (Z.of_nat n))%Qc) (fold_left (map2 Qcplus) ps (repeat 0%Qc n)).
Definition replace {A} (i : Z) (v : A) (l : list A) : list A := upd (Z.to_nat i) v l.
(** nelder_mead.cpp:193-201: all points but the best, from index i. *)
Fixpoint shrink_points (a : Qc) (best : Z) (b : list Qc) (i : Z) (Sx : list (list Qc)) : list (list Qc) :=
  match Sx with [] => [] | p :: t => (if i =? best then p else toward b a p) :: shrink_points a best b (i + 1) t end.
Fixpoint shrink_values (f : list Qc -> val) (best : Z) (i : Z) (Sx : list (list Qc)) (V : list val) : list val :=
  match Sx, V with p :: t, v :: w => (if i =? best then v else f p) :: shrink_values f best (i + 1) t w | _, _ => [] end.
Definition shrink (f : list Qc -> val) (a : Qc) (best : Z) (b : list Qc) (Sx : list (list Qc)) (V : list val) : list (list Qc) * list val :=
  let Sx' := shrink_points a best b 0 Sx in (Sx', shrink_values f best 0 Sx' V).
(** nelder_mead.cpp:95-206; fuel: MaxIteration - Iter. *)
Fixpoint nm_loop (f : list Qc -> val) (o : nm_opt) (n : nat) (fuel : nat) (Sx : list (list Qc)) (V : list val) (iter : Z)
  : res (list (list Qc) * list val * Z) :=
  match fuel with
  | O => Ok (Sx, V, iter)
  | S m =>
      let worst := max_index V 0 None (-1) in let best := min_index V 0 Inf (-1) in
      do vw <- rd V worst; do vb <- rd V best;
      if match vw, vb with Num a, Num b => qltb (qabs (a - b)) (p_tol o) | _, _ => false end then Ok (Sx, V, iter)
      else
        do pw <- rd Sx worst; do pb <- rd Sx best;
        let c := centroid n (without worst Sx) in
        let r := map2 (fun ci xi => (ci + p_reflection o * (ci - xi))%Qc) c pw in
        let vr := f r in
        let '(Sx', V') :=
          if vltb vr vb then
            let e := toward c (p_expansion o) r in
            let ve := f e in
            if vltb ve vr then (replace worst e Sx, replace worst ve V) else (replace worst r Sx, replace worst vr V)
          else if existsb (vltb vr) (without worst V) then (replace worst r Sx, replace worst vr V)
          else
            let k := toward c (p_contraction o) pw in
            let vk := f k in
            if vltb vk vw then (replace worst k Sx, replace worst vk V) else shrink f (p_shrink o) best pb Sx V in
        nm_loop f o n m Sx' V' (iter + 1)
  end.
(** nelder_mead.cpp:34-212: Result, Min, Iter and the starting point, which is changed in place. *)
Definition nm_minimize (objective : list Qc -> option val) (o : nm_opt) (max : nat) (start : list Qc) (lower upper : option (list Qc)) (mult : Qc)
  : res (list Qc * val * Z * list Qc) :=
  do x <- clamp start lower upper;
  let f := penalized objective lower upper mult in
  do r <- nm_loop f o (length x) max (simplex0 x) (map f (simplex0 x)) 0;
  let '(Sx, V, iter) := r in
  do p <- rd Sx (min_index V 0 Inf (-1)); Ok (p, f p, iter, x).
(** nelder_mead.cpp:5-8, 66-90 the size of the work array and its use. *)
Definition nm_work (n : Z) : Z := (n + 1) * (n + 1) * 4 * n.
Definition nm_used (n : Z) : Z := (n + 1) * n + (n + 1) + 4 * n.

(** ** Minimize1 *)
(** nelder_mead.cpp:220-255: bounds are absent (NaN) or numbers. *)
Definition clamp1 (x0 : Qc) (x_min x_max : option Qc) : Qc :=
  let x1 := match x_min with Some l => if qltb x0 l then l else x0 | None => x0 end in
  match x_max with Some u => if qltb u x1 then u else x1 | None => x1 end.
Definition penalized1 (objective : Qc -> val) (x_min x_max : option Qc) (x : Qc) : val :=
  let out := match x_max with Some u => qltb u x | None => false end || match x_min with Some l => qltb x l | None => false end in
  vadd (objective x) (if out then qz 100000 * (x * x) else 0)%Qc.
Definition vleb (a b : val) : bool :=
  match a, b with Num p, Num q => qleb p q | Num _, Inf => true | Inf, Inf => true | _, _ => false end.
(** nelder_mead.cpp:259-284 *)
Fixpoint min1_loop (f : Qc -> val) (tol : Qc) (fuel : nat) (x0 x1 x2 step : Qc) (iter : Z) : Qc * Z :=
  match fuel with
  | O => (x0, iter)
  | S n =>
      let f1 := f x1 in let f2 := f x2 in let f0 := f x0 in
      if vleb f1 f2 && vleb f1 f0 then min1_loop f tol n x1 (x1 + step) (x1 - step) step (iter + 1)
      else if vleb f2 f1 && vleb f2 f0 then min1_loop f tol n x2 (x2 + step) (x2 - step) step (iter + 1)
      else if qltb (qabs (x0 - x1)) tol && qltb (qabs (x0 - x2)) tol then (x0, iter + 1)
      else let s := (step / (1 + 1))%Qc in min1_loop f tol n x0 (x0 + s) (x0 - s) s (iter + 1)
  end.
Definition minimize1 (objective : Qc -> val) (x0 step : Qc) (max_iter : nat) (tol : Qc) (x_min x_max : option Qc) : Qc * Z :=
  let x := clamp1 x0 x_min x_max in
  min1_loop (penalized1 objective x_min x_max) tol max_iter x (x + step) (x - step) step 0.
