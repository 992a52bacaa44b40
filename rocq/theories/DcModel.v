(** Model of the likelihoods of discrete choice models, of their gradients and Hessians, and of the predicted probabilities:
    /repo/src/ldt_statistics/modeling/discrete/discrete_choice.cpp:291-415, 584-1145.

    Simplifications: arithmetic, exponentials and logarithms are exact (so [std::isinf (fxb)] in line 1078 never holds); the values
    of the dependent variable are whole numbers; a vector is a function of the index and a matrix a function of two indices, with the
    dimensions given separately (reads and writes of the buffers are checked in DcCalcModel); std::function objects are functions. *)
From Coq Require Export Reals ZArith List.
Export ListNotations.
Local Open Scope R_scope.

Definition vec := nat -> R.
Definition mtx := nat -> nat -> R.
(** The sum of f 0, ..., f (n - 1), from the first. *)
Fixpoint sumr (n : nat) (f : nat -> R) : R := match n with O => 0 | S m => sumr m f + f m end.
(** A row of the data: the value of y, the weight (1 if there are no weights, [w ? w->Data[i] : (Tv)1]) and the regressors. *)
Record obs := Obs { o_y : Z; o_w : R; o_x : vec }.
(** x.Dot0 (Beta, xb) and x.DotVector0 (Beta, xb): only the first k entries of Beta are used. *)
Definition xb (k : nat) (o : obs) (b : vec) : R := sumr k (fun j => o_x o j * b j).

(** ** Binary models *)
(** discrete_choice.cpp:317-326, logit: the value that is minimized *)
Definition logit_fun (k : nat) (l : list obs) (b : vec) : R :=
  - fold_left (fun lnL o => lnL + o_w o * (- ln (1 + exp (xb k o b)) + IZR (o_y o) * xb k o b)) l 0.
(** discrete_choice.cpp:330-342; xb holds -1 times the product *)
Definition logit_grad (k : nat) (l : list obs) (b : vec) : vec :=
  fold_left (fun (stro : vec) o => let m := -1 * xb k o b in
               fun j => stro j - o_x o j * (o_w o * (IZR (o_y o) - 1 / (1 + exp m)))) l (fun _ => 0).
(** discrete_choice.cpp:345-360 *)
Definition logit_hess (k : nat) (l : list obs) (b : vec) : mtx :=
  fold_left (fun (stro : mtx) o => let fxb := exp (xb k o b) in let fxb := fxb / (1 + fxb) in
               fun i j => stro i j + (o_w o * (o_x o i * o_x o j)) * (fxb * (1 - fxb))) l (fun _ _ => 0).

(** Probit models: [cdf] and [pdf] stand for dist_normal_cdf (., 0, 1) and dist_normal_pdf (., 0, 1). *)
(** discrete_choice.cpp:365-375 *)
Definition probit_fun (cdf : R -> R) (k : nat) (l : list obs) (b : vec) : R :=
  - fold_left (fun lnL o => let yi := IZR (o_y o) in let PHI := cdf (xb k o b) in
                 lnL + o_w o * (yi * ln PHI + (1 - yi) * ln (1 - PHI))) l 0.
(** discrete_choice.cpp:378-392 *)
Definition probit_grad (cdf pdf : R -> R) (k : nat) (l : list obs) (b : vec) : vec :=
  fold_left (fun (stro : vec) o => let yi := IZR (o_y o) in let qi := 2 * yi - 1 in let qix := qi * xb k o b in
               fun j => stro j - o_x o j * (o_w o * (qi * pdf qix / cdf qix))) l (fun _ => 0).
(** discrete_choice.cpp:395-416 *)
Definition probit_hess (cdf pdf : R -> R) (k : nat) (l : list obs) (b : vec) : mtx :=
  fold_left (fun (stro : mtx) o => let yi := IZR (o_y o) in let qi := 2 * yi - 1 in let qix := qi * xb k o b in
               let c := cdf qix in let Li := qi * pdf qix / c in
               fun i j => stro i j + (o_w o * (o_x o i * o_x o j)) * (Li * (Li + xb k o b))) l (fun _ _ => 0).

(** ** Ordered models: k0 slopes and J - 1 cutoffs, where J is NumCutoff (the choices are 0, ..., J) *)
(** discrete_choice.cpp:161-173 ordermu, restrictoffsets = false in all of its uses *)
Definition ordermu (k0 : nat) (b : vec) : vec := fun i => b (k0 + i)%nat.
(** What the branches on the value of y compute; r1 and r2 are -1 if nothing is added for a cutoff. *)
Record cell := Cell { c_F : R; c_F1 : R; c_f : R; c_f1 : R; c_ff : R; c_ff1 : R; c_r1 : Z; c_r2 : Z }.
(** mu.Data[i] *)
Definition mu_at (mu : vec) (i : Z) : R := mu (Z.to_nat i).
(** discrete_choice.cpp:625-640, 655-689, 716-761, 774-808 logit; Fj (1 - Fj) and fj (1 - 2 Fj) *)
Definition logit_cell (k0 : nat) (J : Z) (mu : vec) (yi : Z) (xib : R) : cell :=
  let f F := F * (1 - F) in let ff F := f F * (1 - 2 * F) in
  if (yi =? 0)%Z then
    let Fj := 1 / (1 + exp xib) in Cell Fj 0 (f Fj) 0 (ff Fj) 0 (-1) (-1)
  else if (yi =? 1)%Z then
    let Fj := 1 / (1 + exp (- mu_at mu 0 + xib)) in let Fj_1 := 1 / (1 + exp xib) in
    Cell Fj Fj_1 (f Fj) (f Fj_1) (ff Fj) (ff Fj_1) (Z.of_nat k0) (-1)
  else if (yi =? J)%Z then
    let Fj_1 := 1 / (1 + exp (- mu_at mu (yi - 2) + xib)) in
    Cell 1 Fj_1 0 (f Fj_1) 0 (ff Fj_1) (-1) (Z.of_nat k0 + yi - 2)
  else
    let Fj := 1 / (1 + exp (- mu_at mu (yi - 1) + xib)) in let Fj_1 := 1 / (1 + exp (- mu_at mu (yi - 2) + xib)) in
    Cell Fj Fj_1 (f Fj) (f Fj_1) (ff Fj) (ff Fj_1) (Z.of_nat k0 + yi - 1) (Z.of_nat k0 + yi - 2).
(** discrete_choice.cpp:860-873, 890-929, 952-1004 probit *)
Definition probit_cell (cdf pdf : R -> R) (k0 : nat) (J : Z) (mu : vec) (yi : Z) (xib : R) : cell :=
  if (yi =? 0)%Z then
    Cell (cdf (- xib)) 0 (pdf (- xib)) 0 (pdf (- xib) * xib) 0 (-1) (-1)
  else if (yi =? 1)%Z then
    let d1 := mu_at mu 0 - xib in
    Cell (cdf d1) (cdf (- xib)) (pdf d1) (pdf (- xib)) (- pdf d1 * d1) (pdf (- xib) * xib) (Z.of_nat k0) (-1)
  else if (yi =? J)%Z then
    let d1 := mu_at mu (yi - 2) - xib in
    Cell 1 (cdf d1) 0 (pdf d1) 0 (- pdf d1 * d1) (-1) (Z.of_nat k0 + yi - 2)
  else
    let d1 := mu_at mu (yi - 1) - xib in let d2 := mu_at mu (yi - 2) - xib in
    Cell (cdf d1) (cdf d2) (pdf d1) (pdf d2) (- pdf d1 * d1) (- pdf d2 * d2) (Z.of_nat k0 + yi - 1) (Z.of_nat k0 + yi - 2).
(** The branches, for given cutoffs, of a logit or of a probit model. *)
Definition cells := vec -> Z -> R -> cell.

(** discrete_choice.cpp:617-643, 852-878 *)
Definition ord_fun (br : cells) (k0 : nat) (l : list obs) (b : vec) : R :=
  let mu := ordermu k0 b in
  - fold_left (fun lnL o => let c := br mu (o_y o) (xb k0 o b) in lnL + o_w o * ln (c_F c - c_F1 c)) l 0.
(** stro.Data[r] += v *)
Definition vplus (s : vec) (r : Z) (v : R) : vec := fun i => if (Z.of_nat i =? r)%Z then s i + v else s i.
(** discrete_choice.cpp:645-697, 880-935; which of the two cutoffs changes is told by r1 and r2, as in the Hessian *)
Definition ord_grad (br : cells) (k0 : nat) (l : list obs) (b : vec) : vec :=
  let mu := ordermu k0 b in
  fold_left (fun (stro : vec) o =>
    let c := br mu (o_y o) (xb k0 o b) in let v := o_w o in let Pj := c_F c - c_F1 c in
    let stro := if (c_r1 c =? -1)%Z then stro else vplus stro (c_r1 c) (- (v * (c_f c / Pj))) in
    let stro := if (c_r2 c =? -1)%Z then stro else vplus stro (c_r2 c) (v * (c_f1 c / Pj)) in
    fun j => if (j <? k0)%nat then stro j + o_x o j * (v * ((c_f c - c_f1 c) / Pj)) else stro j) l (fun _ => 0).
(** Set_Plus0 / Set_Minus0 *)
Definition mplus (s : mtx) (r c : Z) (v : R) : mtx :=
  fun i j => if ((Z.of_nat i =? r) && (Z.of_nat j =? c))%Z%bool then s i j + v else s i j.
(** for (a = 0; a < k0; a++) stro.Set_Plus0 (a, r, v * xi.Data[a]) *)
Definition mplus_col (k0 : nat) (s : mtx) (r : Z) (v : R) (xi : vec) : mtx :=
  fold_left (fun s a => mplus s (Z.of_nat a) r (v * xi a)) (seq 0 k0) s.
(** discrete_choice.cpp:764-820, 1007-1034: the contribution of a row to the upper triangle *)
Definition hess_row (k0 : nat) (stro : mtx) (o : obs) (c : cell) : mtx :=
  let v := o_w o in let Pj := c_F c - c_F1 c in
  let stro := if (c_r1 c =? -1)%Z then stro else
    let s := mplus_col k0 stro (c_r1 c) v (fun a => o_x o a * (c_ff c / Pj - (c_f c - c_f1 c) * c_f c / (Pj * Pj))) in
    mplus s (c_r1 c) (c_r1 c) (- (v * (c_ff c / Pj - Rpow_def.pow (c_f c / Pj) 2))) in
  let stro := if (c_r2 c =? -1)%Z then stro else
    let s := mplus_col k0 stro (c_r2 c) v (fun a => o_x o a * (- c_ff1 c / Pj + (c_f c - c_f1 c) * c_f1 c / (Pj * Pj))) in
    mplus s (c_r2 c) (c_r2 c) (- (v * (- c_ff1 c / Pj - Rpow_def.pow (c_f1 c / Pj) 2))) in
  let stro := if ((c_r1 c =? -1) || (c_r2 c =? -1))%Z%bool then stro
              else mplus stro (c_r2 c) (c_r1 c) (- (v * (c_f c * c_f1 c / (Pj * Pj)))) in
  let h := v * ((c_ff c - c_ff1 c) / Pj - Rpow_def.pow ((c_f c - c_f1 c) / Pj) 2) in
  fun j a => if ((j <? k0)%nat && (a <? k0)%nat && negb (a <? j)%nat)%bool then stro j a - (o_x o j * o_x o a) * h else stro j a.
(** discrete_choice.cpp:699-829, 937-1043; then the lower triangle is copied from the upper one *)
Definition ord_hess (br : cells) (k0 : nat) (l : list obs) (b : vec) : mtx :=
  let mu := ordermu k0 b in
  let stro := fold_left (fun stro o => hess_row k0 stro o (br mu (o_y o) (xb k0 o b))) l (fun _ _ => 0) in
  fun i j => if (j <? i)%nat then stro j i else stro i j.

(** ** Predicted probabilities *)
(** discrete_choice.cpp:1073-1084: columns 0 and 1 of the row *)
Definition logit_row (v : R) : list R := let fxb := exp v in let fxb := fxb / (1 + fxb) in [1 - fxb; fxb].
(** discrete_choice.cpp:1085-1091 *)
Definition probit_row (cdf : R -> R) (v : R) : list R := let c := cdf v in [1 - c; c].
(** discrete_choice.cpp:1103-1143: the loop from j on, [n] = NumCutoff - j; [Fun] is F as a function of mui and xib *)
Fixpoint ord_loop (Fun : R -> R -> R) (mu : vec) (xib : R) (n : nat) (j : nat) (mui preF : R) : list R :=
  match n with
  | O => []
  | S m => let F := Fun mui xib in
      F - preF :: match m with
                  | O => [1 - F]
                  | S _ => ord_loop Fun mu xib m (S j) (mu j) F
                  end
  end.
(** discrete_choice.cpp:1109, 1128 *)
Definition logit_F (mui xib : R) : R := 1 / (1 + exp (- mui + xib)).
Definition probit_F (cdf : R -> R) (mui xib : R) : R := cdf (mui - xib).
(** discrete_choice.cpp:1058-1145 GetProbabilities, a row of an ordered model *)
Definition ord_row (Fun : R -> R -> R) (k0 J : nat) (o : obs) (b : vec) : list R :=
  ord_loop Fun (ordermu k0 b) (xb k0 o b) J 0 0 0.
