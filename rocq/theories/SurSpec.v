(** Specification of systems of equations: y = x B + e with N observations, m equations and k explanatory variables in each. *)
From Verif Require Export StatSpec SurModel.
Local Open Scope Z_scope.

(** Cross products of residuals, and the weighted sum over all pairs of equations. *)
Definition cross (N : Z) (e : Z -> Z -> Qc) (i j : Z) : Qc := sum_to N (fun t => e t i * e t j)%Qc.
Definition sys_ssr (N m : Z) (w e : Z -> Z -> Qc) : Qc := sum_to m (fun i => sum_to m (fun j => w i j * cross N e i j)%Qc).
(** The coefficients of the system from q free ones: coefficient i of equation j has the number j k + i. *)
Definition restricted (k q : Z) (R : Z -> Z -> Qc) (g : Z -> Qc) (i j : Z) : Qc := sum_to q (fun l => R (j * k + i)%Z l * g l)%Qc.
(** Two blocks (place, length) of an array do not overlap; all blocks are in an array of length n, and no two overlap. *)
Definition apart (a b : Z * Z) : Prop := fst a + snd a <= fst b \/ fst b + snd b <= fst a.
Definition packed (n : Z) (l : list (Z * Z)) : Prop :=
  (forall b, In b l -> 0 <= fst b /\ 0 <= snd b /\ fst b + snd b <= n) /\
  (forall i j a b, (i < j)%nat -> nth_error l i = Some a -> nth_error l j = Some b -> apart a b).
(** The norm: the largest sum of absolute values in a column. *)
Definition absolute (x : Qc) : Qc := if qltb x 0 then (- x)%Qc else x.
Definition column_sum (r : Z) (f : Z -> Z -> Qc) (j : Z) : Qc := sum_to r (fun i => absolute (f i j)).
Definition is_norm1 (r c : Z) (f : Z -> Z -> Qc) (v : Qc) : Prop :=
  (forall j, 0 <= j < c -> (column_sum r f j <= v)%Qc) /\ exists j, 0 <= j < c /\ v = column_sum r f j.
(** The normal equations of every equation of the system: X'(Y - XB) = 0. *)
Definition normal (N m k : Z) (y x b : Z -> Z -> Qc) : Prop := forall i j, 0 <= i < k -> 0 <= j < m -> sum_to N (fun t => x t i * residual k y x b t j)%Qc = 0%Qc.
(** X'X. *)
Definition xtx (N : Z) (x : Z -> Z -> Qc) (i i' : Z) : Qc := sum_to N (fun t => x t i * x t i')%Qc.
(** Residual covariances: E'E / N. *)
Definition res_cov (N k : Z) (y x b : Z -> Z -> Qc) (i j : Z) : Qc := (cross N (residual k y x b) i j / qz N)%Qc.
(** Coefficients, fitted values, residuals and the covariances of the residuals that belong together. *)
Definition fitted_by (N m k : nat) (y x b : Z -> Z -> Qc) (beta yhat resid rvar : mat Qc) : Prop :=
  has k m b beta /\ has N m (fun t j => sum_to (Z.of_nat k) (fun l => x t l * b l j)%Qc) yhat /\
  has N m (residual (Z.of_nat k) y x b) resid /\ has m m (res_cov (Z.of_nat N) (Z.of_nat k) y x b) rvar.
(** R'(W o X'X)R, the information about the free coefficients with weights W. *)
Definition info_matrix (N m k : Z) (W x R : Z -> Z -> Qc) (l l' : Z) : Qc :=
  sum_to m (fun j => sum_to m (fun j' => sum_to k (fun i => sum_to k (fun i' => R (j * k + i)%Z l * (W j j' * xtx N x i i') * R (j' * k + i')%Z l')))%Qc).
(** R picks the coefficients in sig: column l has a 1 in the row of the l-th and 0 elsewhere. *)
Definition picks (n : Z) (sig : list Z) (R : mat Qc) : Prop :=
  rows R = Z.to_nat n /\ cols R = length sig /\ forall l c, nth_error sig l = Some c -> forall a, 0 <= a < n -> el R a (Z.of_nat l) = if a =? c then 1%Qc else 0%Qc.
(** Is the probability small enough? *)
Definition at_most (maxp : Qc) (p : option Qc) : Prop := exists v, p = Some v /\ (v <= maxp)%Qc.
(** What a call of Calculate needs: a LAPACK that keeps its contract, matrices with their storage and as many rows, and
    arrays of the lengths that the object reports. *)
Record sur_call (lapack : mat Qc -> list Qc * Z) (d : sur_decl) (y x : mat Qc) (storage work : list Qc) : Prop := {
  sc_sound : lapack_sound lapack; sc_len : forall M, length (fst (lapack M)) = length (data M);
  sc_y : mat_ok y; sc_x : mat_ok x; sc_rows : rows x = rows y;
  sc_storage : sur_storage d <= Z.of_nat (length storage); sc_work : sur_work d <= Z.of_nat (length work) }.
(** The restrictions of a restricted model. *)
Definition has_restrictions (d : sur_decl) (R : option (mat Qc)) : Prop := sd_restricted d = true -> exists R0, R = Some R0 /\ mat_ok R0 /\ (0 < cols R0)%nat.
(** p is the two-sided probability of an estimate b with variance v: pt n u is the probability that the square of a variable
    with n degrees of freedom exceeds u; b / 0 is infinite with probability 0; 0 / 0 and the root of a negative number are NaN. *)
Definition two_sided (pt : Z -> Qc -> Qc) (n : Z) (b v : Qc) (p : option Qc) : Prop :=
  ((0 < v)%Qc -> p = Some (pt n (b * b / v)%Qc)) /\ (v = 0%Qc -> b <> 0%Qc -> p = Some 0%Qc) /\ (v = 0%Qc -> b = 0%Qc -> p = None) /\ ((v < 0)%Qc -> p = None).
(** v is the determinant that the log-likelihood uses: that of the covariances of the residuals. *)
Definition log_determinant (det_pd : mat Qc -> option Qc) (rvar : mat Qc) (v : Qc) : Prop :=
  exists W, has (rows rvar) (cols rvar) (el rvar) W /\ (if ncols rvar =? 1 then v = el rvar 0 0 else det_pd W = Some v).
(** The details: variances of the coefficients (squares of e_beta_std) v, and probabilities. *)
Definition details_of (pt : Z -> Qc -> Qc) (N m k : nat) (b v : Z -> Z -> Qc) (dd : details) : Prop :=
  has k m v (d_var dd) /\ length (d_prob dd) = (k * m)%nat /\
  forall i j, 0 <= i < Z.of_nat k -> 0 <= j < Z.of_nat m -> exists p, nth_error (d_prob dd) (Z.to_nat (j * Z.of_nat k + i)) = Some p /\ two_sided pt (Z.of_nat N) (b i j) (v i j) p.
(** Projections: x b; and the covariance of the projections of equations j and j' for row t: that of the residuals plus that of
    the estimated part, for coefficients with covariances V. *)
Definition projected (k : Z) (x b : Z -> Z -> Qc) (t j : Z) : Qc := sum_to k (fun i => x t i * b i j)%Qc.
Definition proj_covariance (k : Z) (x V cov : Z -> Z -> Qc) (t j j' : Z) : Qc :=
  (cov j j' + sum_to k (fun i => sum_to k (fun i' => x t i * V (j * k + i)%Z (j' * k + i')%Z * x t i')))%Qc.
(** Covariances R V R' of all coefficients from those of the free ones; without restrictions all are free. *)
Definition sandwich (q : Z) (R V : Z -> Z -> Qc) (a b : Z) : Qc := sum_to q (fun l => sum_to q (fun l' => R a l * V l l' * R b l'))%Qc.
Definition all_covariances (restr : option (mat Qc)) (V : Z -> Z -> Qc) : Z -> Z -> Qc := match restr with Some R => sandwich (ncols R) (el R) V | None => V end.
(** A matrix with r rows and c columns and its storage. *)
Definition sized (r c : nat) (M : mat Qc) : Prop := rows M = r /\ cols M = c /\ mat_ok M.
(** What a projection needs: an estimated model (m equations) for as many variables as x has, restricted by R if and only if the
    projection is declared as restricted; and arrays of the lengths that the object reports. *)
Record proj_call (d : proj_decl) (s : est) (R : option (mat Qc)) (m : nat) (x : mat Qc) (storage work : list Qc) : Prop := {
  pc_m : (0 < m)%nat; pc_k : (0 < cols x)%nat; pc_x : mat_ok x; pc_beta : sized (cols x) m (s_beta s); pc_rvar : sized m m (s_rvar s);
  pc_free : if pd_restricted d then exists R0, R = Some R0 /\ mat_ok R0 /\ rows R0 = (cols x * m)%nat /\ (0 < cols R0 <= cols x * m)%nat /\ sized (cols R0) (cols R0) (s_gvar s)
            else sized (cols x * m) (cols x * m) (s_gvar s);
  pc_storage : proj_storage d <= Z.of_nat (length storage); pc_work : proj_work d <= Z.of_nat (length work) }.
