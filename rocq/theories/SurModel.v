(** Model of /repo/src/ldt_statistics/modeling/linear/sur.cpp and sur_projection.cpp (seemingly unrelated regressions).
    Exact arithmetic without NaN in the data. LAPACK (dgetrf, dgetri), the Cholesky determinant and the t distribution are
    parameters. The member pr is null (sur.h:63; nothing in the library sets it). Overflow of int is not modelled. *)
From Verif Require Export MatModel MatDotModel DataModel StatModel MPolyModel.
Local Open Scope Z_scope.

(** Place and length of a block of an array; the block itself. Whether the blocks overlap is stated as a theorem. *)
Definition slice (b : Z * Z) (d : list Qc) : list Qc := firstn (Z.to_nat (snd b)) (skipn (Z.to_nat (fst b)) d).
Fixpoint layout (p : Z) (lens : list Z) : list (Z * Z) :=
  match lens with [] => [] | n :: t => (p, n) :: layout (p + n) t end.
Definition nth_block (bs : list (Z * Z)) (i : nat) (d : list Qc) : list Qc := slice (nth i bs (0, 0)) d.

(** sur.cpp:11-38 the constructor: what was asked for, and the sizes. *)
Record sur_decl := SD { sd_N : Z; sd_m : Z; sd_k : Z; sd_restricted : bool; sd_details : bool; sd_iter : Z }.
Definition declare (N m k : Z) (restricted details : bool) (iter : Z) : sur_decl :=
  if negb (iter =? 0) then SD N m k true true iter else SD N m k restricted details iter.
Definition sur_storage (d : sur_decl) : Z :=
  let N := sd_N d in let m := sd_m d in let km := sd_k d * m in
  2 * km + km * km + 2 * N * m + m * m + (if sd_details d then 3 * km else 0).
Definition sur_work (d : sur_decl) : Z :=
  let N := sd_N d in let m := sd_m d in let k := sd_k d in let km := k * m in
  let w := if sd_restricted d then k * k + 2 * km * km + 3 * N * m * km + N * m + km else Z.max (k * k + km) (m * m) in
  if sd_details d then Z.max w (2 * km * km) else w.

(** sur.cpp:390-413 the blocks of the storage: gamma, beta, gamma_var, yhat, resid, resid_var, e_beta_std, e_beta_t, e_beta_prob. *)
Definition sur_blocks (N m k : Z) (details : bool) : list (Z * Z) :=
  let km := k * m in
  layout 0 ([km; km; km * km; N * m; N * m; m * m] ++ if details then [km; km; km] else []).

(** The members that an estimation sets (sur.h:67-92). [s_cn] is condition_number. *)
Record est := Est { s_gamma : mat Qc; s_beta : mat Qc; s_gvar : mat Qc; s_yhat : mat Qc; s_resid : mat Qc; s_rvar : mat Qc; s_cn : Qc }.
(** sur.cpp:392-405; condition_number is NAN before the first estimation (0 here). *)
Definition fields (N m k : nat) (storage : list Qc) : est :=
  let b := sur_blocks (Z.of_nat N) (Z.of_nat m) (Z.of_nat k) false in let km := (k * m)%nat in
  Est (Mat km 1 (nth_block b 0 storage)) (Mat k m (nth_block b 1 storage)) (Mat km km (nth_block b 2 storage))
      (Mat N m (nth_block b 3 storage)) (Mat N m (nth_block b 4 storage)) (Mat m m (nth_block b 5 storage)) 0.

(** matrix_la.cpp:541-561 Norm('1'): the largest sum of absolute values of a column (dlange). *)
Definition qabs (x : Qc) : Qc := if qltb x 0 then (- x)%Qc else x.
Definition qmax2 (a b : Qc) : Qc := if qltb a b then b else a.
Definition norm1 (M : mat Qc) : res Qc :=
  do cs <- rmap (fun j => do c <- rmap (fun i => get0 M i j) (zrange 0 (nrows M)); Ok (qsum (map qabs c))) (zrange 0 (ncols M));
  Ok (fold_left qmax2 cs 0%Qc).

(** matrix.cpp:1613-1618 GetDiag0. *)
Definition get_diag0 (M S : mat Qc) : res (mat Qc) := mwrites S (map (fun i => (i, rd (data M) (i * (nrows M + 1)))) (zrange 0 (nrows M))).

Section Estim.
Context (lapack : mat Qc -> list Qc * Z).

(** sur.cpp:180-186, 291-299 fitted values, residuals and their variance: S = E'E / N. *)
Definition fitted (y x beta : mat Qc) (s : est) : res (mat Qc * mat Qc * mat Qc) :=
  do yhat <- dot x beta (s_yhat s) 1 0;
  do resid <- ew Qcminus y yhat (s_resid s);
  do rv <- dot_ata resid (s_rvar s) true 1 0;
  do rv <- ew_scalar_in Qcdiv rv (qz (nrows y));
  Ok (yhat, resid, rv).

(** sur.cpp:148-204 estim_un *)
Definition un_blocks (k m : Z) : list (Z * Z) := layout 0 [k * k; k * m].
Definition estim_un (y x : mat Qc) (work : list Qc) (do_gvar : bool) (s : est) : res est :=
  let k := cols x in let m := cols y in let b := un_blocks (ncols x) (ncols y) in
  do xtx <- dot_ata x (Mat k k (nth_block b 0 work)) true 1 0;
  do n1 <- norm1 xtx;
  do xtx <- inv00 lapack xtx;
  do n2 <- norm1 xtx;
  do xty <- tr_dot x y (Mat k m (nth_block b 1 work)) 1 0;
  do beta <- dot xtx xty (s_beta s) 1 0;
  do gamma <- copy_to00 beta (s_gamma s);
  do '(yhat, resid, rv) <- fitted y x beta s;
  do gv <- (if do_gvar then kron rv xtx (s_gvar s) else Ok (s_gvar s));
  Ok (Est gamma beta gv yhat resid rv (n1 * n2)%Qc).

(** sur.cpp:206-300 estim_r. The result of the first Inv0 is used whatever info is. *)
Definition r_blocks (N m k q : Z) : list (Z * Z) :=
  let km := k * m in let nm := N * m in layout 0 [k * k; km * km; q * km; nm * km; nm * q; q].
Definition estim_r (y x R : mat Qc) (work : list Qc) (s : est) : res est :=
  let k := cols x in let m := cols y in let N := rows y in let q := cols R in let km := (k * m)%nat in
  let b := r_blocks (nrows y) (ncols y) (ncols x) (ncols R) in
  let rinv := with_data (s_rvar s) (fst (lapack (s_rvar s))) in
  do xtx <- dot_ata x (Mat k k (nth_block b 0 work)) true 1 0;
  do V <- kron rinv xtx (Mat km km (nth_block b 1 work));
  do RV <- tr_dot R V (Mat q km (nth_block b 2 work)) 1 0;
  do gv <- dot RV R (Mat q q (data (s_gvar s))) 1 0;
  do n1 <- norm1 RV;
  do gv <- inv00 lapack gv;
  do n2 <- norm1 gv;
  do Vx <- kron rinv x (Mat (N * m) km (nth_block b 3 work));
  do VxR <- dot Vx R (Mat (N * m) q (nth_block b 4 work)) 1 0;
  do z <- tr_dot VxR (Mat (N * m) 1 (data y)) (Mat q 1 (nth_block b 5 work)) 1 0;
  do gamma <- dot gv z (Mat q 1 (data (s_gamma s))) 1 0;
  do beta <- dot00 R gamma (s_beta s);
  do '(yhat, resid, rv) <- fitted y x beta (Est gamma beta gv (s_yhat s) (s_resid s) rinv 0);
  Ok (Est gamma beta gv yhat resid rv (n1 * n2)%Qc).

(** ** Significance *)
Context (pt : Z -> Qc -> Qc).
(** sur.cpp:124-135: two-sided probability for an estimate b with variance v and n degrees of freedom, as a function of
    the square of t = b / sqrt v: sqrt of a negative number and 0 / 0 give NaN (None); b / 0 is an infinity, with
    probability 0 (distributions_uni.cpp:1041-1042). [pt n u] is 2 (1 - F(sqrt u)). *)
Definition prob (n : Z) (b v : Qc) : option Qc :=
  if qltb v 0 then None else if qeqb v 0 then (if qeqb b 0 then None else Some 0%Qc) else Some (pt n (b * b / v)%Qc).
(** sur.cpp:104-138 calculate_details with just_probs: the squares of e_beta_std, and e_beta_prob. *)
Record details := Details { d_var : mat Qc; d_prob : list (option Qc) }.
Definition det_blocks (km q : Z) : list (Z * Z) := layout 0 [km * q; km * km].
Definition beta_var (restr : option (mat Qc)) (work : list Qc) (s : est) (std : mat Qc) : res (mat Qc) :=
  match restr with
  | Some R =>
      let km := rows R in let b := det_blocks (nrows R) (mlength (s_gamma s)) in
      do A <- dot R (s_gvar s) (Mat km (rows (s_gamma s) * cols (s_gamma s)) (nth_block b 0 work)) 1 0;
      do B <- dot_tr A R (Mat km km (nth_block b 1 work)) 1 0;
      get_diag B std
  | None => get_diag0 (s_gvar s) std
  end.
Definition calc_details (N : Z) (restr : option (mat Qc)) (work : list Qc) (s : est) (std : mat Qc) : res details :=
  do v <- beta_var restr work s std;
  do p <- rmap (fun i => do b <- rd (data (s_beta s)) i; do w <- rd (data v) i; Ok (prob N b w)) (zrange 0 (mlength (s_beta s)));
  Ok (Details v p).

(** sur.cpp:302-349 estim_search *)
Definition significant (maxp : Qc) (d : details) (km : Z) : res (list Z) :=
  do ps <- rmap (fun j => do p <- rd (d_prob d) j; Ok (j, p)) (zrange 0 km);
  Ok (map fst (filter (fun jp => match snd jp with Some p => qleb p maxp | None => false end) ps)).
(** sur.cpp:337-343 the restriction matrix of the selected coefficients. *)
Definition select (km : nat) (sig : list Z) (R : mat Qc) : res (mat Qc) :=
  do R <- set_value (Mat km (length sig) (data R)) 0;
  mwrites R (map (fun ij => (pos R (snd ij) (fst ij), Ok 1%Qc)) (enum sig)).
(** sur.cpp:317-348: [n] iterations are left, [cs] coefficients were free before. The result has the number of the
    iteration in which the loop ended. *)
Fixpoint search_loop (n : nat) (iter : Z) (y x : mat Qc) (work : list Qc) (std : mat Qc) (maxp : Qc) (cs : Z) (s : est) (d : details) (R : mat Qc)
  : res (est * mat Qc * Z) :=
  match n with
  | O => Ok (s, R, iter)
  | S n' =>
      let km := (cols x * cols y)%nat in
      do sig <- significant maxp d (Z.of_nat km);
      if Z.of_nat (length sig) =? cs then Ok (s, R, iter)
      else if Z.of_nat (length sig) =? 0 then Throw
      else do R' <- select km sig R;
           do s' <- estim_r y x R' work s;
           do d' <- calc_details (nrows y) (Some R') work s' std;
           search_loop n' (iter + 1) y x work std maxp (Z.of_nat (length sig)) s' d' R'
  end.
Definition estim_search (y x R : mat Qc) (work : list Qc) (iter : Z) (std : mat Qc) (maxp : Qc) (s : est) : res (est * mat Qc * Z) :=
  do s1 <- estim_un y x work true s;
  do d1 <- calc_details (nrows y) None work s1 std;
  do R0 <- set_value R 0;
  search_loop (Z.to_nat iter) 0 y x work std maxp (ncols x * ncols y) s1 d1 R0.

(** ** Calculate *)
(** matrix.cpp:2314-2333 Det_pd0: the element of a 1 x 1 matrix, else from the Cholesky decomposition; None is NAN. *)
Context (det_pd : mat Qc -> option Qc).
Definition det_pd0 (M : mat Qc) : res (option Qc) := if ncols M =? 1 then do v <- get0 M 0 0; Ok (Some v) else Ok (det_pd M).
(** What Calculate leaves: the members, the restrictions (which the search replaces), the number of iterations, the
    determinant of resid_var (the log-likelihood is a function of it, N and m: sur.cpp:81-82) and the details. *)
Record sur := Sur { u_est : est; u_R : option (mat Qc); u_iter : Z; u_det : Qc; u_details : option details }.
(** sur.cpp:428-437 after the estimation: the log-likelihood and the details. *)
Definition std_block (N m k : nat) (storage : list Qc) : mat Qc := Mat k m (nth_block (sur_blocks (Z.of_nat N) (Z.of_nat m) (Z.of_nat k) true) 6 storage).
Definition sur_finish (d : sur_decl) (y x : mat Qc) (storage work : list Qc) (e : est * option (mat Qc) * Z) : res sur :=
  let '(s, R, it) := e in
  do W <- copy_to00 (s_rvar s) (Mat (cols y) (cols y) (slice (0, ncols y * ncols y) work));
  do det <- det_pd0 W;
  match det with
  | None => Throw
  | Some v =>
      do dt <- (if sd_details d then
                  do dt <- calc_details (nrows y) (if sd_restricted d then R else None) work s (std_block (rows y) (cols y) (cols x) storage); Ok (Some dt)
                else Ok None);
      Ok (Sur s R it v dt)
  end.
(** sur.cpp:415-426 the estimation. A null R of a restricted model is dereferenced (UB). *)
Definition sur_estimate (d : sur_decl) (y x : mat Qc) (storage work : list Qc) (R : option (mat Qc)) (maxp : Qc) : res (est * option (mat Qc) * Z) :=
  let s := fields (rows y) (cols y) (cols x) storage in
  if sd_restricted d then
    match R with
    | None => UB
    | Some R0 =>
        if sd_iter d =? 0 then do s1 <- estim_un y x work false s; do s2 <- estim_r y x R0 work s1; Ok (s2, R, 0)
        else do '(s2, R2, it) <- estim_search y x R0 work (sd_iter d) (std_block (rows y) (cols y) (cols x) storage) maxp s; Ok (s2, Some R2, it)
    end
  else do s1 <- estim_un y x work true s; Ok (s1, R, 0).
(** sur.cpp:351-437 Calculate, [d] as declared. *)
Definition sur_calculate (d : sur_decl) (y x : mat Qc) (storage work : list Qc) (R : option (mat Qc)) (maxp : Qc) : res sur :=
  let N := nrows y in let m := ncols y in let k := ncols x in let km := k * m in
  if (N <? 1) || (m <? 1) || (k <? 1) then Throw
  else let need := declare N m k (sd_restricted d) (sd_details d) (sd_iter d) in
  if (sur_work d <? sur_work need) || (sur_storage d <? sur_storage need) then Throw
  else if negb (sd_iter d =? 0) && match R with None => true | Some R => negb (nrows R =? km) || negb (ncols R =? km) end then Throw
  else if (sd_iter d =? 0) && match R with None => false | Some R => negb (nrows R =? km) || (km <? ncols R) end then Throw
  else if negb (sd_iter d =? 0) && qeqb maxp 0 then Throw
  else do e <- sur_estimate d y x storage work R maxp; sur_finish d y x storage work e.
End Estim.

(** ** Projections: sur_projection.cpp *)
(** sur_projection.cpp:11-19 *)
Record proj_decl := PD { pd_n : Z; pd_m : Z; pd_k : Z; pd_restricted : bool; pd_var : bool }.
Definition proj_storage (d : proj_decl) : Z := pd_m d * pd_n d + (if pd_var d then pd_m d * pd_m d + pd_m d * pd_n d else 0).
Definition proj_work (d : proj_decl) : Z :=
  pd_m d + pd_k d + (if pd_var d then (if pd_restricted d then 3 else 2) * pd_m d * (pd_k d * pd_m d) else 0).
(** sur_projection.cpp:36-66 the blocks of the storage (Means, Variances, Covariance) and of work (t, row, Iox, RIox_gv, RIox). *)
Definition proj_blocks (n m : Z) : list (Z * Z) := layout 0 [n * m; n * m; m * m].
Definition proj_wblocks (m k q : Z) : list (Z * Z) := layout 0 [m; k; k * m * m; m * q; q * m].
Record proj := Proj { p_means : mat Qc; p_vars : option (mat Qc); p_cov : option (mat Qc) }.
(** matrix.cpp:2062-2106 Add_in *)
Definition add_in_checked (M B : mat Qc) : res (mat Qc) := ew_in Qcplus M B.
(** matrix.cpp:1584-1589 GetRow0 (no check of the storage), 1421-1426 SetRow0, 1452-1460 SetRowFromDiag0: the loops of the
    checked functions. *)
Definition get_row0 (M : mat Qc) (i : Z) (S : mat Qc) : res (mat Qc) := mwrites S (map (fun j => (j, get0 M i j)) (zrange 0 (ncols M))).
Definition set_row0 (M : mat Qc) (i : Z) (S : mat Qc) : res (mat Qc) := mwrites M (map (fun j => (pos M i j, rd (data S) j)) (zrange 0 (ncols M))).
Definition set_row_from_diag0 (M : mat Qc) (i : Z) (S : mat Qc) : res (mat Qc) :=
  mwrites M (map (fun j => (pos M i j, rd (data S) (j * (nrows S + 1)))) (zrange 0 (ncols M))).
(** sur_projection.cpp:72-88 the variance of a projection from the row. *)
Definition proj_cov (u : est) (restr : option (mat Qc)) (m k : nat) (row : mat Qc) (work : list Qc) (cov : mat Qc) : res (mat Qc) :=
  let km := (k * m)%nat in let q := match restr with Some R => cols R | None => km end in
  let b := proj_wblocks (Z.of_nat m) (Z.of_nat k) (Z.of_nat q) in
  do Iox <- iden_kron row (Z.of_nat m) (Mat km m (nth_block b 2 work));
  match restr with
  | Some R =>
      do RIox <- tr_dot R Iox (Mat q m (nth_block b 4 work)) 1 0;
      do G <- tr_dot RIox (s_gvar u) (Mat m q (nth_block b 3 work)) 1 0;
      do C <- dot G RIox cov 1 0;
      add_in_checked C (s_rvar u)
  | None =>
      do G <- tr_dot Iox (s_gvar u) (Mat m q (nth_block b 3 work)) 1 0;
      do C <- dot G Iox cov 1 0;
      add_in_checked C (s_rvar u)
  end.
(** sur_projection.cpp:68-90 the loop over the rows. *)
Fixpoint proj_loop (u : est) (restr : option (mat Qc)) (var : bool) (m k : nat) (x : mat Qc) (work : list Qc) (is : list Z) (p : proj) : res proj :=
  match is with
  | [] => Ok p
  | i :: t =>
      let b := proj_wblocks (Z.of_nat m) (Z.of_nat k) 0 in
      do row <- get_row0 x i (Mat k 1 (nth_block b 1 work));
      do v <- t_dot_vector (s_beta u) row (Mat m 1 (nth_block b 0 work)) 1 0;
      do means <- set_row0 (p_means p) i v;
      do p' <- (if var then
          match p_vars p, p_cov p with
          | Some V, Some C => do C' <- proj_cov u restr m k row work C; do V' <- set_row_from_diag0 V i C'; Ok (Proj means (Some V') (Some C'))
          | _, _ => UB
          end
        else Ok (Proj means (p_vars p) (p_cov p)));
      proj_loop u restr var m k x work t p'
  end.
(** sur_projection.cpp:21-91 Calculate; [m] is the number of columns of the model's y, [R] the model's pR (null: UB if used). *)
Definition proj_calculate (d : proj_decl) (u : est) (R : option (mat Qc)) (m : nat) (x : mat Qc) (storage work : list Qc) : res proj :=
  let n := nrows x in let k := ncols x in let mz := Z.of_nat m in
  let need := PD n mz k (pd_restricted d) (pd_var d) in
  if (proj_work d <? proj_work need) || (proj_storage d <? proj_storage need) then Throw
  else if pd_restricted d && match R with None => true | _ => false end then UB
  else
    let b := proj_blocks n mz in
    let p0 := Proj (Mat (rows x) m (nth_block b 0 storage))
                   (if pd_var d then Some (Mat (rows x) m (nth_block b 1 storage)) else None)
                   (if pd_var d then Some (Mat m m (nth_block b 2 storage)) else None) in
    proj_loop u (if pd_restricted d then R else None) (pd_var d) m (cols x) x work (zrange 0 n) p0.
