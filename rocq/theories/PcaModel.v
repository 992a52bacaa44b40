(** Model of standardization and of principal component analysis: /repo/src/matrix/dataset.cpp:195-292 (MatrixStandardized),
    /repo/src/matrix/matrix.cpp:3071-3130 (ColumnsStandard), /repo/src/ldt_statistics/pca.cpp, /repo/include/math/statistics/pca.h.

    Simplifications: real numbers with exact arithmetic; a matrix is a function of row and column, with its dimensions given
    separately; [None] is NaN. Means and variances are written as their formulas (the loops that compute them are C86). The elements
    of the data are numbers. LAPACK's dgesvd is a parameter. *)
From Verif Require Export Base DcModel.
Local Open Scope R_scope.

(** ** Standardization *)
(** matrix.cpp:3133-3195 ColumnsMeans, ColumnsVariances and ColumnsMeansVariances with Sample = true, CheckNan = false; n rows *)
Definition cmean (n : nat) (X : mtx) (j : nat) : R := sumr n (fun i => X i j) / INR n.
Definition cvar (n : nat) (X : mtx) (j : nat) : option R :=
  if (n <? 2)%nat then None else Some (sumr n (fun i => (X i j - cmean n X j) * (X i j - cmean n X j)) / INR (n - 1)).
(** What dataset.cpp:222-290 leaves: the means and variances in use ([None]: not computed nor given), the kept and the removed columns
    and the elements of Result. *)
Record stdz := Stdz { z_means : option vec; z_vars : option (nat -> option R); z_kept : list nat; z_removed : list nat; z_val : nat -> nat -> option R }.
(** matrix.cpp:3071-3130: an element of ColumnsStandard (means, vars, true) *)
Definition std_cell (m : option R) (v : option (option R)) (x : R) : option R :=
  let x := match m with Some m => x - m | None => x end in
  match v with
  | None => Some x
  | Some None => None
  | Some (Some s) => if Req_EM_T s 0 then None else Some (x / sqrt s)
  end.
Definition is_zero (v : option R) : bool := match v with Some s => if Req_EM_T s 0 then true else false | None => false end.
(** dataset.cpp:195-292; [rz] is removeZeroVar, [om] and [ov] are overrideMean and overrideVariance (of k elements). n x k data.
    The removed columns are found by IndicesOfVector (0, .) and removed by RemoveColumnsIn (C70). *)
Definition standardize (rz center scale : bool) (om : option vec) (ov : option (nat -> option R)) (n k : nat) (X : mtx) : res stdz :=
  if ((k =? 0) || (n =? 0))%nat then Throw else
  let rz := (scale && rz)%bool in
  let m := if center then Some (match om with Some m => m | None => cmean n X end) else None in
  let v := if scale then Some (match ov with Some v => v | None => cvar n X end) else None in
  let gone j := match v with Some v => (rz && is_zero (v j))%bool | None => false end in
  let keep := filter (fun j => negb (gone j)) (seq 0 k) in
  Ok (Stdz m v keep (filter gone (seq 0 k))
    (fun i j => let c := nth j keep 0%nat in
       std_cell (match m with Some m => Some (m c) | None => None end) (match v with Some v => Some (v c) | None => None end) (X i c))).

(** ** Principal components *)
(** The declared object: does it compute PCs, checkZeroVar, center, scale. *)
Record pca := Pca { p_pcs : bool; p_rz : bool; p_center : bool; p_scale : bool }.
(** The results. p_dirs is Directions, k x k (row l is the l-th direction); p_stds are min (rows, k) numbers, and so are the ratios. *)
Record pcar := Pcar { r_k : nat; r_mn : nat; r_removed : list nat; r_dirs : mtx; r_stds : vec; r_ratios : nat -> option R;
  r_pcs : mtx; r_forecasts : option mtx }.
(** Result of dgesvd with jobU = 'N' and jobVT = 'S': singular values and the first min (n, k) rows of V'; matrix_la.cpp:760-785,
    decompositions.cpp:48-74. [None]: info <> 0. *)
Definition svd_fun := nat -> nat -> mtx -> option (vec * mtx).
(** All elements are numbers. *)
Definition numbers (n k : nat) (Z : nat -> nat -> option R) : bool :=
  forallb (fun i => forallb (fun j => match Z i j with Some _ => true | None => false end) (seq 0 k)) (seq 0 n).
Definition tonum (o : option R) : R := match o with Some x => x | None => 0 end.

Section Pca.
(** [junk] is the content of the part of the storage of Directions that dgesvd does not write: rows min (n, k), ... *)
Context (svd : svd_fun) (junk : mtx).
(** pca.cpp:71-89 the data, standardized if asked for; k0 is the number of columns *)
Definition pca_data (p : pca) (n k0 : nat) (X : mtx) : res stdz :=
  if (p_center p || p_scale p)%bool then standardize (p_rz p) (p_center p) (p_scale p) None None n k0 X
  else if ((k0 =? 0) || (n =? 0))%nat then Throw (* decompositions.cpp:13, in the constructor of pca.cpp:52 *)
  else Ok (Stdz None None (seq 0 k0) [] (fun i j => Some (X i j))).
(** pca.cpp:49-138 Calculate for a matrix of n rows and k0 columns; [F] are the rows to forecast, a matrix of (rows, columns). The check of
    sizes (pca.cpp:73-77) is in pca_fits below. [Ok None]: the data contains NaN after standardization; then the result of dgesvd, and with it all, is
    unspecified. *)
Definition pca_calculate (p : pca) (n k0 : nat) (X : mtx) (F : option (nat * nat * mtx)) : res (option pcar) :=
  if (match F with Some (_, c, _) => negb (c =? k0)%nat | None => false end) then Throw else
  do z <- pca_data p n k0 X;
  let k := length (z_kept z) in
  if (k =? 0)%nat then Throw (* decompositions.cpp:13 *) else
  if negb (numbers n k (z_val z)) then Ok None else
  let U := fun i j => tonum (z_val z i j) in
  match svd n k U with
  | None => Throw
  | Some (s, vt) =>
      let mn := Nat.min n k in
      let D := fun l j => if (l <? mn)%nat then vt l j else junk l j in
      (* r = 1 / sqrt (rows - 1): infinite for one row *)
      if (n =? 1)%nat then Ok None else
      let stds := fun l => s l * (1 / sqrt (INR (n - 1))) in
      let varsum := sumr mn (fun l => stds l * stds l) in
      let ratios := fun l => if Req_EM_T varsum 0 then None else Some (stds l * stds l / varsum) in
      let pcs := fun i l => sumr k (fun j => U i j * D l j) in
      do f <- (match F with
               | None => Ok None
               | Some (nf, _, G) =>
                   if (nf =? 0)%nat then Ok None else
                   if (p_center p || p_scale p)%bool then
                     do zf <- standardize (p_rz p) (p_center p) (p_scale p) (z_means z) (z_vars z) nf k0 G;
                     Ok (Some (fun i l => sumr k (fun j => tonum (z_val zf i j) * D l j)))
                   else Ok (Some (fun i l => sumr k (fun j => G i j * D l j)))
               end);
      Ok (Some (Pcar k mn (z_removed z) D stds ratios (if p_pcs p then pcs else fun _ _ => 0) f))
  end.
End Pca.

(** ** The number of components *)
Record popts := Popts { o_ignore : Z; o_exact : Z; o_rate : R; o_max : Z }.
(** pca.h, IsEnabled *)
Definition enabled (o : popts) : bool := (negb (o_exact o =? 0)%Z || (if Req_EM_T (o_rate o) 0 then false else true))%bool.
Definition rltb (a b : R) : bool := if Rlt_dec a b then true else false.
Definition rleb (a b : R) : bool := if Rle_dec a b then true else false.
(** pca.cpp:207-231 CheckValidity *)
Definition check_validity (o : popts) : res unit :=
  if negb (enabled o) then Ok tt
  else if (o_ignore o <? 0)%Z then Throw
  else if (0 <? o_exact o)%Z then Ok tt
  else if Req_EM_T (o_rate o) 0 then Ok tt
  else if (rleb (o_rate o) 0 || rleb 1 (o_rate o))%bool then Throw
  else if (o_max o =? 0)%Z then Throw else Ok tt.
(** pca.cpp:140-152 the loop; [c] is col_cut and [cs] cumsum; a comparison with NaN is false *)
Fixpoint cut_loop (rate : R) (l : list (option R)) (c : Z) (cs : option R) : Z :=
  match l with
  | [] => c
  | x :: t => let cs := match cs, x with Some a, Some b => Some (a + b) | _, _ => None end in
      if (match cs with Some a => rltb rate a | None => false end) then c else cut_loop rate t (c + 1) cs
  end.
(** Stds2Ratios as a list; empty before the first calculation *)
Definition ratio_list (r : option pcar) : list (option R) := match r with Some r => map (r_ratios r) (seq 0 (r_mn r)) | None => [] end.
Definition cutoff_column (rate : R) (l : list (option R)) : res Z :=
  if (rleb rate 0 || rleb 1 rate)%bool then Throw else Ok (cut_loop rate l 1 (Some 0)).
(** pca.cpp:233-240 GetFinalCount *)
Definition final_count (o : popts) (l : list (option R)) : res Z :=
  if negb (o_exact o =? 0)%Z then Ok (o_exact o)
  else do c <- cutoff_column (o_rate o) l; Ok (Z.min c (o_max o)).

(** pca.cpp:154-205 CalculateForModel with data of n rows and k0 columns and data for forecasting [F]: the number of columns and the elements of both after
    it. UB: a pointer before the data (negative IgnoreFirstCount), or the matrices restructured to more columns than they have (or a negative number). *)
Definition for_model (svd : svd_fun) (junk : mtx) (o : popts) (n k0 : nat) (X : mtx) (F : option (nat * nat * mtx)) : res (option (nat * mtx * option mtx)) :=
  if (match F with Some (_, c, _) => negb (c =? k0)%nat | None => false end) then Throw
  else if (Z.of_nat k0 <=? o_ignore o)%Z then Throw
  else if (o_ignore o <? 0)%Z then UB
  else
    let g := Z.to_nat (o_ignore o) in
    let drop (A : mtx) : mtx := fun i j => A i (g + j)%nat in
    do r <- pca_calculate svd junk (Pca true true true true) n (k0 - g) (drop X) (match F with Some (nf, c, G) => Some (nf, (c - g)%nat, drop G) | None => None end);
    match r with
    | None => Ok None
    | Some r =>
        if negb (match r_removed r with [] => true | _ => false end) then Throw else
        do c <- final_count o (ratio_list (Some r));
        if ((c <? 0) || (Z.of_nat (k0 - g) <? c))%Z%bool then UB else
        let put (A B : mtx) : mtx := fun i j => if (j <? g)%nat then A i j else B i (j - g)%nat in
        Ok (Some ((g + Z.to_nat c)%nat, put X (r_pcs r), match F, r_forecasts r with Some (_, _, G), Some f => Some (put G f) | Some (_, _, G), None => Some G | None, _ => None end))
    end.

(** ** Sizes *)
Local Open Scope Z_scope.
(** dataset.cpp:195-221 *)
Definition std_storage (rows cols : Z) (center scale : bool) : Z := rows * cols + (if center then cols else 0) + (if scale then cols else 0).
(** decompositions.cpp:11-35 *)
Definition svd_work (rows cols : Z) : Z := rows * cols + 2 * Z.max (3 * Z.min rows cols + Z.max rows cols) (5 * Z.min rows cols).
(** pca.cpp:19-47: storage and work *)
Definition pca_sizes (p : pca) (rows cols nf : Z) : Z * Z :=
  let cs := (p_center p || p_scale p)%bool in
  let work := svd_work rows cols in
  let storage := cols * cols + Z.min rows cols * 2 in
  let storage := if cs then storage + std_storage rows cols (p_center p) (p_scale p) else storage in
  let work := if cs then work else work + rows * cols in
  let storage := if 0 <? nf then storage + nf * cols else storage in
  let work := if (0 <? nf) && cs then Z.max work (std_storage nf cols (p_center p) (p_scale p)) else work in
  (if p_pcs p then storage + rows * cols else storage, work).
(** pca.cpp:73-77 and dataset.cpp:229-231: the declared sizes are (R, C, NF), the data has (rows, cols, nf) *)
Definition pca_fits (p : pca) (R C NF rows cols nf : Z) : bool :=
  let t := pca_sizes p rows cols nf in let d := pca_sizes p R C NF in
  (negb ((snd d <? snd t) || (fst d <? fst t)) &&
   (if (p_center p || p_scale p)%bool then std_storage rows cols (p_center p) (p_scale p) <=? std_storage R C (p_center p) (p_scale p) else true))%bool.
(** A block of doubles: first position and length. *)
Definition part := (Z * Z)%type.
(** pca.cpp:79-134: the parts of the storage, k columns are left: DataS, Stds, Directions, Stds2Ratios, PCs, Forecasts *)
Definition pca_parts (p : pca) (R C rows cols k nf : Z) : list part :=
  let cs := (p_center p || p_scale p)%bool in
  let q0 := if cs then std_storage R C (p_center p) (p_scale p) else 0 in
  let mn := Z.min rows k in
  (if cs then [(0, std_storage rows cols (p_center p) (p_scale p))] else []) ++
  [(q0, mn); (q0 + mn, k * k); (q0 + mn + k * k, mn)] ++
  (let q := q0 + mn + k * k + mn in
   (if p_pcs p then [(q, rows * k)] else []) ++ (if 0 <? nf then [((if p_pcs p then q + rows * k else q), nf * k)] else [])).
(** pca.cpp:86-89, 99, 121-131: the parts of the work array that are used together: the copy of the data (if not standardized) and the work
    of the decomposition; later, the standardized data for forecasting *)
Definition pca_work_parts (p : pca) (rows cols k nf : Z) : list (list part) :=
  let cs := (p_center p || p_scale p)%bool in
  [if cs then [(0, svd_work rows k)] else [(0, rows * cols); (rows * cols, svd_work rows k)];
   if (0 <? nf) && cs then [(0, std_storage nf cols (p_center p) (p_scale p))] else []].
