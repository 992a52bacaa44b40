(** Model of /repo/src/ldt_statistics/modeling/linear/sur_extended.cpp without principal components. [None] is NaN in the data; the estimation (C90-C95) and the
    projection (C93) after their checks of sizes are parameters. Overflow of int is not modelled. *)
From Verif Require Export RegModel SurModel.
Local Open Scope Z_scope.

(** A double: NaN is [None]. *)
Definition val := option lim.
Definition vlt (a b : val) : bool :=
  match a, b with
  | Some (Num x), Some (Num y) => if Rlt_dec x y then true else false
  | Some NegInf, Some (Num _) | Some NegInf, Some PosInf | Some (Num _), Some PosInf => true
  | _, _ => false
  end.
(** The declared object: its members Data (storage, if there is one), Model and Projections, and the sizes. *)
Record sext := SExt { e_nan : bool; e_data : Z; e_model : sur_decl; e_proj : option proj_decl; e_storage : Z; e_work : Z }.
(** sur_extended.cpp:11-65 *)
Definition sext_new (N m k : Z) (restricted nan dets : bool) (np iter : Z) (var : bool) : res sext :=
  do ds <- (if nan then dataset_new N (m + k) else Ok 0);
  let model := declare N m k restricted dets iter in
  let storage := ds + sur_storage model in
  let work := Z.max 0 (sur_work model) in
  if 0 <? np then
    let p := PD np m k restricted var in
    Ok (SExt nan ds model (Some p) (storage + proj_storage p) (Z.max work (proj_work p)))
  else Ok (SExt nan ds model None storage work).
(** What the checks look at after the estimation. *)
Record quality := Quality { q_cn : val; q_aic : val; q_sic : val; q_r2 : val }.
Section Ext.
(** Sur::Calculate with y, x (rows) after its check of sizes; it throws if there are no rows. SurProjection::Calculate after its check. *)
Context {F P : Type} (estimate : list (list (option R)) -> list (list (option R)) -> res (F * quality)) (project : F -> list (list (option R)) -> res P).
Definition missing (r : list (option R)) : bool := existsb (fun a => match a with None => true | Some _ => false end) r.
(** dataset.cpp:33-60 (C30) *)
Definition usable (nan : bool) (rows : list (list (option R))) : list (list (option R)) := if nan then filter (fun r => negb (missing r)) rows else rows.
(** sur_extended.cpp:109-116 *)
Definition check_before (c : option chk) (count k : Z) : bool :=
  match c with
  | None => true
  | Some c => negb ((0 <? k_obs c) && (count <? k_obs c)) && negb ((0 <? k_dof c) && (count - k <? k_dof c))
  end.
(** sur_extended.cpp:155-170 *)
Definition check_after (c : option chk) (q : quality) : bool :=
  match c with
  | None => true
  | Some c => negb (k_checkcn_all c && vlt (Some (k_cn c)) (q_cn q)) && negb (vlt (Some (k_aic c)) (q_aic q)) && negb (vlt (Some (k_sic c)) (q_sic q)) && negb (vlt (q_r2 q) (Some (k_r2 c)))
  end.
(** sur_extended.cpp:67-174 Calculate: data of [cols] columns, the first [m] of them endogenous. [restr]: the allocated length of the restrictions (None: null). [x] are the rows of newX, with [xcols]
    columns. The temporary object: sur_extended.cpp:79-86 (Projections.mDoVariance is false if there is no such member: sur.h). UB: the restrictions are written outside of their memory. *)
Definition sext_calculate (e : sext) (data : list (list (option R))) (cols m : Z) (restr : option Z) (newx : option (list (list (option R)) * Z)) (c : option chk) : res (F * quality * option P) :=
  let N := Z.of_nat (length data) in
  let k := cols - m in
  if k <? 0 then Throw else
  let np := match newx with Some (x, _) => Z.of_nat (length x) | None => 0 end in
  let d := e_model e in
  do temp <- sext_new N m k (sd_restricted d) (e_nan e) (sd_details d) np (sd_iter d) (match e_proj e with Some p => pd_var p | None => false end);
  if (e_work e <? e_work temp) || (e_storage e <? e_storage temp) then Throw else
  let use := usable (e_nan e) data in
  let count := Z.of_nat (length use) in
  if negb (check_before c count k) then Throw else
  let y := map (firstn (Z.to_nat m)) use in
  let x := map (skipn (Z.to_nat m)) use in
  if (0 <? np) && match newx with Some (_, xc) => negb (xc =? k) | None => false end then Throw else
  if (0 <? sd_iter d) && match restr with None => true | _ => false end then Throw else
  if (0 <? sd_iter d) && match restr with None => false | Some l => l <? (m * k) * (m * k) end then UB else
  let need := declare count m k (sd_restricted d) (sd_details d) (sd_iter d) in
  if (sur_work d <? sur_work need) || (sur_storage d <? sur_storage need) then Throw else
  do '(f, q) <- estimate y x;
  if negb (check_after c q) then Throw else
  match newx with
  | Some (nx, _) =>
      if 0 <? np then
        match e_proj e with
        | None => Throw (* an empty SurProjection: sizes zero *)
        | Some p =>
            let pn := PD np m k (pd_restricted p) (pd_var p) in
            if (proj_work p <? proj_work pn) || (proj_storage p <? proj_storage pn) then Throw else
            do r <- project f nx; Ok (f, q, Some r)
        end
      else Ok (f, q, None)
  | None => Ok (f, q, None)
  end.
End Ext.
(** sur_extended.cpp:88-174: the parts of the storage of a call with [count] usable rows: Data, Model, Projections *)
Definition sext_parts (e : sext) (N m k count np : Z) : list (Z * Z) :=
  let p1 := if e_nan e then e_data e else 0 in
  let d := e_model e in
  (if e_nan e then [(0, count * (m + k))] else []) ++
  [(p1, sur_storage (declare count m k (sd_restricted d) (sd_details d) (sd_iter d)))] ++
  (if 0 <? np then [(p1 + sur_storage d, proj_storage (PD np m k (sd_restricted d) (match e_proj e with Some p => pd_var p | None => false end)))] else []).
