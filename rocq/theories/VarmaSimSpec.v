(** What the out-of-sample simulation of a VARMA model should report. *)
From Verif Require Export VarmaSimModel.
Local Open Scope Z_scope.

(** The horizons are positive and not decreasing. *)
Fixpoint ascending (l : list Z) : Prop := match l with a :: ((b :: _) as t) => a <= b /\ ascending t | _ => True end.
Definition good_horizons (hs : list Z) : Prop := hs <> [] /\ ascending hs /\ Forall (fun h => 1 <= h) hs.
Definition implemented_v (k : scoring) : Prop := match k with SFrequencyCost | SAuc | SBrier => False | _ => True end.

Section Spec.
Context (root : Qc -> fl) (binv : Qc -> Qc -> fl) (crps : Qc -> Qc -> fl).

(** count, count - 1, ..., 1: how many observations at the end are left out *)
Definition origins (count : Z) : list Z := map (fun i => count - Z.of_nat i) (seq 0 (Z.to_nat count)).
(** An origin is tried if some horizon can be compared with an observation. *)
Definition tried (hs : list Z) (se : Z) : bool := existsb (fun h => h <=? se) hs.
(** The estimations in their order; one may start from the previous estimates if this is asked for and one has succeeded before. *)
Fixpoint estimations (prev : bool) (est : Z -> bool -> vfit) (ses : list Z) (success : bool) : list (Z * vfit) :=
  match ses with
  | [] => []
  | se :: t => let o := est se (prev && success) in (se, o) :: estimations prev est t (success || vfit_ok o)
  end.
Definition runs (c : vset) (est : Z -> bool -> vfit) : list (Z * vfit) := estimations (vs_prev c) est (filter (tried (vs_horizons c)) (origins (vs_count c))) false.
(** The value of variable b at time t, and of the h-step forecast. *)
Definition obs (y : list (list fl)) (t : Z) (b : nat) : fl := nth b (nth (Z.to_nat t) y []) None.
Definition unbox (ls : option (list fl)) (b : nat) (v : fl) : fl :=
  match ls with
  | None => v
  | Some ls => match nth b ls None, v with Some l, Some x => binv l x | _, _ => v end
  end.
(** One comparison: actual value, forecast, standard deviation and the last value which was used, in original units. *)
Record compared := Cmp { q_act : fl; q_forc : fl; q_std : fl; q_last : fl }.
Definition compare_at (c : vset) (y f v : list (list fl)) (se h : Z) (b : nat) : compared :=
  Cmp (unbox (vs_lambdas c) b (obs y (vs_last c - se + h) b)) (unbox (vs_lambdas c) b (obs f (h - 1) b))
      (unbox (vs_lambdas c) b (fbind root (obs v (h - 1) b))) (unbox (vs_lambdas c) b (obs y (vs_last c - se) b)).
Definition within (hs : list Z) (se : Z) : list Z := filter (fun h => h <=? se) hs.
(** All comparisons for variable b: for each successful estimation, the horizons which end within the data. *)
Definition comparisons (c : vset) (y : list (list fl)) (b : nat) (rs : list (Z * vfit)) : list compared :=
  flat_map (fun '(se, o) => match o with VFail _ => [] | VFit f v => map (fun h => compare_at c y f v se h b) (within (vs_horizons c) se) end) rs.
(** The score of one comparison. *)
Definition same_side (l a f : Qc) : bool := (qltb l a && qltb l f) || (qltb a l && qltb f l) || (qeqb a l && qeqb f l).
Definition cmp_score (k : scoring) (q : compared) : fl :=
  match k with
  | SDirection => match q_act q, q_forc q, q_last q with
                  | Some a, Some f, Some l => Some (if same_side l a f then 1 else 0)%Qc
                  | _, None, _ => None
                  | _, _, _ => Some 0%Qc
                  end
  | SSign => match q_act q, q_forc q with
             | Some a, Some f => Some (if qeqb (a * f) 0 then half else if qltb (a * f) 0 then 0 else 1)%Qc
             | _, None => None
             | None, Some f => Some (if qeqb f 0 then half else 1)%Qc
             end
  | SMae => fabs (q_act q -f q_forc q)
  | SMape => match q_act q with Some a => if qltb 0 a then fabs (q_act q -f q_forc q) /f Some a else None | None => None end
  | SRmse => (q_act q -f q_forc q) *f (q_act q -f q_forc q)
  | SRmspe => match q_act q with Some a => if qltb 0 a then ((q_act q -f q_forc q) *f (q_act q -f q_forc q)) /f (Some a *f Some a) else None | None => None end
  | SCrps => match q_act q -f q_forc q, q_std q with Some e, Some s => crps e s | _, _ => None end
  | _ => None
  end.
(** NaN if one of the values is NaN or there is none. *)
Definition cmp_mean (k : scoring) (qs : list compared) : fl := fsum (map (cmp_score k) qs) /f Some (qz (Z.of_nat (List.length qs))).
Definition cmp_summary (k : scoring) (v : fl) : fl :=
  match k with
  | SRmse => fbind root v
  | SMape => v *f Some (qz 100)
  | SRmspe => fbind root v *f Some (qz 100)
  | _ => v
  end.
(** How many estimations failed or succeeded, and how many comparisons there are. *)
Definition failures (rs : list (Z * vfit)) : Z := Z.of_nat (List.length (filter (fun r => negb (vfit_ok (snd r))) rs)).
Definition successes (rs : list (Z * vfit)) : Z := Z.of_nat (List.length (filter (fun r => vfit_ok (snd r)) rs)).
Definition pairs (hs : list Z) (rs : list (Z * vfit)) : Z := fold_right Z.add 0 (map (fun r => if vfit_ok (snd r) then Z.of_nat (List.length (within hs (fst r))) else 0) rs).

(** The details which are kept: one for each successful estimation, metric, horizon and variable. *)
Definition details (c : vset) (y : list (list fl)) (rs : list (Z * vfit)) : list vdetail :=
  flat_map (fun '(se, o) => match o with VFail _ => [] | VFit f v =>
    flat_map (fun m => flat_map (fun h => map (fun b => let q := compare_at c y f v se h b in
      VDet se (Z.of_nat m) h (Z.of_nat b) (q_last q) (q_act q) (q_forc q) (q_act q -f q_forc q) (q_std q)) (seq 0 (vs_yy c))) (within (vs_horizons c) se)) (seq 0 (List.length (vs_metrics c))) end) rs.
(** The messages of the failed estimations. *)
Definition messages (rs : list (Z * vfit)) : list String.string := flat_map (fun r => match snd r with VFail msg => [msg] | VFit _ _ => [] end) rs.
(** What the caller has to provide. *)
Definition rows_ok (yy : nat) (M : list (list fl)) : Prop := forall r, In r M -> List.length r = yy.
Definition fits_ok (c : vset) (est : Z -> bool -> vfit) : Prop := forall se p f v, 1 <= se <= vs_count c -> est se p = VFit f v ->
  rows_ok (vs_yy c) f /\ rows_ok (vs_yy c) v /\ Z.min se (last (vs_horizons c) 0) <= Z.of_nat (List.length f) /\ Z.min se (last (vs_horizons c) 0) <= Z.of_nat (List.length v).
Record call_v (c : vset) (y : list (list fl)) (est : Z -> bool -> vfit) : Prop := {
  cv_hs : good_horizons (vs_horizons c);
  cv_ks : Forall implemented_v (vs_metrics c);
  cv_y : rows_ok (vs_yy c) y;
  cv_last : vs_last c = Z.of_nat (List.length y) - 1;
  cv_T : vs_T c <= Z.of_nat (List.length y);
  cv_pos : 0 < vs_count c;
  cv_count : vs_count c < vs_T c;
  cv_size : vs_count c < vs_sizes_T c;
  cv_fit : fits_ok c est;
  cv_lam : match vs_lambdas c with None => True | Some ls => (vs_yy c <= List.length ls)%nat end }.
End Spec.
