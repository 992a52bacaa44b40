(** Model of SearcherSummary (/repo/src/ldt_statistics/modeling/search/summary.cpp) and of the
    combination functions of /repo/src/ldt_statistics/modeling/search/modelset.cpp. *)
From Verif Require Import Num MomentsModel.
Local Open Scope Qc_scope.

(** searchers.h:23-58 EstimationKeep (Mean/Variance enter only the functions below which take them
    as arguments; Extra is not used by the summaries). Metrics and weights are finite numbers: the
    searchers skip NaN metrics (searcher_reg.cpp). *)
Record keep := { k_id : Z; k_metric : Qc; k_weight : Qc; k_endo : list nat; k_exo : list nat }.

(** searchers.h:60-68 EstimationKeepComp. *)
Definition better (pos : bool) (a b : keep) : bool :=
  if pos then qltb (k_metric b) (k_metric a) else qltb (k_metric a) (k_metric b).

(** std::multiset::insert: behind the elements that are not ordered after the new one. *)
Fixpoint mset_insert {A} (lt : A -> A -> bool) (x : A) (l : list A) : list A :=
  match l with
  | [] => [x]
  | y :: l' => if lt x y then x :: l else y :: mset_insert lt x l'
  end.

(** summary.cpp:144-150 (Bests part of Push); [K] is KeepBestCount. *)
Definition push_best (pos : bool) (K : Z) (bests : list keep) (e : keep) : list keep :=
  if (K =? 0)%Z then bests
  else
    let b := mset_insert (better pos) e bests in
    if (K <? Z.of_nat (length b))%Z then removelast b else b.

Definition bests_of (pos : bool) (K : Z) (h : list keep) : list keep :=
  fold_left (push_best pos K) h [].

(** searchers.h:300-345: the identifying part of a summary and its Bests. *)
Record summary := { s_idx : Z * Z * Z; s_bests : list keep }.

Definition idx_eqb (a b : Z * Z * Z) : bool :=
  let '(a1, a2, a3) := a in let '(b1, b2, b3) := b in
  ((a1 =? b1) && (a2 =? b2) && (a3 =? b3))%Z.

(** modelset.cpp:194-206: the loop over i for one element w. *)
Fixpoint combine_loop (k : Z) (w : keep) (cnt : nat) (i : nat) (result : list keep) : list keep :=
  match cnt with
  | O => result
  | S c =>
      if (length result <=? i)%nat then
        let r := result ++ [w] in
        if (k <? Z.of_nat (length r))%Z then removelast r else r
      else
        match nth_error result i with
        | Some x =>
            if qltb (k_weight x) (k_weight w) then
              let r := firstn i result ++ w :: skipn i result in
              if (k <? Z.of_nat (length r))%Z then removelast r else r
            else combine_loop k w c (S i) result
        | None => result (* not reachable *)
        end
  end.

(** modelset.cpp:180-210 CombineBests; [result] is empty on entry; [k] is KeepBestCount of the first
    summary. *)
Definition combine_bests (idx : Z * Z * Z) (k : Z) (ss : list summary) : res (list keep) :=
  if (length ss =? 0)%nat then Throw
  else if (k <=? 0)%Z then Ok []
  else Ok (fold_left (fun r s =>
         if idx_eqb (s_idx s) idx then
           fold_left (fun r w => combine_loop k w (Z.to_nat k) 0 r) (s_bests s) r
         else r) ss []).

(** modelset.cpp:163-178 CombineAll; [all] are the vectors All of the summaries. *)
Definition combine_all_models (idx : Z * Z * Z) (ss : list ((Z * Z * Z) * list keep)) : res (list keep) :=
  if (length ss =? 0)%nat then Throw
  else Ok (fold_left (fun r s => if idx_eqb (fst s) idx then r ++ snd s else r) ss []).

(** std::numeric_limits<double>::max() and ::min() (the smallest positive normal number). *)
Definition dbl_max : Qc := qz ((2 ^ 53 - 1) * 2 ^ 971).
Definition dbl_min : Qc := / qz (2 ^ 1022).

Definition qmin (a b : Qc) : Qc := if qltb b a then b else a.
Definition qmax (a b : Qc) : Qc := if qltb a b then b else a.

(** summary.cpp:130-132 and 183-187: extreme bounds; a pushed estimation is given by
    (mean - d, mean + d) with d = multiplier * sqrt(variance). *)
Definition bounds0 : Qc * Qc := (dbl_max, dbl_min).
Definition push_bounds (b : Qc * Qc) (e : Qc * Qc) : Qc * Qc := (qmin (fst b) (fst e), qmax (snd b) (snd e)).
Definition bounds_of (h : list (Qc * Qc)) : Qc * Qc := fold_left push_bounds h bounds0.

(** modelset.cpp:246-265 CombineExtremeBounds (matching summaries only). *)
Definition combine_bounds (bs : list (Qc * Qc)) : Qc * Qc :=
  fold_left (fun a b => (if qltb (fst b) (fst a) then fst b else fst a,
                         if qltb (snd a) (snd b) then snd b else snd a)) bs bounds0.

(** summary.cpp:133-136 and 157-162: inclusion information of a summary; std::vector::at throws. *)
Definition push_incl1 (w : Qc) (info : res (list moms)) (i : nat) : res (list moms) :=
  do l <- info;
  match nth_error l i with
  | None => Throw
  | Some m => Ok (upd i (push_new 1 false m (Some w) 1) l)
  end.
Definition push_incl (info : res (list moms)) (e : keep) : res (list moms) :=
  fold_left (push_incl1 (k_weight e)) (k_exo e) (fold_left (push_incl1 (k_weight e)) (k_endo e) info).
Definition incl_of (n : nat) (h : list keep) : res (list moms) :=
  fold_left push_incl h (Ok (repeat moms0 n)).

(** modelset.cpp:212-227 CombineInclusionWeights: the matching summaries' entry [i]. *)
Definition combine_incl (i : nat) (infos : list (list moms)) : res moms :=
  if (length infos =? 0)%nat then Throw
  else fold_left (fun r info => do m <- r;
         match nth_error info i with None => Throw | Some x => Ok (combine_moms 1 m x) end)
       infos (Ok moms0).
