(** Specification of best-lists, bounds and inclusion weights. *)
From Verif Require Import Num SummaryModel.
Local Open Scope Qc_scope.

(** [a] (push number, estimation) is ranked before [b]: strictly better metric, or the same metric
    and pushed earlier. *)
Definition ranks_before (pos : bool) (a b : nat * keep) : Prop :=
  (if pos then k_metric (snd b) < k_metric (snd a) else k_metric (snd a) < k_metric (snd b)) \/
  (k_metric (snd a) = k_metric (snd b) /\ (fst a < fst b)%nat).

(** [R] consists of the [K] elements of [M] with the largest [key], in decreasing order. *)
Definition top {A} (key : A -> Qc) (K : nat) (M R : list A) : Prop :=
  exists rest, Permutation M (R ++ rest) /\
    StronglySorted (fun a b => key b <= key a) R /\
    (forall a b, In a R -> In b rest -> key b <= key a) /\
    length R = Nat.min K (length M).

(** Mean and number of the weights of the models that contain variable [i] (a model that lists it
    twice counts twice). *)
Definition weights_with (i : nat) (h : list keep) : list Qc :=
  flat_map (fun e => repeat (k_weight e) (count_occ Nat.eq_dec (k_endo e ++ k_exo e) i)) h.

(** Histories: for every searcher the index of its summary and the models pushed into it; the
    summaries they produce, and all models pushed at index [idx]. *)
Definition summaries_of (pos : bool) (K : Z) (hs : list ((Z * Z * Z) * list keep)) : list summary :=
  map (fun h => {| s_idx := fst h; s_bests := bests_of pos K (snd h) |}) hs.
Definition idx_dec (a b : Z * Z * Z) : {a = b} + {a <> b}.
Proof. repeat decide equality. Defined.
Definition models_at (idx : Z * Z * Z) (hs : list ((Z * Z * Z) * list keep)) : list keep :=
  concat (map snd (filter (fun h => if idx_dec (fst h) idx then true else false) hs)).

(** [m] is the least (greatest) element of [l]. *)
Definition is_min (m : Qc) (l : list Qc) : Prop := In m l /\ Forall (fun x => m <= x) l.
Definition is_max (m : Qc) (l : list Qc) : Prop := In m l /\ Forall (fun x => x <= m) l.
