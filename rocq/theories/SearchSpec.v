(** What a user of the search expects, independent of the generator. *)
From Verif Require Import Base.

(** A position of the search: [ps] are the indices of the chosen partitions (increasing, so a
    set of [k] partitions), the first [fx] partitions are always chosen, and [is_] picks one item
    of each chosen partition. *)
Definition choice (P : list (list Z)) (k fx : nat) (ps is_ : list nat) : Prop :=
  length ps = k /\ StronglySorted lt ps /\ Forall (fun p => p < length P) ps /\
  (forall j, j < fx -> nth_error ps j = Some j) /\
  Forall2 (fun p i => i < length (nth p P [])) ps is_.

(** The variables of the model at a position. *)
Definition model_at (P : list (list Z)) (ps is_ : list nat) : list Z :=
  map (fun pi => nth (snd pi) (nth (fst pi) P []) 0%Z) (combine ps is_).

(** Sum over all [k]-subsets of the product (elementary symmetric polynomial). *)
Fixpoint esym (k : nat) (l : list nat) : nat :=
  match k, l with
  | O, _ => 1
  | S _, [] => 0
  | S k', x :: l' => x * esym k' l' + esym k l'
  end.

Fixpoint prodl (l : list nat) : nat :=
  match l with [] => 1 | x :: l' => x * prodl l' end.

(** Number of models of size [k] containing one item of each of the first [fx] partitions. *)
Definition model_count (sizes : list nat) (k fx : nat) : nat :=
  prodl (firstn fx sizes) * esym (k - fx) (skipn fx sizes).

Section SearchWf.
  Local Open Scope Z_scope.
  (** Items grow inside each partition, and the first items grow along the partitions. *)
  Definition sorted_parts (P : list (list Z)) : Prop :=
    Forall (StronglySorted Z.le) P /\ StronglySorted Z.le (map (hd 0) P).
End SearchWf.

(** [well_formed P k fx]: no empty partition, 1 <= k <= number of partitions, at most k fixed. *)
Definition well_formed (P : list (list Z)) (k fx : nat) : Prop :=
  Forall (fun l => l <> []) P /\ 1 <= k <= length P /\ fx <= k.

(** The restriction of NumFixItems = [m] (0: none) is usable: items sorted, first item allowed. *)
Definition fix_ok (P : list (list Z)) (m : Z) : Prop :=
  m = 0%Z \/ (sorted_parts P /\ (hd 0 (hd [] P) < m)%Z).
