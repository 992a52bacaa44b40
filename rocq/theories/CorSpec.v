(** Specification of covariance matrices. *)
From Verif Require Export ColSpec StatSpec DataSpec.
Local Open Scope Z_scope.

(** A square matrix of n rows with the elements v: all, or only those on and above the diagonal. *)
Definition square_of {T} (n : Z) (all : bool) (v : Z -> Z -> T) (S : mat T) : Prop :=
  nrows S = n /\ ncols S = n /\ forall i j, 0 <= i < n -> 0 <= j < n -> i <= j \/ all = true -> entry S i j = Some (v i j).
(** The numbers of a list have their ranks: the number of larger ones. *)
Definition ranks (l : list Qc) : list Qc := map (fun x => qz (rank_of false x l)) l.
(** The pairs of ranks of a list of pairs. *)
Definition rank_pairs (P : list (Qc * Qc)) : list (Qc * Qc) := combine (ranks (xs P)) (ranks (ys P)).
(** The pairs of elements in columns i and j. *)
Definition col_pairs (M : mat Qc) (i j : Z) : list (Qc * Qc) := map (fun k => (el M k i, el M k j)) (upto (nrows M)).
