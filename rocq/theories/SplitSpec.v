(** Specification of splits of the rows of a matrix. *)
From Verif Require Export MatSpec.
From Coq Require Export Permutation.
From Coq Require Import Qround.
Local Open Scope Z_scope.

(** Row i; all rows. *)
Definition row_of (M : mat Qc) (i : Z) : list (option Qc) := map (fun j => entry M i j) (upto (ncols M)).
Definition rows_of (M : mat Qc) : list (list (option Qc)) := map (row_of M) (upto (nrows M)).
(** The class of a row is the integer part of its first element. *)
Definition class_of_row (r : list (option Qc)) : option Z :=
  match r with Some q :: _ => Some (Z.quot (Qnum q) (Zpos (Qden q))) | _ => None end.
(** Number of rows of class c. *)
Definition class_count (c : Z) (M : mat Qc) : Z :=
  Z.of_nat (length (filter (fun r => match class_of_row r with Some x => x =? c | None => false end) (rows_of M))).
(** Rounding to the nearest integer, halves up. *)
Definition half_up (q : Qc) : Z := Qfloor (q + Q2Qc (1 # 2))%Qc.
(** The training part of a class of m rows: the rounded fraction, but at least one row and (with two
    rows or more) not all. *)
Definition fair_share (ratio : Qc) (m : Z) : Z := Z.max 1 (Z.min (m - 1) (half_up (ratio * qz m)%Qc)).
Definition zsum (l : list Z) : Z := fold_right Z.add 0 l.
(** The training rows of all classes but [big]. *)
Definition other_shares (ratio : Qc) (k : Z) (big : Z) (M : mat Qc) : Z :=
  zsum (map (fun c => fair_share ratio (class_count c M)) (filter (fun c => negb (c =? big)) (upto k))).
(** [big] is a largest class. *)
Definition largest_class (k big : Z) (M : mat Qc) : Prop := 0 <= big < k /\ forall c, 0 <= c < k -> class_count c M <= class_count big M.
