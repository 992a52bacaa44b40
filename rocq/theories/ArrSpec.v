(** Specifications for arrays with missing values: ranges, interpolation, partitions.
    Nothing here refers to the model of the code. *)
From Verif Require Export Base Num.
Local Open Scope nat_scope.

Section Data.
Context {A : Type}.
(** Position [j] holds the known value [v]; position [j] is missing. *)
Definition val (d : list (option A)) (j : nat) (v : A) : Prop := nth_error d j = Some (Some v).
Definition known (d : list (option A)) (j : nat) : Prop := exists v, val d j v.
Definition missing (d : list (option A)) (j : nat) : Prop := nth_error d j = Some None.
Definition first_known (d : list (option A)) (a : nat) : Prop := known d a /\ forall j, known d j -> a <= j.
Definition last_known (d : list (option A)) (b : nat) : Prop := known d b /\ forall j, known d j -> j <= b.
Definition num_known (d : list (option A)) : nat := length (filter (fun x => match x with Some _ => true | None => false end) d).
End Data.

(** The straight line through (a, va) and (b, vb), at j. *)
Definition on_line (a b j : nat) (va vb : Qc) : Qc :=
  (va + (qn j - qn a) * ((vb - va) / (qn b - qn a)))%Qc.

(** What interpolation must do. *)
Record interpolated (d d' : list (option Qc)) : Prop := {
  itp_length : length d' = length d;
  itp_known : forall j v, val d j v -> val d' j v;
  itp_gap : forall a j b va vb, a < j < b -> val d a va -> val d b vb ->
     (forall i, a < i < b -> missing d i) -> val d' j (on_line a b j va vb);
  itp_outer : forall j, missing d j ->
     (forall i, known d i -> j < i) \/ (forall i, known d i -> i < j) -> missing d' j }.

(** A list cut in consecutive blocks. *)
Definition blocks_of {A} (d : list A) (p : list (list A)) : Prop := concat p = d.
(** Blocks of [size] items, the last one (the first one) possibly shorter but not empty. *)
Definition short_last {A} (size : nat) (p : list (list A)) : Prop :=
  p = [] \/ exists full l, p = full ++ [l] /\ Forall (fun b => length b = size) full /\ 1 <= length l <= size.
Definition short_first {A} (size : nat) (p : list (list A)) : Prop :=
  p = [] \/ exists full l, p = l :: full /\ Forall (fun b => length b = size) full /\ 1 <= length l <= size.
