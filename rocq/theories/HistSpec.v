(** Specification of histograms: n axis points, n + 1 bins (below, between, above). *)
From Verif Require Import Num DescSpec.
Local Open Scope Z_scope.

Definition increasing (axis : list Qc) : Prop := forall i j, (i < j < length axis)%nat -> (nth i axis 0 < nth j axis 0)%Qc.
(** Half-open bins: bin p is [a(p-1), a(p)). *)
Definition half_open (axis : list Qc) (p : Z) (d : Qc) : bool :=
  ((p =? 0) || qleb (xat axis (p - 1)) d) && ((p =? Z.of_nat (length axis)) || qltb d (xat axis p)).
(** The documented bins (distributions.h:488-491): half-open, but the last one between two points is closed. *)
Definition documented (axis : list Qc) (p : Z) (d : Qc) : bool :=
  let n := Z.of_nat (length axis) in
  if p =? n - 1 then qleb (xat axis (n - 2)) d && qleb d (xat axis (n - 1))
  else if p =? n then qltb (xat axis (n - 1)) d
  else half_open axis p d.
Definition count (f : Qc -> bool) (l : list Qc) : Z := Z.of_nat (length (filter f l)).
Fixpoint zsum (l : list Z) : Z := match l with [] => 0 | x :: t => x + zsum t end.
(** Bins which are closed on the right: (a(p-1), a(p)]. *)
Definition half_closed (axis : list Qc) (p : Z) (d : Qc) : bool :=
  ((p =? 0) || qltb (xat axis (p - 1)) d) && ((p =? Z.of_nat (length axis)) || qleb d (xat axis p)).
Definition one (b : bool) : Z := if b then 1 else 0.
(** Where the last (largest) observation is counted: in its half-open bin if it is tied with another observation and
    is not the last point of the axis, otherwise in the bin which is closed on the right. *)
Definition last_counted (axis init : list Qc) (d : Qc) (p : Z) : bool :=
  if existsb (qeqb d) init && negb (qeqb d (xat axis (Z.of_nat (length axis) - 1))) then half_open axis p d else half_closed axis p d.
