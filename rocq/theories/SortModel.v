(** Model of sorting by index: /repo/include/helpers.h:128-160 (SortIndexes, for arrays and vectors) and
    /repo/src/matrix/matrix.cpp:859-947 (SortByVector, SortRowsBy, SortColumnsBy, SortIndicesVector).
    std::stable_sort is modelled by stable insertion; that any stable sort returns the same list is
    theorem c31_unique. Comparisons with NaN are not modelled. *)
From Verif Require Export Base Num.
Local Open Scope nat_scope.

(** One step of a stable insertion sort: behind all elements that are not greater. *)
Fixpoint stable_insert {A} (lt : A -> A -> bool) (x : A) (l : list A) : list A :=
  match l with
  | [] => [x]
  | y :: t => if lt x y then x :: l else y :: stable_insert lt x t
  end.
Definition stable_sort {A} (lt : A -> A -> bool) (l : list A) : list A := fold_left (fun r x => stable_insert lt x r) l [].

(** helpers.h:128-160, matrix.cpp:935-947: iota, then stable_sort comparing v[i1] with v[i2]. *)
Definition sort_indexes (asc : bool) (v : list Qc) : list nat :=
  stable_sort (fun i j => if asc then qltb (nth i v 0%Qc) (nth j v 0%Qc) else qltb (nth j v 0%Qc) (nth i v 0%Qc)) (seq 0 (length v)).

Definition maxl (l : list Z) : option Z := match l with [] => None | a :: t => Some (fold_left Z.max t a) end.
(** matrix.cpp:859-880 SortByVector: the data of this matrix and of storage; *std::max_element of an
    empty vector and a negative index are undefined behaviour. *)
Fixpoint gather {A} (d : list A) (idx : list Z) : res (list A) :=
  match idx with
  | [] => Ok []
  | i :: t => if (i <? 0)%Z then UB else match nth_error d (Z.to_nat i) with None => UB | Some x => do r <- gather d t; Ok (x :: r) end
  end.
Definition sort_by_vector {A} (d storage : list A) (idx : list Z) : res (list A) :=
  if negb (length storage =? length d) then Throw
  else if negb (length idx =? length d) then Throw
  else match maxl idx with
       | None => UB
       | Some m => if (Z.of_nat (length storage) - 1 <? m)%Z then Throw else gather d idx
       end.
