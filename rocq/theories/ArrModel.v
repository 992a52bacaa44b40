(** Model of /repo/src/array.cpp (index ranges, missing values, partitions).
    A double that may be NaN is [option A] ([None] is NaN). Pointers with a length are lists; reading
    outside is UB. *)
From Verif Require Export Base Num.
Local Open Scope Z_scope.

(** array.cpp:13-25 IndexRange: constructor, IsNotValid, Count. *)
Record irange := { i_start : Z; i_end : Z }.
Definition irange_make (s e : Z) : irange :=
  if (e <? s) || (s <? 0) || (e <? 0) then {| i_start := 1; i_end := 0 |} else {| i_start := s; i_end := e |}.
Definition is_not_valid (r : irange) : bool := i_end r <? i_start r.
Definition range_count (r : irange) : Z := i_end r - i_start r + 1.

(** data[i]. *)
Definition read {A} (d : list A) (i : Z) : res A :=
  if i <? 0 then UB else match nth_error d (Z.to_nat i) with Some x => Ok x | None => UB end.

(** array.cpp:34-36: the index of the first value that is not NaN, or the length. *)
Fixpoint start_loop {A} (d : list (option A)) : nat :=
  match d with None :: r => S (start_loop r) | _ => O end.
(** array.cpp:38-42: [n] is the loop variable [end]. *)
Fixpoint end_loop {A} (d : list (option A)) (n : nat) : nat :=
  match n with
  | O => O
  | S m => match nth_error d m with Some None => end_loop d m | _ => m end
  end.

(** array.cpp:30-50 GetRange without the missing-value flag. *)
Definition get_range {A} (d : list (option A)) : irange :=
  irange_make (Z.of_nat (start_loop d)) (Z.of_nat (end_loop d (List.length d))).

(** array.cpp:72-76: search for a NaN from [i], [n] positions. *)
Fixpoint missing_loop {A} (d : list (option A)) (i : nat) (n : nat) : res bool :=
  match n with
  | O => Ok false
  | S m => do x <- read d (Z.of_nat i); match x with None => Ok true | Some _ => missing_loop d (S i) m end
  end.

(** array.cpp:52-84 GetRange with the flag. *)
Definition get_range_m {A} (d : list (option A)) : res (irange * bool) :=
  let s := start_loop d in let e := end_loop d (List.length d) in
  if (e <? s)%nat then Ok (irange_make (Z.of_nat s) (Z.of_nat e), false)
  else do m <- missing_loop d s (e - s + 1); Ok (irange_make (Z.of_nat s) (Z.of_nat e), m).

(** ** Interpolate, array.cpp:86-124 *)
Definition cells := list (option Qc).
Definition write {A} (d : list A) (i : Z) (x : A) : res (list A) :=
  if (i <? 0) || (Z.of_nat (List.length d) <=? i) then UB else Ok (upd (Z.to_nat i) x d).

(** array.cpp:107-110: p from [p], [n] times. *)
Fixpoint fill_loop (d : cells) (i : Z) (v step : Qc) (p : Z) (n : nat) (count : Z) : res (cells * Z) :=
  match n with
  | O => Ok (d, count)
  | S m => do d' <- write d (i - p) (Some (v - qz p * step)%Qc); fill_loop d' i v step (p + 1) m (count + 1)
  end.

(** array.cpp:99-118: the loop over i; [len] and [first] as in the code, [inm] is inMissing. *)
Fixpoint interp_loop (d : cells) (i : Z) (n : nat) (inm : bool) (first : option Qc) (len : Z) (count : Z) : res (cells * Z) :=
  match n with
  | O => Ok (d, count)
  | S m =>
      do x <- read d i;
      match x with
      | None =>
          let len := len + 1 in
          if inm then interp_loop d (i + 1) m true first len count
          else do f <- read d (i - 1); interp_loop d (i + 1) m true f len count
      | Some v =>
          if inm then
            match first with
            | None => UB (* NaN arithmetic; shown unreachable *)
            | Some f =>
                let step := ((v - f) / qz len)%Qc in
                do '(d', c') <- fill_loop d i v step 1 (Z.to_nat (len - 1)) count;
                interp_loop d' (i + 1) m false first 1 c'
            end
          else interp_loop d (i + 1) m false first len count
      end
  end.

Definition interpolate (d : cells) : res (irange * cells * Z) :=
  do '(r, m) <- get_range_m d;
  if m : bool then
    do '(d', c) <- interp_loop d (i_start r) (Z.to_nat (i_end r - i_start r + 1)) false None 1 0;
    Ok (r, d', c)
  else Ok (r, d, 0).

(** ** PartitionEqual, array.cpp:126-143 *)
Definition slice {A} (d : list A) (s e : Z) : list A := firstn (Z.to_nat (e - s)) (skipn (Z.to_nat s) d).
(** Fuel stands for the loops; a size that is not positive makes the real loops endless or leave the
    vector: that is UB here (out of fuel). *)
Fixpoint part_fwd {A} (fuel : nat) (d : list A) (size i : Z) : res (list (list A)) :=
  match fuel with
  | O => UB
  | S f => let n := Z.of_nat (List.length d) in
      if i <? n then do r <- part_fwd f d size (i + size); Ok (slice d i (Z.min (i + size) n) :: r) else Ok []
  end.
Fixpoint part_bwd {A} (fuel : nat) (d : list A) (size i : Z) (acc : list (list A)) : res (list (list A)) :=
  match fuel with
  | O => UB
  | S f => if 0 <=? i then part_bwd f d size (i - size) (slice d (Z.max (i - size) 0) i :: acc) else Ok acc
  end.
Definition partition_equal {A} (d : list A) (size : Z) (fromEnd : bool) : res (list (list A)) :=
  let n := Z.of_nat (List.length d) in
  if fromEnd then part_bwd (S (S (List.length d))) d size n []
  else part_fwd (S (S (List.length d))) d size 0.
