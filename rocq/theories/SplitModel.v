(** Model of /repo/src/ldt_statistics/data_split.cpp. Both samples are parts of one storage. The
    outcome of std::shuffle is a parameter: the contents of workI after the call. *)
From Verif Require Export MatModel SortModel DataModel.
From Coq Require Import Qround.
Local Open Scope Z_scope.

(** static_cast<Ti> truncates; std::round rounds halves away from zero. *)
Definition qtrunc (x : Qc) : Z := Z.quot (Qnum x) (Zpos (Qden x)).
Definition qround (x : Qc) : Z :=
  let half := Q2Qc (1 # 2) in if qltb x 0 then - Qfloor (half - x)%Qc else Qfloor (x + half)%Qc.

(** data_split.cpp:34-35,147-148. *)
Definition train_size (n : Z) (ratio : Qc) (fix_size : Z) : Z := if 0 <? fix_size then fix_size else qround (qz n * ratio)%Qc.

(** matrix.cpp:1435-1441 SetRowFromRow0 on a sample with r rows whose Data starts at off. *)
Definition put_row (M : mat Qc) (off r i : Z) (source : res Z) : list (Z * res Qc) :=
  map (fun j => (off + (i + r * j), do v <- source; get0 M v j)) (zrange 0 (ncols M)).

(** data_split.cpp:138-160 DataSplit::Calculate: sizes of the samples. *)
Definition split_calculate (M : mat Qc) (ratio : Qc) (fix_size : Z) : res (Z * Z) :=
  let n0 := train_size (nrows M) ratio fix_size in
  if (n0 <=? 0) || (nrows M <=? n0) then Throw else Ok (n0, nrows M - n0).
(** data_split.cpp:162-176 DataSplit::Shuffle. *)
Definition split_shuffle (M : mat Qc) (n0 n1 : Z) (w : list Z) (storage : list Qc) : res (list Qc) :=
  writes (flat_map (fun i => put_row M 0 n0 i (rd w i)) (zrange 0 n0) ++
          flat_map (fun i => put_row M (n0 * ncols M) n1 i (rd w (n0 + i))) (zrange 0 n1)) storage.

(** ** DataSplitDiscrete *)
Record ds_state := { d_n0 : Z; d_n1 : Z; d_ratio : Qc; d_counts : list Z; d_rows : list (list Z); d_order : list nat }.
(** vector::at *)
Definition vat {A} (l : list A) (i : Z) : res A :=
  if i <? 0 then Throw else match nth_error l (Z.to_nat i) with Some x => Ok x | None => Throw end.
(** data_split.cpp:44-52 *)
Fixpoint count_loop (ls : list Z) (c : list Z) : res (list Z) :=
  match ls with [] => Ok c | j :: t => do n <- vat c j; count_loop t (upd (Z.to_nat j) (n + 1) c) end.
(** data_split.cpp:60-70 *)
Fixpoint rows_loop (ls : list Z) (i : Z) (r : list (list Z)) : res (list (list Z)) :=
  match ls with [] => Ok r | j :: t => do g <- vat r j; rows_loop t (i + 1) (upd (Z.to_nat j) (g ++ [i]) r) end.
(** data_split.cpp:25-73 Calculate, with the number of choices k of the constructor. *)
Definition ds_calculate (M : mat Qc) (k : nat) (ratio : Qc) (fix_size : Z) : res ds_state :=
  let n0 := train_size (nrows M) ratio fix_size in
  do y <- rmap (fun i => rd (data M) i) (zrange 0 (nrows M));
  let ls := map qtrunc y in
  do c <- count_loop ls (repeat 0 k);
  if existsb (Z.eqb 0) c then Throw
  else
    do r <- rows_loop ls 0 (repeat [] k);
    Ok {| d_n0 := n0; d_n1 := nrows M - n0; d_ratio := ratio; d_counts := c; d_rows := r; d_order := sort_indexes true (map qz c) |}.
(** data_split.cpp:105-113: the training part of a class that is not the last. *)
Definition share (ratio : Qc) (m : Z) : Z :=
  let a := qround (ratio * qz m)%Qc in let b := if m <=? a then m - 1 else a in if b =? 0 then 1 else b.
(** data_split.cpp:75-131 Shuffle: [perm b] is workI after the shuffle of the b-th class. *)
Fixpoint ds_loop (M : mat Qc) (st : ds_state) (perm : nat -> list Z) (order : list nat) (b : nat) (sum ii jj : Z) (d : list Qc) : res (list Qc) :=
  match order with
  | [] => Ok d
  | a :: t =>
      do m <- vat (d_counts st) (Z.of_nat a);
      do rowi <- vat (d_rows st) (Z.of_nat a);
      do m0 <- (if (b =? length (d_counts st) - 1)%nat then
                  let m0 := d_n0 st - sum in if m0 <=? 0 then Throw else if m <? m0 then Throw else Ok m0
                else Ok (share (d_ratio st) m));
      let src := fun i => do x <- rd (perm b) i; vat rowi x in
      do d1 <- writes (flat_map (fun i => put_row M 0 (d_n0 st) (ii + i) (src i)) (zrange 0 m0)) d;
      do d2 <- writes (flat_map (fun i => put_row M (d_n0 st * ncols M) (d_n1 st) (jj + i) (src (m0 + i))) (zrange 0 (m - m0))) d1;
      ds_loop M st perm t (S b) (sum + m0) (ii + m0) (jj + (m - m0)) d2
  end.
Definition ds_shuffle (M : mat Qc) (st : ds_state) (perm : nat -> list Z) (storage : list Qc) : res (list Qc) :=
  ds_loop M st perm (d_order st) 0 0 0 0 storage.
(** The two samples: data_split.cpp:37-38,153-154. *)
Definition train (M : mat Qc) (n0 : Z) (d : list Qc) : mat Qc := Mat (Z.to_nat n0) (cols M) d.
Definition test (M : mat Qc) (n0 n1 : Z) (d : list Qc) : mat Qc := Mat (Z.to_nat n1) (cols M) (skipn (Z.to_nat (n0 * ncols M)) d).
