(** Textbook descriptive statistics, filters and least squares. *)
From Verif Require Import Num.
Local Open Scope Qc_scope.

Definition avg (l : list Qc) : Qc := qsum l / qn (length l).
Fixpoint power (x : Qc) (n : nat) : Qc := match n with O => 1 | S m => x * power x m end.
(** Sum of (x - mean)^k *)
Definition dev (k : nat) (l : list Qc) : Qc := qsum (map (fun x => power (x - avg l) k) l).
Definition var_pop (l : list Qc) : Qc := dev 2 l / qn (length l).
Definition var_sample (l : list Qc) : Qc := dev 2 l / qz (Z.of_nat (length l) - 1).
(** Excess kurtosis: of the population m4 / m2^2 - 3 with the moments m_k = dev k / n, and the unbiased (n-1)/((n-2)(n-3)) ((n+1) g + 6). *)
Definition kurt_pop (l : list Qc) : Qc := (dev 4 l / qn (length l)) / power (dev 2 l / qn (length l)) 2 - qz 3.
Definition kurt_sample (l : list Qc) : Qc :=
  let n := Z.of_nat (length l) in qz (n - 1) / (qz (n - 2) * qz (n - 3)) * (qz (n + 1) * kurt_pop l + qz 6).

(** The values that are not NaN. *)
Definition present (l : list (option Qc)) : list Qc := flat_map (fun x => match x with Some q => [q] | None => [] end) l.
Definition least (m : Qc) (l : list Qc) : Prop := In m l /\ forall x, In x l -> m <= x.
Definition greatest (m : Qc) (l : list Qc) : Prop := In m l /\ forall x, In x l -> x <= m.

(** Quantiles: the k-th observation (k from 1; below 1 the first, above n the last) and the linear interpolation at
    position h = (n + 1/3) tau + 1/3 (Hyndman and Fan, type 8). *)
Definition nondecreasing (l : list Qc) : Prop := forall i j, (i <= j < length l)%nat -> nth i l 0 <= nth j l 0.
Definition obs (l : list Qc) (k : Z) : Qc := nth (Z.to_nat (Z.min (Z.of_nat (length l)) (Z.max 1 k) - 1)) l 0.
Definition position (n : nat) (tau : Qc) : Qc := (qn n + 1 / qz 3) * tau + 1 / qz 3.
Definition interpolated (l : list Qc) (h v : Qc) : Prop :=
  exists k : Z, qz k <= h /\ h < qz (k + 1) /\ v = obs l k + (h - qz k) * (obs l (k + 1) - obs l k).

(** Elements by index, zero outside; sums over 0..n-1. *)
Definition xat (l : list Qc) (i : Z) : Qc := if (i <? 0)%Z then 0 else nth (Z.to_nat i) l 0.
(** Element i of a list of any type. *)
Definition oat {A} (l : list A) (i : Z) : option A := if (i <? 0)%Z then None else nth_error l (Z.to_nat i).
Definition sum_over (n : nat) (f : Z -> Qc) : Qc := qsum (map (fun k => f (Z.of_nat k)) (seq 0 n)).

(** Moving averages with offset o: defined where all observations used exist. *)
Definition ma_known (T k o i : Z) : Prop := (k - 1 - o <= i < T - o)%Z.
Definition ma_at (x c : list Qc) (o i : Z) : Qc := sum_over (length c) (fun j => xat c j * xat x (i + o - j)%Z).

(** Sum of the squared errors of the line a + b t, t = 1, ..., T. *)
Definition sse (x : list Qc) (a b : Qc) : Qc :=
  sum_over (length x) (fun i => power (xat x i - (a + b * qz (i + 1))) 2).

(** ** Seasonal decomposition of x_0, ..., x_(T-1) with s seasons; observation i belongs to season i mod s. *)
Definition trend_at (x c : list Qc) (o i : Z) : option Qc :=
  let T := Z.of_nat (length x) in let k := Z.of_nat (length c) in
  if ((k - 1 - o <=? i) && (i <? T - o))%Z then Some (ma_at x c o i) else None.
(** The known values of season f of a series R. *)
Definition season_values (R : Z -> option Qc) (T : nat) (s f : Z) : list Qc :=
  flat_map (fun k => let i := Z.of_nat k in if (i mod s =? f)%Z then match R i with Some v => [v] | None => [] end else []) (seq 0 T).
Definition season_mean (R : Z -> option Qc) (T : nat) (s f : Z) : Qc := avg (season_values R T s f).
Definition seasons_mean (R : Z -> option Qc) (T : nat) (s : Z) : Qc := avg (map (fun f => season_mean R T s (Z.of_nat f)) (seq 0 (Z.to_nat s))).
Definition all_seasons (R : Z -> option Qc) (T : nat) (s : Z) : Prop := forall f, (0 <= f < s)%Z -> season_values R T s f <> [].
(** The series without its trend. *)
Definition minus_trend (x c : list Qc) (o i : Z) : option Qc := option_map (fun t => xat x i - t) (trend_at x c o i).
Definition over_trend (x c : list Qc) (o i : Z) : option Qc := option_map (fun t => xat x i / t) (trend_at x c o i).
