(** Specification of the area under the ROC curve. *)
From Verif Require Export Base Num.
From Coq Require Export Permutation Sorting.Sorted.
Local Open Scope Qc_scope.

(** An observation: is it positive, its score (probability of being negative), its weight. *)
Record obs := Obs { is_pos : bool; score : Qc; weight : Qc }.
(** A positive and a negative observation are ranked correctly if the positive has the lower score;
    equal scores count one half. *)
Definition concordance (p n : obs) : Qc :=
  if qltb (score p) (score n) then 1 else if qeqb (score p) (score n) then Q2Qc (1 # 2) else 0.
Definition positives (l : list obs) := filter is_pos l.
Definition negatives (l : list obs) := filter (fun o => negb (is_pos o)) l.
Definition pair_sum (f : obs -> obs -> Qc) (l m : list obs) : Qc := qsum (map (fun p => qsum (map (f p) m)) l).
(** The weighted number of correctly ranked pairs, and of all pairs. *)
Definition correct_pairs (l : list obs) : Qc := pair_sum (fun p n => weight p * weight n * concordance p n) (positives l) (negatives l).
Definition all_pairs (l : list obs) : Qc := pair_sum (fun p n => weight p * weight n) (positives l) (negatives l).
(** Observations with other scores. *)
Definition rescored (g : Qc -> Qc) (l : list obs) : list obs := map (fun o => Obs (is_pos o) (g (score o)) (weight o)) l.

(** The observations of parallel arrays. *)
Fixpoint observations (y sc w : list Qc) : list obs :=
  match y, sc, w with
  | a :: y', s :: sc', u :: w' => Obs (negb (qeqb a 0)) s u :: observations y' sc' w'
  | _, _, _ => []
  end.

(** The area below a segment of a curve between [lo] and [up], and below a polygonal curve. *)
Definition qmax (a b : Qc) : Qc := if qltb a b then b else a.
Definition qmin (a b : Qc) : Qc := if qltb a b then a else b.
Definition line (p q : Qc * Qc) (x : Qc) : Qc := snd p + (x - fst p) * ((snd q - snd p) / (fst q - fst p)).
Definition segment_area (lo up : Qc) (p q : Qc * Qc) : Qc :=
  let a := qmax (fst p) lo in let b := qmin (fst q) up in
  if qltb a b then (b - a) * (line p q a + line p q b) / qz 2 else 0.
Fixpoint area_between (lo up : Qc) (ps : list (Qc * Qc)) : Qc :=
  match ps with p :: ((q :: _) as t) => segment_area lo up p q + area_between lo up t | _ => 0 end.
(** The point of the curve at a threshold: weights of the negative and of the positive observations
    with a score not above the threshold. *)
Definition roc_point (l : list obs) (t : Qc) : Qc * Qc :=
  (qsum (map weight (filter (fun o => qleb (score o) t) (negatives l))), qsum (map weight (filter (fun o => qleb (score o) t) (positives l)))).
(** The distinct scores in increasing order. *)
Definition thresholds (l : list obs) (ts : list Qc) : Prop :=
  StronglySorted Qclt ts /\ forall t, In t ts <-> exists o, In o l /\ score o = t.
(** Weights with costs: a positive observation counts its weight times c0 * x - c2, a negative one times
    c3 - c1 * x, where x is its own cost. *)
Definition own_cost (costs : option (list Qc)) (i : nat) : Qc := match costs with Some l => nth i l 0 | None => 1 end.
Definition benefit (c0 c2 : Qc) (costs : option (list Qc)) (i : nat) : Qc := c0 * own_cost costs i - c2.
Definition loss (c1 c3 : Qc) (costs : option (list Qc)) (i : nat) : Qc := c3 - c1 * own_cost costs i.
Definition cost_weights (c0 c1 c2 c3 : Qc) (costs : option (list Qc)) (y w : list Qc) : list Qc :=
  map (fun i => nth i w 0 * (if qeqb (nth i y 0) 0 then loss c1 c3 costs i else benefit c0 c2 costs i)) (seq 0 (length y)).
(** The sum of the trapezoids below a polygon. *)
Fixpoint trapezoids (ps : list (Qc * Qc)) : Qc :=
  match ps with p :: ((q :: _) as t) => (fst q - fst p) * (snd p + snd q) / qz 2 + trapezoids t | _ => 0 end.
