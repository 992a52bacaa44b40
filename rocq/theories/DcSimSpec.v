(** Specification for the simulation of discrete choice models. *)
From Verif Require Export DcSimModel DcExtSpec.
Local Open Scope Z_scope.

Definition label (r : trow) : Z := fst (fst r).
Definition rweight (r : trow) : Qc := snd (fst r).
(** The testing samples of the successful iterations, and the number of failed ones. *)
Definition fitted (ds : list dcdraw) : list (list trow) := flat_map (fun d => match d with DFitted rows => [rows] | DFailed => [] end) ds.
Definition failures (ds : list dcdraw) : Z := Z.of_nat (length (filter (fun d => match d with DFailed => true | DFitted _ => false end) ds)).
(** The predicted probability of the row's own choice. *)
Definition own_prob (r : trow) (p : Qc) : Prop := nth_error (snd r) (Z.to_nat (label r)) = Some (Some p).
(** The label is one of the choices and its probability is a number between 0 and 1. *)
Definition row_ok (c : Z) (r : trow) : Prop := 0 <= label r < c /\ exists p, own_prob r p /\ (0 <= p)%Qc /\ (p <= 1)%Qc.
(** The j-th tenth: [j/10, (j+1)/10), and [9/10, 1] for the last. *)
Definition tenth (j : Z) (p : Qc) : Prop := (qz j <= p * qz 10)%Qc /\ ((p * qz 10 < qz (j + 1))%Qc \/ (j = 9 /\ (p <= 1)%Qc)).
Definition tenth_b (j : Z) (p : Qc) : bool := qleb (qz j) (p * qz 10)%Qc && (qltb (p * qz 10)%Qc (qz (j + 1)) || ((j =? 9) && qleb p 1)).
(** The row has choice ch, with a predicted probability in the j-th tenth. *)
Definition counted (j ch : Z) (r : trow) : bool :=
  (label r =? ch) && match nth_error (snd r) (Z.to_nat (label r)) with Some (Some p) => tenth_b j p | _ => false end.
(** Total weight of the rows; 1 for every row if there are no weights. *)
Definition weight_sum (weighted : bool) (l : list trow) : Qc := qsum (map (fun r => if weighted then rweight r else 1%Qc) l).
(** The requested measures of a testing sample exist: its area under the ROC curve is A, the sums and counts of its costs are C, and
    its rows can be put in the table. *)
Definition good_rows (roc : bool -> list trow -> res fl) (cost : bool -> list trow -> res (list Qc * list Qc)) (A : list trow -> fl)
    (C : list trow -> list Qc * list Qc) (k : dcs) (rows : list trow) : Prop :=
  (k_auc k = true -> roc (k_weight k && k_weval k)%bool rows = Ok (A rows)) /\
  (0 < k_costs k -> cost (k_weight k && k_weval k)%bool rows = Ok (C rows) /\ length (fst (C rows)) = Z.to_nat (k_costs k) /\ length (snd (C rows)) = Z.to_nat (k_costs k)) /\
  (k_table k = true -> forall r, In r rows -> row_ok (k_choices k) r).
