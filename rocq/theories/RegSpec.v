(** Specification of what a search over regressions records. *)
From Verif Require Export RegModel.
Local Open Scope Z_scope.

(** The endogenous and the exogenous variables of the model that is estimated when the outer loop is at [cur]. *)
Definition endo_of (g : reg) (cur : list Z) : list Z := if g_innerexo g then cur else g_inner g.
Definition exo_of (g : reg) (cur : list Z) : list Z := if g_innerexo g then g_inner g else cur.
(** The columns of the data are: E endogenous variables, the weights (if there are any), the exogenous variables. The variables are
    numbered without the weights. *)
Definition column_of (weight : bool) (E v : Z) : Z := if v <? E then v else if weight then v + 1 else v.
(** The smallest value of the metric for target t that the weights are computed with: the given one, or zero if none is given. *)
Definition smallest {A} (given : list (A * list R)) (k : A) (t : Z) (mn : R) : Prop :=
  ((forall l, ~ In (k, l) given) /\ mn = 0%R) \/ (exists l, In (k, l) given /\ 0 <= t /\ nth_error l (Z.to_nat t) = Some mn).
(** The weight of value m of metric i for target t. *)
Definition has_weight (g : reg) (i : nat) (t : Z) (m : R) (w : option R) : Prop :=
  (exists f mn, nth_error (g_in g) i = Some f /\ smallest (g_minin g) f t mn /\ w = gof_to_weight f m (Some mn)) \/
  (exists s mn, (length (g_in g) <= i)%nat /\ nth_error (g_out g) (i - length (g_in g)) = Some s /\ smallest (g_minout g) s t mn /\ w = sc_to_weight s m (Some mn)).
(** x is what must be recorded for some metric i that is a number for the j-th target. *)
Definition recorded (g : reg) (cur : list Z) (o : one) (x : push) : Prop :=
  exists i j t m, (i < length (g_in g) + length (g_out g))%nat /\
    nth_error (filter (fun a => a <? g_targets g) (endo_of g cur)) j = Some t /\ o_metrics o i j = Some m /\
    p_eval x = i /\ p_target x = t /\ p_metric x = m /\ has_weight g i t m (p_weight x) /\
    p_endo x = endo_of g cur /\ p_exo x = exo_of g cur /\ p_extra x = o_extra o /\
    ((g_keep g = true /\ p_third x = None /\ p_mean x = None) \/
     (exists r c, (r < g_len1 g)%nat /\ o_mean o r j = Some c /\ p_third x = Some r /\ p_mean x = Some (c, o_var o r j))).
Definition key (x : push) : nat * Z * option nat := (p_eval x, p_target x, p_third x).
