(** Specification of valid frequencies and of the steps between them. *)
From Verif Require Export FreqModel.
Local Open Scope Z_scope.

(** ** Year-based *)
(** A frequency made by the constructor with a positive year multiple. *)
Definition year_freq (f : freq) : Prop :=
  exists year part pos multi b, 1 <= multi /\ yb_make year part pos multi = Ok b /\ f = FY b.

(** Same partition count and year multiple, and years a whole number of multiples apart. *)
Definition year_grid (f g : freq) : Prop :=
  match f, g with
  | FY a, FY b => yb_part a = yb_part b /\ yb_multi a = yb_multi b /\ (yb_multi a | yb_year a - yb_year b)
  | _, _ => False
  end.

(** ** Days of the week *)
Definition dow_ok (d : Z) : Prop := 0 <= d <= 6.
Definition rng_ok (r : rng) : Prop := dow_ok (r_start r) /\ dow_ok (r_end r).
(** The day [k] steps after (before) [d]. *)
Definition walk (d k : Z) : Z := (d + k) mod 7.
(** [d] is met by the forward walk from the start to the end of the range, inclusive. *)
Definition inside (r : rng) (d : Z) : Prop :=
  exists k, 0 <= k <= (r_end r - r_start r) mod 7 /\ d = walk (r_start r) k.
(** [k] is the least number of forward (backward) steps from [a] to [b]. *)
Definition steps_between (a b k : Z) (forward : bool) : Prop :=
  0 <= k /\ walk a (if forward then k else - k) = b /\
  forall k', 0 <= k' < k -> walk a (if forward then k' else - k') <> b.

(** ** Week-based *)
Definition week_freq (f : freq) : Prop :=
  exists day isWeek multi b, 1 <= multi /\ wb_make day isWeek None true multi = Ok b /\ f = FW b.
(** Days per step. *)
Definition step_days (f : freq) : Z :=
  match class_of f, f with
  | kWeekly, FW b | kMultiWeekly, FW b => 7 * w_multi b
  | _, FW b => w_multi b
  | _, _ => 1
  end.
Definition day_of (f : freq) : Z := match f with FW b => w_day b | FD b => w_day (h_day b) | _ => 0 end.
Definition week_grid (f g : freq) : Prop :=
  match f, g with
  | FW a, FW b => w_class a = w_class b /\ w_multi a = w_multi b /\ (step_days f | w_day a - w_day b)
  | _, _ => False
  end.

(** A daily-in-week frequency made by its factory for a given range, then moved by Next. *)
Definition dw_freq (r : rng) (f : freq) : Prop :=
  exists day forward b n, rng_ok r /\ wb_make day false (Some r) forward 1 = Ok b /\ next n (FW b) = Ok f.
(** [d'] is the next (previous) day after [d] inside the range. *)
Definition next_inside (r : rng) (d d' : Z) : Prop :=
  d < d' /\ inside r (dow d') /\ forall x, d < x < d' -> ~ inside r (dow x).
Definition prev_inside (r : rng) (d d' : Z) : Prop :=
  d' < d /\ inside r (dow d') /\ forall x, d' < x < d -> ~ inside r (dow x).

(** [d'] is the day reached by visiting [n] following days of the range one after the other
    (for a negative [n], [-n] preceding days). *)
Inductive visits (r : rng) : Z -> Z -> Z -> Prop :=
| visits_0 d : visits r d 0 d
| visits_fwd d d' d'' n : 0 <= n -> visits r d n d' -> next_inside r d' d'' -> visits r d (n + 1) d''
| visits_bwd d d' d'' n : n <= 0 -> visits r d n d' -> prev_inside r d' d'' -> visits r d (n - 1) d''.

(** ** Day-based: over any week-based day *)
Definition day_freq (f : freq) : Prop :=
  exists w part pos b, (week_freq (FW w) \/ exists r, dw_freq r (FW w)) /\ db_make w part pos = Ok b /\ f = FD b.
(** The underlying day is not a daily-in-week with a one-day range. *)
Definition not_single (f : freq) : Prop :=
  match f with
  | FW w => w_class w = kDailyInWeek -> r_start (w_range w) <> r_end (w_range w)
  | FD b => w_class (h_day b) = kDailyInWeek -> r_start (w_range (h_day b)) <> r_end (w_range (h_day b))
  | _ => True
  end.
Definition position (f : freq) : Z := match f with FCs p => p | FY b => yb_pos b | FD b => h_pos b | _ => 1 end.
Definition partitions (f : freq) : Z := match f with FY b => yb_part b | FD b => h_part b | _ => 1 end.
Definition day_part (f : freq) : freq := match f with FD b => FW (h_day b) | _ => f end.

(** A sequence of Next calls. *)
Fixpoint run (ns : list Z) (f : freq) : res freq :=
  match ns with [] => Ok f | n :: r => do g <- next n f; run r g end.
Definition zsum (ns : list Z) : Z := fold_right Z.add 0 ns.

(** ** Lists *)
(** A list frequency made on an item of its list, then moved by Next. *)
Definition list_freq (its : list str) (f : freq) : Prop :=
  exists v n, NoDup its /\ In v its /\ next n (FLs {| l_value := v; l_items := Some its; l_out := 0 |}) = Ok f.
Definition list_freq_d (its : list Z) (f : freq) : Prop :=
  exists v n, NoDup its /\ In v its /\ next n (FLd {| l_value := v; l_items := Some its; l_out := 0 |}) = Ok f.
(** [f] stands at place [i], counted from the first item; before the first item the places are
    negative, after the last item they go on. *)
Definition at_place {A} (l : lst A) (its : list A) (i : Z) : Prop :=
  (0 <= i < Z.of_nat (List.length its) /\ l_out l = 0 /\ nth_error its (Z.to_nat i) = Some (l_value l)) \/
  (i < 0 /\ l_out l = i) \/ (Z.of_nat (List.length its) <= i /\ l_out l = i - Z.of_nat (List.length its) + 1).
Definition place (f : freq) (i : Z) : Prop :=
  match f with
  | FLs l => exists its, l_items l = Some its /\ at_place l its i
  | FLd l => exists its, l_items l = Some its /\ at_place l its i
  | _ => False
  end.

(** ** Text *)
(** Two frequencies that differ at most in how a day was moved into its range by the constructor, or in
    the value of a list frequency that is outside its list. *)
Definition plain_w (w : wb) : wb :=
  {| w_day := w_day w; w_range := w_range w; w_fwd := 0; w_multi := w_multi w; w_class := w_class w |}.
Definition plain (f : freq) : freq :=
  match f with
  | FW w => FW (plain_w w)
  | FD b => FD {| h_day := plain_w (h_day b); h_part := h_part b; h_pos := h_pos b; h_class := h_class b |}
  | FLs l => if l_out l =? 0 then f else FLs {| l_value := []; l_items := l_items l; l_out := l_out l |}
  | FLd l => if l_out l =? 0 then f else FLd {| l_value := 0; l_items := l_items l; l_out := l_out l |}
  | _ => f
  end.
