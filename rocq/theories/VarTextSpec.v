(** Specification of the text form of variables. *)
From Verif Require Export VarTextModel VarSpec.
Local Open Scope Z_scope.

Definition no_char (c : ascii) (s : str) : Prop := Forall (fun x => x <> c) s.
(** Numbers equal up to half a unit of the sixteenth decimal; missing values are kept. *)
Definition close (x y : option Qc) : Prop :=
  match x, y with
  | None, None => True
  | Some a, Some b => (- (1 # 20000000000000000) <= this b - this a <= 1 # 20000000000000000)%Q
  | _, _ => False
  end.
(** std::map: keys in strictly increasing order. *)
Fixpoint sorted_keys (l : list (str * str)) : Prop :=
  match l with
  | [] => True
  | kv :: r => (match r with [] => True | kv' :: _ => str_ltb (fst kv) (fst kv') = true end) /\ sorted_keys r
  end.
(** Numbers and dates in the frequency fit their text; list items have no separators in them. *)
Definition freq_text (f : freq) : Prop :=
  match f with
  | FCs p => in_int p = true
  | FY b => year_freq f /\ in_int (yb_year b) = true /\ in_int (yb_multi b) = true /\ in_int (yb_part b) = true
  | FW w => (week_freq f \/ exists r, dw_freq r f) /\ valid_day (w_day w) = true /\ in_int (w_multi w) = true
  | FD b => day_freq f /\ valid_day (w_day (h_day b)) = true /\ in_int (w_multi (h_day b)) = true /\ in_int (h_part b) = true
  | FLs l => exists its, l_items l = Some its /\ its <> [] /\ Forall (fun s => no_char ";" s /\ no_char tab s) its /\ in_int (l_out l) = true /\
       starts_with (s_ "out_item:") (l_value l) = false /\ no_char tab (l_value l)
  | FLd l => exists its, l_items l = Some its /\ its <> [] /\ Forall (fun d => valid_day d = true) its /\ in_int (l_out l) = true /\
       valid_day (l_value l) = true
  end.
(** A variable whose parts can be told apart in its text. *)
Definition text_ok (v : variable) : Prop :=
  no_char tab (v_name v) /\ freq_text (v_start v) /\ v_data v <> [] /\ v_fields v <> [] /\ sorted_keys (v_fields v) /\
  Forall (fun kv => no_char tab (fst kv) /\ no_char ";" (fst kv) /\ no_char tab (snd kv)) (v_fields v).
(** The value of a key: that of the first entry with it. *)
Definition str_dec (a b : str) : {a = b} + {a <> b} := list_eq_dec ascii_dec a b.
Fixpoint value_of (k : str) (l : list (str * str)) : option str :=
  match l with [] => None | kv :: r => if str_dec (fst kv) k then Some (snd kv) else value_of k r end.
