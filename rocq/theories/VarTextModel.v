(** Model of Variable::ToString and Variable::Parse, /repo/src/variable/variable.cpp:82-187, and of the
    parts of the C++ library they use (std::fixed output of doubles, std::stod). A missing (null) start
    frequency, infinite data and exponents in numbers are not modelled. Numbers are rationals: the
    rounding of a text to the nearest double in std::stod is not modelled. *)
From Verif Require Export VarModel.
Local Open Scope Z_scope.

Definition tab : ascii := "009"%char.
Definition p16 : Z := 10 ^ 16.

(** Rounding of a/b (a >= 0) to an integer, ties to even. *)
Definition round_even (a b : Z) : Z :=
  let r := (2 * a + b) / (2 * b) in
  if ((2 * a + b) mod (2 * b) =? 0) && Z.odd r then r - 1 else r.
Fixpoint pad_digits (k : nat) (n : Z) : str :=
  match k with O => [] | S k' => pad_digits k' (n / 10) ++ [digit (n mod 10)] end.
(** ostream << std::fixed << std::setprecision(16) << x. *)
Definition fixed16 (x : Qc) : str :=
  let a := Qnum (this x) in let b := Zpos (Qden (this x)) in
  let r := round_even (Z.abs a * p16) b in
  (if a <? 0 then ["-"%char] else []) ++ dec_nat (r / p16) ++ "."%char :: pad_digits 16 (r mod p16).
Definition num_text (x : option Qc) : str := match x with None => s_ "nan" | Some q => fixed16 q end.

(** std::stod: white space, sign, "nan" or digits with an optional fraction; the rest is ignored. *)
Fixpoint span_digits (s : str) : str * str :=
  match s with
  | c :: s' => match digit_val c with Some _ => let '(a, b) := span_digits s' in (c :: a, b) | None => ([], s) end
  | [] => ([], [])
  end.
Definition stod (s : str) : res (option Qc) :=
  let s := skip_space s in
  let '(neg, s) := match s with
    | c :: s' => if ascii_dec c "-" then (true, s') else if ascii_dec c "+" then (false, s') else (false, s)
    | [] => (false, s) end in
  if iequals (firstn 3 s) (s_ "nan") then Ok None
  else
    let '(i, r) := span_digits s in
    let f := match r with c :: r' => if ascii_dec c "." then fst (span_digits r') else [] | [] => [] end in
    match i ++ f with
    | [] => Throw
    | ds => let n := digits 0 ds in
        Ok (Some (Q2Qc ((if neg : bool then - n else n) # Z.to_pos (10 ^ Z.of_nat (List.length f)))))
    end.

(** variable.cpp:82-118 ToString. *)
Definition to_text (v : variable) : res str :=
  do c <- class_string true (v_start v);
  do f <- to_string (v_start v);
  Ok (v_name v ++ tab :: c ++ tab :: f ++ tab :: join (s_ ";") (map num_text (v_data v)) ++ tab ::
      join [tab] (map (fun kv => fst kv ++ s_ ";" ++ snd kv) (v_fields v))).

(** variable.cpp:161-169: std::string::find gives npos (2^64-1) when there is no ";", and j < 0 is
    never true: substr(0, npos) and substr(npos + 1) are both the whole string. *)
Definition parse_field (s : str) : str * str :=
  match find_str (s_ ";") s with
  | Some j => (firstn j s, skipn (j + 1) s)
  | None => (s, s)
  end.
(** variable.cpp:120-187 Parse; the caller's item vectors are empty. Every exception is thrown again. *)
Definition parse_text (v0 : Z) (s : str) : res variable :=
  do parts <- split [tab] s;
  if (List.length parts <? 5)%nat then Throw
  else
    do name <- at_ parts 0; do cls <- at_ parts 1; do fs <- at_ parts 2; do ds <- at_ parts 3;
    do '(c, f) <- parse v0 fs cls;
    do '(c', f') <- match c with
      | kListString => parse_list_s fs cls []
      | kListDate => parse_list_d v0 fs cls []
      | _ => Ok (c, f) end;
    do dparts <- split (s_ ";") ds;
    do d <- map_res stod dparts;
    Ok {| v_name := name; v_data := d; v_start := f';
          v_fields := fold_left (fun m kv => insert_field (fst kv) (snd kv) m) (map parse_field (skipn 4 parts)) [] |}.
