(** Model of the string helpers: /repo/include/helpers.h, /repo/src/helpers.cpp, and of the parts of
    the C++ library they use (std::to_string, std::stoi, std::string::find). *)
From Coq Require Export Ascii String.
From Verif Require Export Base.
Local Open Scope Z_scope.

(** A std::string. *)
Definition str := list ascii.
Definition s_ (x : string) : str := list_ascii_of_string x.

Definition str_eqb (a b : str) : bool := if list_eq_dec ascii_dec a b then true else false.

(** std::to_string(int). *)
Definition digit (d : Z) : ascii := ascii_of_nat (Z.to_nat (48 + d)).
Fixpoint dec_pos (fuel : nat) (n : Z) : str :=
  match fuel with
  | O => []
  | S f => if n <? 10 then [digit n] else dec_pos f (n / 10) ++ [digit (n mod 10)]
  end.
Definition dec_nat (n : Z) : str := dec_pos (S (Z.to_nat (Z.log2 n))) n.
Definition dec (n : Z) : str := if n <? 0 then "-"%char :: dec_nat (- n) else dec_nat n.

(** std::stoi(s, nullptr, 10): white space, sign, digits; the rest is ignored; no digit or a value
    outside int throws. *)
Definition digit_val (c : ascii) : option Z :=
  let n := Z.of_nat (nat_of_ascii c) in
  if (48 <=? n) && (n <=? 57) then Some (n - 48) else None.
Definition is_space (c : ascii) : bool :=
  let n := Z.of_nat (nat_of_ascii c) in (n =? 32) || ((9 <=? n) && (n <=? 13)).
Fixpoint skip_space (s : str) : str :=
  match s with c :: s' => if is_space c then skip_space s' else s | [] => [] end.
Fixpoint digits (acc : Z) (s : str) : Z :=
  match s with
  | c :: s' => match digit_val c with Some d => digits (10 * acc + d) s' | None => acc end
  | [] => acc
  end.
Definition int_min : Z := - 2 ^ 31.
Definition int_max : Z := 2 ^ 31 - 1.
Definition in_int (z : Z) : bool := (int_min <=? z) && (z <=? int_max).
Definition stoi (s : str) : res Z :=
  let s := skip_space s in
  let '(neg, s) := match s with
    | c :: s' => if ascii_dec c "-" then (true, s') else if ascii_dec c "+" then (false, s') else (false, s)
    | [] => (false, s) end in
  match s with
  | c :: _ => match digit_val c with
      | Some _ => let v := (if neg : bool then - digits 0 s else digits 0 s) in if in_int v then Ok v else Throw
      | None => Throw end
  | [] => Throw
  end.

(** helpers.cpp:11-25: boost::starts_with, boost::iequals (in the C locale). *)
Fixpoint starts_with (code s : str) : bool :=
  match code, s with
  | [], _ => true
  | _, [] => false
  | a :: code', b :: s' => (if ascii_dec a b then true else false) && starts_with code' s'
  end.
Definition upper (c : ascii) : ascii :=
  let n := nat_of_ascii c in if ((97 <=? n) && (n <=? 122))%nat then ascii_of_nat (n - 32) else c.
Definition iequals (a b : str) : bool := str_eqb (map upper a) (map upper b).

(** std::string::find_first_of(delims, start): relative to [start] ([s] is the suffix). *)
Definition memc (c : ascii) (l : str) : bool := if in_dec ascii_dec c l then true else false.
Fixpoint find_first_of (delims s : str) : option nat :=
  match s with
  | [] => None
  | c :: s' => if memc c delims then Some 0%nat else option_map S (find_first_of delims s')
  end.

(** helpers.h:179-190 SplitMultiple; [s] is the suffix of the string from [start]. Fuel for the
    while loop. *)
Fixpoint split_multiple_loop (fuel : nat) (delims s : str) : res (list str) :=
  match fuel with
  | O => UB
  | S f => match find_first_of delims s with
      | None => Ok [s]
      | Some e => do r <- split_multiple_loop f delims (skipn (e + 1) s); Ok (firstn e s :: r)
      end
  end.
Definition split_multiple (delims s : str) : res (list str) := split_multiple_loop (S (List.length s)) delims s.

(** std::string::find(delim, start), relative to [start]. *)
Fixpoint find_str (delim s : str) : option nat :=
  if starts_with delim s then Some 0%nat
  else match s with [] => None | _ :: s' => option_map S (find_str delim s') end.

(** helpers.h:163-173 Split. *)
Fixpoint split_loop (fuel : nat) (delim s : str) : res (list str) :=
  match fuel with
  | O => UB
  | S f => match find_str delim s with
      | None => Ok [s]
      | Some e => do r <- split_loop f delim (skipn (e + List.length delim) s); Ok (firstn e s :: r)
      end
  end.
Definition split (delim s : str) : res (list str) := split_loop (S (List.length s)) delim s.

(** helpers.h:197-203 Join (boost::algorithm::join of the already transformed values). *)
Fixpoint join (delim : str) (l : list str) : str :=
  match l with [] => [] | [a] => a | a :: l' => a ++ delim ++ join delim l' end.

(** std::vector::at. *)
Definition at_ {A} (l : list A) (i : nat) : res A := match nth_error l i with Some x => Ok x | None => Throw end.

(** helpers.h:210-217 IndexOf. *)
Fixpoint index_of {A} (eqb : A -> A -> bool) (x : A) (l : list A) : Z :=
  match l with
  | [] => -1
  | y :: l' => if eqb y x then 0 else let r := index_of eqb x l' in if r =? -1 then -1 else r + 1
  end.
