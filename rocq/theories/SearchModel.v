(** Model of the model-set search engine:
    /repo/src/ldt_statistics/modeling/search/searcher.cpp
    (C++ [int] indices that are only produced by counting are [nat]). *)
From Coq Require Import String.
From Verif Require Import Base.
Local Open Scope nat_scope.

(** SearchCombinations fields used by the searcher (searchers.h:92-114), plus the searcher's own
    NumPartitions, CheckForEmpty and pItems->LengthTargets (searchers.h:395-420, 330-345). *)
Record cfg := {
  parts : list (list Z);      (* Partitions *)
  kk : nat;                   (* NumPartitions *)
  fixG : nat;                 (* NumFixPartitions *)
  fixI : Z;                   (* NumFixItems *)
  checkEmpty : bool;          (* CheckForEmpty *)
  lenTargets : Z              (* LengthTargets *)
}.

(** searcher.cpp:203-208: the [for (free = numPartitions; ...)] loop of [next]; returns the final
    value of [free].  [n] is maxCountG, [fx] is mFixFirstPartitions.  Natural subtraction replaces
    integer subtraction in T = n - c - 1: a negative T and T = 0 give the same comparison. *)
Fixpoint next_free (g : list nat) (n fx free c : nat) : nat :=
  match free with
  | O => O
  | S f =>
      if fx <? S f then
        if nth f g 0 <? n - c - 1 then S f else next_free g n fx f (S c)
      else S f
  end.

(** searcher.cpp:213-214: [for (i = free; i < numPartitions; i++) g_data[i] = g_data[i-1] + 1]. *)
Fixpoint next_fill (cnt i : nat) (g : list nat) : list nat :=
  match cnt with
  | O => g
  | S c => next_fill c (S i) (upd i (nth (i - 1) g 0 + 1) g)
  end.

(** searcher.cpp:199-217 [next]; [None] is the return value false (g_data unchanged). *)
Definition next (g : list nat) (k n fx : nat) : option (list nat) :=
  let free := next_free g n fx k 0 in
  if free =? fx then None
  else Some (next_fill (k - free) free (upd (free - 1) (nth (free - 1) g 0 + 1) g)).

(** Result of the inner loop of [move_next]. *)
Inductive inner_res :=
| IRet (is_ : list nat)     (* return true *)
| IFall (is_ : list nat)    (* loop ended *)
| IThrow.                   (* "error 4" *)

(** searcher.cpp:230-248: the loop over the item indices. [g] is the item list of the first
    selected partition. [cnt] iterations are left, [i] is the loop variable. *)
Fixpoint inner_loop (ps_ : list (list Z)) (g : list Z) (fI : Z) (ps : list nat)
         (cnt i : nat) (is_ : list nat) : inner_res :=
  match cnt with
  | O => IFall is_
  | S c =>
      let p := nth i ps 0 in
      if length ps_ <=? p then IThrow
      else if nth i is_ 0 + 1 <? length (nth p ps_ []) then
        let is1 := upd i (S (nth i is_ 0)) is_ in
        if (fI =? 0)%Z then IRet is1
        else
          let i0 := nth 0 is1 0 in
          if (i0 <? length g) && (nth i0 g 0 <? fI)%Z then IRet is1
          else inner_loop ps_ g fI ps c (S i) (upd i 0 is1)
      else inner_loop ps_ g fI ps c (S i) (upd i 0 is_)
  end.

Inductive mv :=
| MTrue (ps is_ : list nat)
| MFalse
| MThrow.

(** searcher.cpp:219-275 [move_next]. *)
Definition move_next (c : cfg) (ps is_ : list nat) : mv :=
  let P := parts c in
  if length P <=? nth 0 ps 0 then MThrow
  else
    match inner_loop P (nth (nth 0 ps 0) P []) (fixI c) ps (kk c) 0 is_ with
    | IRet is1 => MTrue ps is1
    | IThrow => MThrow
    | IFall _ =>
        let is0 := map (fun _ => 0) is_ in
        match next ps (kk c) (length P) (fixG c) with
        | None => MFalse
        | Some ps' =>
            if (fixI c =? 0)%Z then MTrue ps' is0
            else if length P <=? nth 0 ps' 0 then MThrow
            else
              let g := nth (nth 0 ps' 0) P [] in
              if length g <=? nth 0 is0 0 then MThrow
              else if (nth (nth 0%nat is0 0%nat) g 0%Z <? fixI c)%Z then MTrue ps' is0
              else MFalse
        end
    end.

(** searcher.cpp:117-123 [Searcher::UpdateCurrent]; [.at()] throws when out of range. *)
Fixpoint current (ps_ : list (list Z)) (ps is_ : list nat) : res (list Z) :=
  match ps, is_ with
  | p :: ps', i :: is' =>
      match nth_error ps_ p with
      | None => Throw
      | Some l =>
          match nth_error l i with
          | None => Throw
          | Some v => do r <- current ps_ ps' is'; Ok (v :: r)
          end
      end
  | _, _ => Ok []
  end.

(** std::map<std::string, Ti> States (searchers.h:488-489) as an association list. *)
Definition table := list (string * nat).

Fixpoint bump (t : table) (key : string) (n : nat) : table :=
  match t with
  | [] => [(key, n)]
  | (k', v) :: t' => if String.eqb k' key then (k', v + n) :: t' else (k', v) :: bump t' key n
  end.

Fixpoint lookup (t : table) (key : string) : nat :=
  match t with
  | [] => 0
  | (k', v) :: t' => if String.eqb k' key then v else lookup t' key
  end.

(** Observable state of a searcher. [visited] is a ghost log of the calls of EstimateOne:
    (partition indices, item indices, CurrentIndices, returned/caught message). *)
Record visit := { v_ps : list nat; v_is : list nat; v_cur : list Z; v_msg : string }.
Record srch := { counter : nat; states : table; visited : list visit }.

Definition srch0 : srch := {| counter := 0; states := []; visited := [] |}.

(** searcher.cpp:91-100 [Searcher::AddState]. *)
Definition add_state (s : srch) (msg : string) : srch :=
  {| counter := S (counter s);
     states := if String.eqb msg "" then states s else bump (states s) msg 1;
     visited := visited s |}.

Definition log (s : srch) (v : visit) : srch :=
  {| counter := counter s; states := states s; visited := visited s ++ [v] |}.

Section Engine.
  (** [est n cur]: message returned by (or of the exception caught from) the [n]-th call of the
      virtual EstimateOne with CurrentIndices = cur; "" means success. *)
  Variable est : nat -> list Z -> string.
  (** [cancel t]: value of pOptions->RequestCancel at the [t]-th check in Start. *)
  Variable cancel : nat -> bool.
  Variable c : cfg.

  (** searcher.cpp:151-161 / 169-186: try { UpdateCurrent(); AddState(EstimateOne()) } catch. *)
  Definition visit_pos (s : srch) (ps is_ : list nat) : srch :=
    match current (parts c) ps is_ with
    | Ok cur =>
        let m := est (counter s) cur in
        add_state (log s {| v_ps := ps; v_is := is_; v_cur := cur; v_msg := m |}) m
    | _ => add_state s "vector::_M_range_check"
    end.

  (** searcher.cpp:172-175: the CheckForEmpty test. *)
  Definition skip_pos (ps is_ : list nat) : bool :=
    match current (parts c) ps is_ with
    | Ok cur => checkEmpty c && (lenTargets c <=? nth 0 cur 0)%Z
    | _ => false
    end.

  (** searcher.cpp:163-187: the while(true) loop of [Searcher::Start].  Running out of fuel is
      the outcome [UB] (endless loop). An exception of MoveNext is swallowed (line 191). *)
  Fixpoint loop (fuel t : nat) (ps is_ : list nat) (s : srch) : res srch :=
    match fuel with
    | O => UB
    | S f =>
        match move_next c ps is_ with
        | MFalse => Ok s
        | MThrow => Ok s
        | MTrue ps' is' =>
            if cancel t then Ok s
            else if skip_pos ps' is' then loop f (S t) ps' is' s
            else loop f (S t) ps' is' (visit_pos s ps' is')
        end
    end.

  (** searcher.cpp:54-56 initial indices, 125-136 CheckStart (first use), 138-197 Start. *)
  Definition start (fuel : nat) : res srch :=
    if length (parts c) <? kk c then Throw
    else if kk c =? 0 then Ok srch0
    else if cancel 0 then Ok srch0
    else
      let ps := seq 0 (kk c) in
      let is0 := repeat 0 (kk c) in
      loop fuel 1 ps is0 (visit_pos srch0 ps is0).
End Engine.

(** searcher.cpp:308-311, 317-320: product of the sizes of the selected partitions;
    partitionSizes.at(i) throws when out of range (indices are always in range here). *)
Definition prod_sizes (P : list (list Z)) (ps : list nat) : nat :=
  fold_left (fun m p => m * length (nth p P [])) ps 1.

(** searcher.cpp:313-321. *)
Fixpoint count_loop1 (c : cfg) (fuel : nat) (ps : list nat) (cnt : nat) : res nat :=
  match fuel with
  | O => UB
  | S f =>
      match next ps (kk c) (length (parts c)) (fixG c) with
      | None => Ok cnt
      | Some ps' => count_loop1 c f ps' (cnt + prod_sizes (parts c) ps')
      end
  end.

(** searcher.cpp:329-342. *)
Fixpoint count_loop2 (c : cfg) (fuel : nat) (ps is_ : list nat) (cnt : nat) : res nat :=
  match fuel with
  | O => UB
  | S f =>
      match move_next c ps is_ with
      | MFalse => Ok cnt
      | MThrow => Throw
      | MTrue ps' is' =>
          if checkEmpty c then
            match nth_error (parts c) (nth 0 ps' 0) with
            | None => Throw
            | Some l =>
                match nth_error l (nth 0 is' 0) with
                | None => Throw
                | Some c0 =>
                    if (lenTargets c <=? c0)%Z then count_loop2 c f ps' is' cnt
                    else count_loop2 c f ps' is' (S cnt)
                end
            end
          else count_loop2 c f ps' is' (S cnt)
      end
  end.

(** searcher.cpp:283-350 [Searcher::GetCount(false)]. *)
Definition get_count (c : cfg) (fuel : nat) : res nat :=
  if length (parts c) <? kk c then Throw
  else if (fixI c =? 0)%Z && negb (checkEmpty c) then
    count_loop1 c fuel (seq 0 (kk c)) (prod_sizes (parts c) (seq 0 (kk c)))
  else count_loop2 c fuel (seq 0 (kk c)) (repeat 0 (kk c)) 1.

(** modelset.cpp:127-134: CombineInfo's merge of the failure tables of all searchers. *)
Definition merge_tables (ts : list table) : table :=
  fold_left (fun acc t => fold_left (fun a kv => bump a (fst kv) (snd kv)) t acc) ts [].

(** modelset.cpp:100-106 and 108-115. *)
Definition total_counter (ss : list srch) : nat := fold_left (fun a s => a + counter s) ss 0.
