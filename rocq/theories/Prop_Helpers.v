(** Property C57: Split, SplitMultiple, Join and IndexOf (helpers.h). *)
From Verif Require Import StrModel StrProofs.
From Coq Require Import ZifyBool.
Local Open Scope Z_scope.

(** [delim] occurs in [a] followed by [delim] only at the very end. *)
Definition clean (delim a : str) : Prop := forall p r, a ++ delim = p ++ delim ++ r -> r = [].

Lemma clean_free delim a : delim <> [] -> clean delim a -> free_of delim a.
Proof.
  intros Hd H. unfold free_of. destruct (find_str delim (a ++ delim)) as [e|] eqn:E.
  - destruct (find_str_some _ _ _ E) as (r & H1 & H2 & H3). assert (r = []) by (eapply H; eauto). rewrite H0 in H1.
    apply (f_equal (@List.length ascii)) in H1. rewrite !app_length, firstn_length, app_length in H1. rewrite app_length in H2. cbn [List.length] in *. f_equal. lia.
  - exfalso. apply find_str_none in E. apply E. exists a, []. rewrite app_nil_r. reflexivity.
Qed.

(** Splitting a joined list gives the list back. *)
Theorem c57_split_join delim l : delim <> [] -> l <> [] -> Forall (clean delim) l -> split delim (join delim l) = Ok l.
Proof. intros Hd Hl H. apply split_join; auto. eapply Forall_impl; [|exact H]. intros a. apply clean_free; auto. Qed.
Print Assumptions c57_split_join.

(** Joining the pieces of any string gives the string back, for any non-empty separator. *)
Theorem c57_join_split delim s : delim <> [] -> exists l, split delim s = Ok l /\ l <> [] /\ join delim l = s.
Proof.
  intros Hd. destruct (split_total delim (S (List.length s)) Hd s ltac:(lia)) as (A & B & C). eauto.
Qed.
Print Assumptions c57_join_split.

(** Splitting on a set of characters: no piece contains one of them, there is one more piece than
    separators; with one separator it is the inverse of Join. *)
Theorem c57_split_multiple delims s :
  exists l, split_multiple delims s = Ok l /\ Forall (Forall (fun c => ~ In c delims)) l /\
    List.length l = S (List.length (filter (fun c => if in_dec ascii_dec c delims then true else false) s)).
Proof. exists (splitm delims s). split; [apply split_multiple_eq|]. split; [apply splitm_pieces|apply splitm_length]. Qed.
Print Assumptions c57_split_multiple.

Theorem c57_split_multiple_join c l : l <> [] -> Forall (Forall (fun x => x <> c)) l ->
  split_multiple [c] (join [c] l) = Ok l.
Proof. intros H1 H2. rewrite split_multiple_eq. f_equal. apply splitm_join; auto. Qed.
Print Assumptions c57_split_multiple_join.

Theorem c57_join_split_multiple c s : exists l, split_multiple [c] s = Ok l /\ join [c] l = s.
Proof. exists (splitm [c] s). split; [apply split_multiple_eq|apply join_splitm]. Qed.
Print Assumptions c57_join_split_multiple.

(** IndexOf is the first position of the item, or -1. *)
Theorem c57_index_of {A} (eqb : A -> A -> bool) x l : (forall a b, eqb a b = true <-> a = b) ->
  (index_of eqb x l = -1 /\ ~ In x l) \/
  (0 <= index_of eqb x l < Z.of_nat (List.length l) /\ nth_error l (Z.to_nat (index_of eqb x l)) = Some x /\
   forall j, (j < Z.to_nat (index_of eqb x l))%nat -> nth_error l j <> Some x).
Proof. intros H. apply index_of_spec; auto. Qed.
Print Assumptions c57_index_of.

Example c57_nonvacuous : split (s_ ", ") (s_ "a, b,c, ") = Ok [s_ "a"; s_ "b,c"; []] /\
  join (s_ ", ") [s_ "a"; s_ "b,c"; []] = s_ "a, b,c, " /\
  split_multiple (s_ "-:") (s_ "mon-fri:") = Ok [s_ "mon"; s_ "fri"; []].
Proof. vm_compute. auto. Qed.
(** Without the condition splitting is not the inverse: "aa" joined on "aa". *)
Example c57_overlap : split (s_ "aa") (join (s_ "aa") [s_ "xa"; s_ "y"]) = Ok [s_ "x"; s_ "ay"].
Proof. vm_compute. auto. Qed.
