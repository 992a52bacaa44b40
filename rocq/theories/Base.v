(** Common definitions: outcomes of C++ code, list update. *)
From Coq Require Export List Arith ZArith Bool Lia Permutation Sorted.
Export ListNotations.

(** Outcome of a piece of C++ code: normal result, C++ exception, undefined behaviour
    (out-of-bounds access, null dereference, endless loop). *)
Inductive res (A : Type) : Type :=
| Ok (a : A)
| Throw
| UB.
Arguments Ok {A} a.
Arguments Throw {A}.
Arguments UB {A}.

Definition bind {A B} (x : res A) (f : A -> res B) : res B :=
  match x with Ok a => f a | Throw => Throw | UB => UB end.
Notation "'do' x <- e ; f" := (bind e (fun x => f)) (at level 200, x name, e at level 100, f at level 200).
Notation "'do' ' p <- e ; f" := (bind e (fun p => f)) (at level 200, p strict pattern, e at level 100, f at level 200).

(** [upd i v l]: store [v] at position [i] of an array (no effect outside). *)
Fixpoint upd {A} (i : nat) (v : A) (l : list A) : list A :=
  match l, i with
  | [], _ => []
  | _ :: t, O => v :: t
  | h :: t, S j => h :: upd j v t
  end.

Lemma upd_length {A} i (v : A) l : length (upd i v l) = length l.
Proof. revert i; induction l as [|h t IH]; intros [|i]; simpl; auto. Qed.

Lemma nth_upd_same {A} i (v d : A) l : i < length l -> nth i (upd i v l) d = v.
Proof. revert i; induction l as [|h t IH]; intros [|i] H; simpl in *; try lia; auto.
  apply IH; lia. Qed.

Lemma nth_upd_other {A} i j (v d : A) l : i <> j -> nth j (upd i v l) d = nth j l d.
Proof. revert i j; induction l as [|h t IH]; intros [|i] [|j] H; simpl; auto; try lia. Qed.

Lemma nth_error_upd_same {A} i (v : A) l : i < length l -> nth_error (upd i v l) i = Some v.
Proof. revert i; induction l as [|h t IH]; intros [|i] H; simpl in *; try lia; auto.
  apply IH; lia. Qed.

Lemma nth_error_upd_other {A} i j (v : A) l : i <> j -> nth_error (upd i v l) j = nth_error l j.
Proof. revert i j; induction l as [|h t IH]; intros [|i] [|j] H; simpl; auto; try lia. Qed.

Lemma upd_app_l {A} i (v : A) l1 l2 : i < length l1 -> upd i v (l1 ++ l2) = upd i v l1 ++ l2.
Proof. revert i; induction l1 as [|h t IH]; intros [|i] H; simpl in *; try lia; auto.
  f_equal; apply IH; lia. Qed.

Lemma upd_app_r {A} i (v : A) l1 l2 : upd (length l1 + i) v (l1 ++ l2) = l1 ++ upd i v l2.
Proof. induction l1 as [|h t IH]; simpl; auto. f_equal; auto. Qed.

Lemma upd_out {A} i (v : A) l : length l <= i -> upd i v l = l.
Proof. revert i; induction l as [|h t IH]; intros [|i] H; simpl in *; try lia; auto.
  f_equal; apply IH; lia. Qed.

Lemma list_ext_nth {A} (d : A) (l1 l2 : list A) :
  length l1 = length l2 -> (forall i, i < length l1 -> nth i l1 d = nth i l2 d) -> l1 = l2.
Proof. intros H1 H2; apply (nth_ext l1 l2 d d H1 H2). Qed.

Lemma list_ext_nth_error {A} (l1 l2 : list A) :
  (forall i, nth_error l1 i = nth_error l2 i) -> l1 = l2.
Proof.
  revert l2; induction l1 as [|a l1 IH]; intros [|b l2] H; auto.
  - specialize (H 0); discriminate.
  - specialize (H 0); discriminate.
  - f_equal. { specialize (H 0); simpl in H; congruence. }
    apply IH; intros i; exact (H (S i)).
Qed.

Lemma Forall2_len {A B} (R : A -> B -> Prop) l1 l2 : Forall2 R l1 l2 -> length l1 = length l2.
Proof. induction 1; simpl; auto. Qed.

Lemma map_fst_combine_eq {A B} (l : list A) : forall l' : list B,
  length l = length l' -> map fst (combine l l') = l.
Proof. induction l as [|a l IH]; intros [|b l'] H; simpl in *; try lia; auto. rewrite IH; auto. Qed.

Lemma map_snd_combine_eq {A B} (l : list A) : forall l' : list B,
  length l = length l' -> map snd (combine l l') = l'.
Proof. induction l as [|a l IH]; intros [|b l'] H; simpl in *; try lia; auto. rewrite IH; auto. Qed.
