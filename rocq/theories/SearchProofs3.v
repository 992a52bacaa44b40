(** The loop of Start follows the enumeration; counting; accounting. *)
From Coq Require Import String.
From Verif Require Import Base SearchModel SearchSpec SearchProofs SearchProofs2.
From Coq Require Import ZifyBool.
Local Open Scope nat_scope.

(** Positions estimated before the first positive answer of the cancel check. *)
Fixpoint cut {A} (cancel : nat -> bool) (t : nat) (l : list A) : list A :=
  match l with
  | [] => []
  | x :: l' => if cancel t then [] else x :: cut cancel (S t) l'
  end.

Lemma cut_false {A} cancel : (forall t, cancel t = false) -> forall t (l : list A), cut cancel t l = l.
Proof. intros H t l; revert t; induction l as [|a l IH]; intros t; simpl; auto. rewrite H, IH; auto. Qed.

Lemma cut_prefix {A} cancel : forall t (l : list A), exists n, cut cancel t l = firstn n l.
Proof.
  intros t l; revert t; induction l as [|a l IH]; intros t; simpl; [exists 0; auto|].
  destruct (cancel t); [exists 0; auto|]. destruct (IH (S t)) as [n Hn]. exists (S n). simpl. congruence.
Qed.

Lemma cut_bound {A} cancel : forall d t (l : list A), cancel (t + d) = true -> length (cut cancel t l) <= d.
Proof.
  induction d as [|d IH]; intros t l H; destruct l as [|a l]; simpl; try lia.
  - rewrite Nat.add_0_r in H. rewrite H. simpl; lia.
  - destruct (cancel t); simpl; [lia|]. specialize (IH (S t) l). replace (S t + d) with (t + S d) in IH by lia.
    specialize (IH H). lia.
Qed.

Lemma current_ok P : forall ps is_, Forall (fun p => p < length P) ps ->
  Forall2 (fun p i => i < length (nth p P [])) ps is_ ->
  current P ps is_ = Ok (model_at P ps is_).
Proof.
  intros ps is_ HF H. induction H as [|p i ps is_ Hi H IH]; [reflexivity|].
  inversion HF as [|? ? Hp HF']; subst. simpl.
  rewrite (nth_error_nth' P []) by auto.
  rewrite (nth_error_nth' _ 0%Z) by auto.
  rewrite IH by auto. reflexivity.
Qed.

Section Loop.
  Variable est : nat -> list Z -> string.
  Variable cancel : nat -> bool.
  Variable c : cfg.
  Notation pos := (list nat * list nat)%type.

  Definition visit1 (s : srch) (x : pos) : srch := visit_pos est c s (fst x) (snd x).
  Definition noskip (x : pos) : bool := negb (skip_pos c (fst x) (snd x)).

  Lemma loop_run l : forall x t s fuel,
    Run (mstep c) x l None ->
    (forall y, In y l -> move_next c (fst y) (snd y) =
        match mstep c y with Some (ps', is') => MTrue ps' is' | None => MFalse end) ->
    length l <= fuel ->
    loop est cancel c fuel t (fst x) (snd x) s
    = Ok (fold_left visit1 (filter noskip (cut cancel t (tl l))) s).
  Proof.
    induction l as [|a l IH]; intros x t s fuel HR Hm Hf.
    - apply run_head in HR. destruct HR as (? & HR); discriminate.
    - destruct fuel as [|f]; [simpl in Hf; lia|].
      pose proof (run_head _ _ _ _ HR) as [tl0 E]. injection E as -> ->.
      simpl. rewrite Hm by (left; reflexivity).
      inversion HR as [? Ha Hl Ho|? b ? ? Hs HR' E1]; subst.
      + rewrite Ho. reflexivity.
      + rewrite Hs. destruct b as [ps' is'].
        pose proof (run_head _ _ _ _ HR') as [tl1 E]. subst tl0. simpl.
        destruct (cancel t); [reflexivity|]. simpl filter.
        specialize (IH (ps', is') (S t)). simpl in IH.
        simpl in Hf.
        replace (noskip (ps', is')) with (negb (skip_pos c ps' is')) by reflexivity.
        destruct (skip_pos c ps' is'); simpl; (apply IH; [auto | intros y Hy; apply Hm; simpl; tauto | lia]).
  Qed.

  (** The log, the counter and the table after visiting a list of valid positions. *)
  Definition okpos (x : pos) : Prop := current (parts c) (fst x) (snd x) = Ok (model_at (parts c) (fst x) (snd x)).

  Fixpoint logs (n : nat) (l : list pos) : list visit :=
    match l with
    | [] => []
    | x :: l' =>
        let cur := model_at (parts c) (fst x) (snd x) in
        {| v_ps := fst x; v_is := snd x; v_cur := cur; v_msg := est n cur |} :: logs (S n) l'
    end.

  Definition addmsg (t : table) (m : string) : table := if String.eqb m "" then t else bump t m 1.

  Lemma visits_spec l : forall s, Forall okpos l ->
    fold_left visit1 l s =
    {| counter := counter s + length l;
       states := fold_left addmsg (map v_msg (logs (counter s) l)) (states s);
       visited := visited s ++ logs (counter s) l |}.
  Proof.
    induction l as [|x l IH]; intros s HF; simpl.
    - destruct s; simpl. rewrite Nat.add_0_r, app_nil_r. reflexivity.
    - inversion HF as [|? ? Hx HF']; subst. rewrite IH by auto.
      unfold visit1 at 1 2 3 4 5, visit_pos. unfold okpos in Hx. rewrite Hx. simpl.
      rewrite <- app_assoc. simpl. f_equal. lia.
  Qed.

  Lemma logs_pos l : forall n, map (fun v => (v_ps v, v_is v)) (logs n l) = l.
  Proof. induction l as [|[a b] l IH]; intros n; simpl; auto. rewrite IH; auto. Qed.

  Lemma logs_cur l : forall n v, In v (logs n l) -> v_cur v = model_at (parts c) (v_ps v) (v_is v).
  Proof. clear cancel. induction l as [|[a b] l IH]; intros n v; simpl; [tauto|]. intros [<-|H]; simpl; auto. eapply IH; eauto. Qed.

  Lemma logs_length l : forall n, length (logs n l) = length l.
  Proof. induction l as [|x l IH]; intros n; simpl; auto. Qed.

  Lemma logs_firstn m : forall l n, logs n (firstn m l) = firstn m (logs n l).
  Proof. induction m as [|m IH]; intros [|x l] n; simpl; auto. rewrite IH; auto. Qed.

  Lemma logs_msg l : forall n j v, nth_error (logs n l) j = Some v -> v_msg v = est (n + j) (v_cur v).
  Proof.
    induction l as [|x l IH]; intros n j v H; [destruct j; discriminate|].
    destruct j as [|j]; simpl in H.
    - injection H as <-. simpl. rewrite Nat.add_0_r; auto.
    - apply IH in H. rewrite H. f_equal. lia.
  Qed.
End Loop.

(** ** Failure tables *)
Lemma lookup_bump t k n m : lookup (bump t k n) m = lookup t m + (if String.eqb k m then n else 0).
Proof.
  induction t as [|[k' v] t IH]; simpl.
  - destruct (String.eqb_spec k m); lia.
  - destruct (String.eqb_spec k' k) as [->|Hk]; simpl.
    + destruct (String.eqb_spec k m); lia.
    + destruct (String.eqb_spec k' m) as [->|Hm].
      * destruct (String.eqb_spec k m); [congruence|lia].
      * apply IH.
Qed.

Definition sumv (t : table) : nat := list_sum (map snd t).

Lemma sumv_bump t k n : sumv (bump t k n) = sumv t + n.
Proof.
  unfold sumv. induction t as [|[k' v] t IH]; simpl; [lia|].
  destruct (String.eqb k' k); simpl in *; lia.
Qed.

Lemma keys_bump t k n : NoDup (map fst t) -> NoDup (map fst (bump t k n)) /\
   (forall x, In x (map fst (bump t k n)) <-> In x (map fst t) \/ x = k).
Proof.
  induction t as [|[k' v] t IH]; simpl; intros H.
  - split; [constructor; auto; constructor|]. intros x; simpl; intuition.
  - inversion H as [|? ? Hn H']; subst. destruct (IH H') as [I1 I2].
    destruct (String.eqb_spec k' k) as [->|Hk]; simpl.
    + split; [constructor; auto|]. intros x; simpl; intuition.
    + split.
      * constructor; auto. rewrite I2. intuition.
      * intros x. rewrite I2. intuition.
Qed.

Lemma lookup_addmsgs ms : forall t m, m <> ""%string ->
  lookup (fold_left addmsg ms t) m = lookup t m + count_occ string_dec ms m.
Proof.
  induction ms as [|a ms IH]; intros t m Hm; simpl; [lia|].
  rewrite IH by auto. unfold addmsg. destruct (String.eqb_spec a "") as [Ha|Ha].
  - destruct (string_dec a m); [congruence|]. lia.
  - rewrite lookup_bump. destruct (String.eqb_spec a m), (string_dec a m); try congruence; lia.
Qed.

Lemma sumv_addmsgs ms : forall t,
  sumv (fold_left addmsg ms t) = sumv t + length (filter (fun m => negb (String.eqb m "")) ms).
Proof.
  induction ms as [|a ms IH]; intros t; simpl; [lia|].
  rewrite IH. unfold addmsg. destruct (String.eqb a ""); simpl; [lia|]. rewrite sumv_bump. lia.
Qed.

Lemma keys_addmsgs ms : forall t, NoDup (map fst t) -> ~ In ""%string (map fst t) ->
  NoDup (map fst (fold_left addmsg ms t)) /\ ~ In ""%string (map fst (fold_left addmsg ms t)).
Proof.
  induction ms as [|a ms IH]; intros t H1 H2; simpl; auto.
  apply IH; unfold addmsg; destruct (String.eqb_spec a ""); auto; destruct (keys_bump t a 1 H1) as [K1 K2]; auto.
  rewrite K2. intuition.
Qed.

Lemma lookup_absent t m : ~ In m (map fst t) -> lookup t m = 0.
Proof.
  induction t as [|[k v] t IH]; simpl; auto. intros H. destruct (String.eqb_spec k m); [tauto|]. apply IH; tauto.
Qed.

Lemma merge_inner t : forall a m, NoDup (map fst t) ->
  lookup (fold_left (fun a kv => bump a (fst kv) (snd kv)) t a) m = lookup a m + lookup t m.
Proof.
  induction t as [|[k v] t IH]; intros a m Hn; simpl; [lia|].
  inversion Hn as [|? ? Hk Hn']; subst. rewrite IH, lookup_bump by auto.
  destruct (String.eqb_spec k m) as [->|Hm]; [|lia].
  rewrite (lookup_absent t m) by auto. lia.
Qed.

Lemma merge_sum t : forall a,
  sumv (fold_left (fun a kv => bump a (fst kv) (snd kv)) t a) = sumv a + sumv t.
Proof.
  induction t as [|[k v] t IH]; intros a; simpl; [unfold sumv; simpl; lia|].
  rewrite IH, sumv_bump. unfold sumv; simpl. lia.
Qed.

Lemma merge_lookup ts : forall acc m, Forall (fun t : table => NoDup (map fst t)) ts ->
  lookup (fold_left (fun acc t => fold_left (fun a kv => bump a (fst kv) (snd kv)) t acc) ts acc) m
  = lookup acc m + list_sum (map (fun t => lookup t m) ts).
Proof.
  induction ts as [|t ts IH]; intros acc m HF; simpl; [lia|].
  inversion HF; subst. rewrite IH, merge_inner by auto. lia.
Qed.

Lemma merge_total ts : forall acc,
  sumv (fold_left (fun acc t => fold_left (fun a kv => bump a (fst kv) (snd kv)) t acc) ts acc)
  = sumv acc + list_sum (map sumv ts).
Proof.
  induction ts as [|t ts IH]; intros acc; simpl; [lia|].
  rewrite IH, merge_sum. lia.
Qed.

(** ** Whole runs *)
Section Start.
  Variable est : nat -> list Z -> string.
  Variable cancel : nat -> bool.
  Variable c : cfg.
  Hypothesis Hne : Forall (fun l => l <> []) (parts c).
  Hypothesis Hk : 1 <= kk c <= length (parts c).
  Hypothesis Hfx : fixG c <= kk c.
  Hypothesis Hcl : closed_cfg c.

  Definition keep1 (l : list (list nat * list nat)) :=
    match l with [] => [] | x :: r => x :: filter (noskip c) r end.

  Definition plan : list (list nat * list nat) := keep1 (cut cancel 0 (all_pos c)).

  Lemma all_pos_head : exists t, all_pos c = (seq 0 (kk c), repeat 0 (kk c)) :: t.
  Proof. apply (run_head _ _ _ _ (mstep_run c Hne Hk Hfx Hcl)). Qed.

  Lemma all_pos_okpos x : In x (all_pos c) -> okpos c x.
  Proof.
    intros H. destruct x as [ps is_]. apply (all_pos_choice c Hk Hfx Hcl) in H.
    destruct H as ((_ & _ & HF & _ & H2) & _). apply current_ok; auto.
  Qed.

  Lemma plan_ok : Forall (okpos c) plan.
  Proof.
    unfold plan. apply Forall_forall. intros x Hx. apply all_pos_okpos.
    destruct (cut_prefix cancel 0 (all_pos c)) as [n Hn]. rewrite Hn in Hx.
    assert (Hi : In x (firstn n (all_pos c))).
    { destruct (firstn n (all_pos c)) as [|y r]; simpl in *; auto.
      destruct Hx as [->|Hx]; auto. apply filter_In in Hx. tauto. }
    rewrite <- (firstn_skipn n (all_pos c)). apply in_or_app; auto.
  Qed.

  Lemma start_plan fuel : length (all_pos c) <= fuel ->
    start est cancel c fuel =
    Ok {| counter := length plan;
          states := fold_left addmsg (map v_msg (logs est c 0 plan)) [];
          visited := logs est c 0 plan |}.
  Proof.
    intros Hf. transitivity (Ok (fold_left (visit1 est c) plan srch0)).
    2:{ rewrite visits_spec by apply plan_ok. reflexivity. }
    unfold start.
    destruct (Nat.ltb_spec (length (parts c)) (kk c)); [lia|].
    destruct (Nat.eqb_spec (kk c) 0); [lia|].
    destruct all_pos_head as [t Et]. unfold plan. rewrite Et. simpl.
    destruct (cancel 0); [reflexivity|].
    simpl.
    pose proof (loop_run est cancel c (all_pos c) (seq 0 (kk c), repeat 0 (kk c)) 1
       (visit_pos est c srch0 (seq 0 (kk c)) (repeat 0 (kk c))) fuel
       (mstep_run c Hne Hk Hfx Hcl)) as HL.
    simpl in HL. rewrite HL; auto.
    - rewrite Et. reflexivity.
    - intros [ps is_] Hy. simpl. apply move_next_eq; auto. apply all_pos_vs; auto.
  Qed.
End Start.
