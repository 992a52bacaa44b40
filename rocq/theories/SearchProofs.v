(** Proofs about the search generator. *)
From Coq Require Import String.
From Verif Require Import Base SearchModel SearchSpec.
From Coq Require Import ZifyBool.
Local Open Scope nat_scope.

(** ** Orbits of a partial step function *)
Section Run.
  Context {A : Type}.
  Inductive Run (F : A -> option A) : A -> list A -> option A -> Prop :=
  | run_one a : Run F a [a] (F a)
  | run_step a b l o : F a = Some b -> Run F b l o -> Run F a (a :: l) o.

  Lemma run_one' F a o : F a = o -> Run F a [a] o.
  Proof. intros <-; constructor. Qed.

  Lemma run_app F a l1 b l2 o : Run F a l1 (Some b) -> Run F b l2 o -> Run F a (l1 ++ l2) o.
  Proof.
    intros H1 H2. remember (Some b) as ob eqn:E. revert E.
    induction H1 as [a|a a' l o' Hs H1 IH]; intros E; simpl.
    - econstructor; eauto.
    - econstructor; eauto.
  Qed.

  Lemma run_head F a l o : Run F a l o -> exists t, l = a :: t.
  Proof. intros H; destruct H; eauto. Qed.

  Lemma run_forall F (P : A -> Prop) a l o :
    (forall x y, P x -> F x = Some y -> P y) -> P a -> Run F a l o -> Forall P l.
  Proof. intros HP Ha H; induction H as [a|a b l o Hs H IH]; constructor; eauto. Qed.
End Run.

Lemma run_flat {A B} (f : A -> option A) (F : B -> option B) (e : A -> B) (blk : A -> list B)
      (P : A -> Prop) x l o' :
  (forall y z, P y -> f y = Some z -> P z) ->
  (forall y z, P y -> f y = Some z -> Run F (e y) (blk y) (Some (e z))) ->
  (forall y, P y -> f y = None -> Run F (e y) (blk y) o') ->
  P x -> Run f x l None -> Run F (e x) (flat_map blk l) o'.
Proof.
  intros HP Hs He Hx H. remember None as n eqn:E.
  revert E Hx; induction H as [a|a b l o Hab H IH]; intros E Ha; simpl.
  - rewrite app_nil_r; auto.
  - eapply run_app; [apply Hs; eauto|]. apply IH; eauto.
Qed.

Lemma run_ext {A} (f g : A -> option A) (P : A -> Prop) a l o :
  (forall x, P x -> f x = g x) -> (forall x y, P x -> f x = Some y -> P y) -> P a ->
  Run f a l o -> Run g a l o.
Proof.
  intros Hfg HP Ha H; induction H as [a|a b l o Hs H IH].
  - rewrite Hfg by auto. constructor.
  - econstructor; [rewrite <- Hfg by auto; eauto|]. apply IH; eauto.
Qed.

(** Cutting an orbit at the first element that fails a predicate that never recovers. *)
Lemma run_filter {A} (f : A -> option A) (good : A -> bool) (P : A -> Prop) a l :
  (forall x y, P x -> f x = Some y -> P y) ->
  (forall x y, P x -> f x = Some y -> good y = true -> good x = true) ->
  P a -> good a = true -> Run f a l None ->
  Run (fun x => match f x with Some y => if good y then Some y else None | None => None end)
      a (filter good l) None.
Proof.
  intros HP Hg Ha Hga H. remember None as n eqn:E. revert E Ha Hga.
  induction H as [a|a b l o Hs H IH]; intros E Ha Hga; simpl; rewrite Hga.
  - apply run_one'. rewrite E; reflexivity.
  - destruct (good b) eqn:Hb.
    + econstructor; [rewrite Hs, Hb; reflexivity|]. apply IH; eauto.
    + assert (Hl : filter good l = []).
      { clear IH. assert (HPb : P b) by eauto. clear Hs Hga Ha.
        revert Hb HPb; induction H as [b|b c l o Hbc H IH]; intros Hb HPb; simpl; rewrite Hb; auto.
        apply IH; eauto. destruct (good c) eqn:Hc; auto.
        rewrite (Hg b c) in Hb; auto. }
      rewrite Hl.
      apply run_one'. rewrite Hs, Hb; reflexivity.
Qed.

(** ** Combinations *)
(** Lexicographic successor of an increasing list below [n]. *)
Fixpoint succ (n : nat) (g : list nat) : option (list nat) :=
  match g with
  | [] => None
  | x :: xs =>
      match succ n xs with
      | Some xs' => Some (x :: xs')
      | None => if x + 1 + length xs <? n then Some (seq (S x) (S (length xs))) else None
      end
  end.

Lemma succ_length n g g' : succ n g = Some g' -> length g' = length g.
Proof.
  revert g'; induction g as [|x xs IH]; intros g' H; simpl in *; [discriminate|].
  destruct (succ n xs) as [xs'|] eqn:E.
  - injection H as <-; simpl; f_equal; auto.
  - destruct (x + 1 + length xs <? n); [|discriminate]. injection H as <-. simpl; f_equal; apply seq_length.
Qed.

(** All increasing lists of length [k] with elements in [lo, lo+d). *)
Fixpoint combs (d lo k : nat) : list (list nat) :=
  match k with
  | O => [[]]
  | S k' =>
      match d with
      | O => []
      | S d' => map (cons lo) (combs d' (S lo) k') ++ combs d' (S lo) k
      end
  end.

Lemma combs_nil d lo k : d < k -> combs d lo k = [].
Proof.
  revert lo k; induction d as [|d IH]; intros lo [|k] H; simpl; auto; try lia.
  rewrite !IH by lia. reflexivity.
Qed.

Lemma flat_map_single {A B} (f : A -> B) l : flat_map (fun x => [f x]) l = map f l.
Proof. induction l; simpl; congruence. Qed.

Lemma combs_run d : forall lo k, k <= d -> Run (succ (lo + d)) (seq lo k) (combs d lo k) None.
Proof.
  induction d as [|d IH]; intros lo k H.
  - assert (k = 0) by lia; subst. simpl. apply run_one'; reflexivity.
  - destruct k as [|k].
    { simpl. apply run_one'; reflexivity. }
    cbn [combs seq].
    assert (H1 := IH (S lo) k ltac:(lia)).
    replace (S lo + d) with (lo + S d) in H1 by lia.
    rewrite <- flat_map_single.
    destruct (Nat.eq_dec k d) as [->|Hne].
    + rewrite (combs_nil d (S lo) (S d)) by lia. rewrite app_nil_r.
      apply run_flat with (f := succ (lo + S d)) (P := fun g => length g = d)
                          (e := cons lo) (blk := fun x => [lo :: x]); auto.
      * intros y z Hy Hz. apply succ_length in Hz; congruence.
      * intros y z Hy Hz.
        assert (E : succ (lo + S d) (lo :: y) = Some (lo :: z)) by (simpl; rewrite Hz; auto).
        apply run_one'; exact E.
      * intros y Hy Hn.
        assert (E : succ (lo + S d) (lo :: y) = None).
        { simpl. rewrite Hn, Hy. destruct (Nat.ltb_spec (lo + 1 + d) (lo + S d)); [lia|auto]. }
        apply run_one'; exact E.
      * apply seq_length.
    + apply run_app with (b := seq (S lo) (S k)).
      2:{ replace (lo + S d) with (S lo + d) by lia. apply IH; lia. }
      apply run_flat with (f := succ (lo + S d)) (P := fun g => length g = k)
                          (e := cons lo) (blk := fun x => [lo :: x]); auto.
      * intros y z Hy Hz. apply succ_length in Hz; congruence.
      * intros y z Hy Hz.
        assert (E : succ (lo + S d) (lo :: y) = Some (lo :: z)) by (simpl; rewrite Hz; auto).
        apply run_one'; exact E.
      * intros y Hy Hn.
        assert (E : succ (lo + S d) (lo :: y) = Some (seq (S lo) (S k))).
        { cbn [succ]. rewrite Hn, Hy. destruct (Nat.ltb_spec (lo + 1 + k) (lo + S d)); [auto|lia]. }
        apply run_one'; exact E.
      * apply seq_length.
Qed.

Lemma combs_spec d : forall lo k g,
  In g (combs d lo k) <-> length g = k /\ StronglySorted lt g /\ Forall (fun x => lo <= x < lo + d) g.
Proof.
  induction d as [|d IH]; intros lo [|k] g; simpl.
  - split.
    + intros [<-|[]]; repeat constructor.
    + intros (H & _); destruct g; simpl in *; [auto|lia].
  - split; [tauto|]. intros (H & _ & HF); destruct g; simpl in *; [lia|].
    inversion HF; lia.
  - split.
    + intros [<-|[]]; repeat constructor.
    + intros (H & _); destruct g; simpl in *; [auto|lia].
  - rewrite in_app_iff, in_map_iff. split.
    + intros [(x & <- & Hx)|Hx].
      * apply IH in Hx. destruct Hx as (H1 & H2 & H3). split; [simpl; lia|]. split.
        -- constructor; auto. eapply Forall_impl; [|exact H3]. simpl; intros; lia.
        -- constructor; [lia|]. eapply Forall_impl; [|exact H3]. simpl; intros; lia.
      * apply IH in Hx. destruct Hx as (H1 & H2 & H3). repeat split; auto.
        eapply Forall_impl; [|exact H3]. simpl; intros; lia.
    + intros (H1 & H2 & H3). destruct g as [|x g]; [simpl in H1; lia|].
      inversion H2 as [|? ? Hs Hf]; subst. inversion H3 as [|? ? Hx Hr]; subst.
      destruct (Nat.eq_dec x lo) as [->|Hne].
      * left. exists g. split; auto. apply IH. split; [simpl in H1; lia|]. split; auto.
        rewrite Forall_forall in *. intros y Hy. specialize (Hf y Hy). specialize (Hr y Hy). lia.
      * right. apply IH. split; auto. split; auto.
        rewrite Forall_forall in *. intros y Hy. specialize (H3 y Hy).
        destruct Hy as [<-|Hy]; [lia|]. specialize (Hf y Hy). lia.
Qed.


Lemma NoDup_app {A} (l1 l2 : list A) :
  NoDup l1 -> NoDup l2 -> (forall x, In x l1 -> ~ In x l2) -> NoDup (l1 ++ l2).
Proof.
  induction l1 as [|a l1 IH]; intros H1 H2 HD; simpl; auto.
  inversion H1; subst. constructor.
  - rewrite in_app_iff; intros [H|H]; [auto|]. eapply HD; [left; reflexivity|auto].
  - apply IH; auto. intros x Hx; apply HD; right; auto.
Qed.

Lemma NoDup_map_inj {A B} (f : A -> B) l :
  (forall x y, In x l -> In y l -> f x = f y -> x = y) -> NoDup l -> NoDup (map f l).
Proof.
  intros Hf H; induction H as [|a l Hn H IH]; simpl; constructor.
  - rewrite in_map_iff. intros (y & E & Hy). apply Hn. rewrite (Hf a y); simpl; auto.
  - apply IH. intros; apply Hf; simpl; auto.
Qed.

Lemma NoDup_flat_map {A B} (f : A -> list B) l :
  NoDup l -> (forall x, In x l -> NoDup (f x)) ->
  (forall x y z, In x l -> In y l -> In z (f x) -> In z (f y) -> x = y) -> NoDup (flat_map f l).
Proof.
  intros H; induction H as [|a l Hn H IH]; intros H1 H2; simpl; [constructor|].
  apply NoDup_app.
  - apply H1; simpl; auto.
  - apply IH; [intros; apply H1; simpl; auto|]. intros x y z ? ? ? ?; apply (H2 x y z); simpl; auto.
  - intros x Hx Hx2. apply in_flat_map in Hx2. destruct Hx2 as (b & Hb & Hxb).
    apply Hn. rewrite (H2 a b x); simpl; auto.
Qed.

Lemma combs_nodup d : forall lo k, NoDup (combs d lo k).
Proof.
  induction d as [|d IH]; intros lo [|k]; simpl; try (repeat constructor; simpl; tauto).
  apply NoDup_app; auto.
  - apply NoDup_map_inj; auto. intros; congruence.
  - intros x Hx Hx2. apply in_map_iff in Hx. destruct Hx as (y & <- & _).
    apply combs_spec in Hx2. destruct Hx2 as (_ & _ & HF). inversion HF; lia.
Qed.

(** *** The code's [next] is the lexicographic successor after the fixed prefix *)
Definition pos_fails (g : list nat) (n k j : nat) : Prop := ~ nth j g 0 < n - (k - 1 - j) - 1.

Lemma next_free_spec g n fx k : forall free c,
  c = k - free -> fx <= free <= k ->
  let f := next_free g n fx free c in
  fx <= f <= free /\ (forall j, f <= j < free -> pos_fails g n k j) /\
  (f = fx \/ (fx < f /\ ~ pos_fails g n k (f - 1))).
Proof.
  induction free as [|free IH]; intros c Hc Hf; cbn [next_free].
  - split; [lia|]. split; [intros; lia|left; lia].
  - destruct (Nat.ltb_spec fx (S free)) as [Hlt|Hge].
    + destruct (Nat.ltb_spec (nth free g 0) (n - c - 1)) as [H1|H1].
      * split; [lia|]. split; [intros; lia|]. right. split; [lia|].
        unfold pos_fails. replace (S free - 1) with free by lia.
        replace (k - 1 - free) with c by lia. lia.
      * specialize (IH (S c) ltac:(lia) ltac:(lia)). cbv zeta in IH. destruct IH as (H2 & H3 & H4).
        split; [lia|]. split; [|exact H4].
        intros j Hj. destruct (Nat.eq_dec j free) as [->|Hne]; [|apply H3; lia].
        unfold pos_fails. replace (k - 1 - free) with c by lia. lia.
    + split; [lia|]. split; [intros; lia|left; lia].
Qed.

Lemma nth_last_eq (h : list nat) d : h <> [] -> nth (length h - 1) h d = last h d.
Proof.
  intros Hh. destruct (exists_last Hh) as (l & a & ->).
  rewrite last_last, app_length. simpl. rewrite app_nth2 by lia.
  replace (length l + 1 - 1 - length l) with 0 by lia. reflexivity.
Qed.

Lemma next_fill_spec cnt : forall g h t,
  length t = cnt ->
  h <> [] ->
  g = h ++ t ->
  next_fill cnt (length h) g = h ++ seq (S (last h 0)) cnt.
Proof.
  induction cnt as [|cnt IH]; intros g h t Ht Hh ->; cbn [next_fill seq].
  - destruct t; [|simpl in Ht; lia]. reflexivity.
  - destruct t as [|x t]; [simpl in Ht; lia|].
    assert (Hl : nth (length h - 1) (h ++ x :: t) 0 = last h 0).
    { rewrite app_nth1 by (destruct h; simpl; [congruence|lia]).
      apply nth_last_eq; exact Hh. }
    rewrite Hl.
    replace (upd (length h) (last h 0 + 1) (h ++ x :: t)) with ((h ++ [S (last h 0)]) ++ t).
    2:{ replace (length h) with (length h + 0) by lia. rewrite upd_app_r. simpl.
        rewrite <- app_assoc; simpl. do 2 f_equal; lia. }
    replace (S (length h)) with (length (h ++ [S (last h 0)])) by (rewrite app_length; simpl; lia).
    rewrite IH with (t := t); [| simpl in Ht; lia | destruct h; simpl; congruence | reflexivity].
    rewrite last_last, <- app_assoc. reflexivity.
Qed.

Lemma succ_none n g : (forall j, j < length g -> pos_fails g n (length g) j) -> succ n g = None.
Proof.
  induction g as [|x xs IH]; intros H; simpl; auto.
  rewrite IH.
  - specialize (H 0 ltac:(simpl; lia)). unfold pos_fails in H; simpl in H.
    destruct (Nat.ltb_spec (x + 1 + length xs) n); auto; lia.
  - intros j Hj. specialize (H (S j) ltac:(simpl; lia)). unfold pos_fails in *. simpl in H.
    replace (length xs - 1 - j) with (length xs - 0 - S j) by lia. exact H.
Qed.

Lemma succ_some n g j :
  j < length g -> ~ pos_fails g n (length g) j ->
  (forall i, j < i < length g -> pos_fails g n (length g) i) ->
  succ n g = Some (firstn j g ++ seq (S (nth j g 0)) (length g - j)).
Proof.
  revert j; induction g as [|x xs IH]; intros j Hj H1 H2; [simpl in Hj; lia|].
  destruct j as [|j].
  - cbn [succ]. rewrite succ_none.
    + unfold pos_fails in H1; simpl in H1. destruct (Nat.ltb_spec (x + 1 + length xs) n); [|lia].
      simpl. reflexivity.
    + intros i Hi. specialize (H2 (S i) ltac:(simpl; lia)). unfold pos_fails in *. simpl in H2.
      replace (length xs - 1 - i) with (length xs - 0 - S i) by lia. exact H2.
  - cbn [succ]. rewrite IH with (j := j).
    + simpl. reflexivity.
    + simpl in Hj; lia.
    + unfold pos_fails in *; simpl in H1.
      replace (length xs - 1 - j) with (length xs - 0 - S j) by lia. exact H1.
    + intros i Hi. specialize (H2 (S i) ltac:(simpl; lia)). unfold pos_fails in *. simpl in H2.
      replace (length xs - 1 - i) with (length xs - 0 - S i) by lia. exact H2.
Qed.

Lemma pos_fails_app pre g n j :
  pos_fails (pre ++ g) n (length pre + length g) (length pre + j) <-> pos_fails g n (length g) j.
Proof.
  unfold pos_fails. rewrite app_nth2_plus.
  replace (length pre + length g - 1 - (length pre + j)) with (length g - 1 - j) by lia. tauto.
Qed.

Lemma firstn_last_app (l : list nat) j : j < length l -> firstn (S j) l = firstn j l ++ [nth j l 0].
Proof.
  revert j; induction l as [|a l IH]; intros [|j] H; simpl in *; try lia; auto.
  f_equal; apply IH; lia.
Qed.

Lemma next_succ pre g n :
  next (pre ++ g) (length pre + length g) n (length pre) = option_map (app pre) (succ n g).
Proof.
  unfold next.
  set (G := pre ++ g). set (k := length pre + length g).
  assert (HGk : length G = k) by (unfold G, k; apply app_length).
  pose proof (next_free_spec G n (length pre) k k 0 ltac:(lia) ltac:(unfold k; lia)) as H.
  cbv zeta in H. set (f := next_free G n (length pre) k 0) in *.
  destruct H as (H1 & H2 & H3).
  destruct (Nat.eqb_spec f (length pre)) as [He|Hne].
  - rewrite succ_none; auto. intros j Hj. apply pos_fails_app with (pre := pre).
    apply H2. rewrite He. unfold k; lia.
  - destruct H3 as [H3|[H3 H4]]; [lia|].
    assert (Hj : exists j, f = S (length pre + j)) by (exists (f - 1 - length pre); lia).
    destruct Hj as [j Hj].
    assert (Hjg : j < length g) by (unfold k in *; lia).
    rewrite succ_some with (j := j); auto.
    + cbn [option_map]. f_equal.
      replace (f - 1) with (length pre + j) by lia.
      assert (Hn : nth (length pre + j) G 0 = nth j g 0) by (unfold G; apply app_nth2_plus).
      rewrite Hn.
      assert (Hu : upd (length pre + j) (nth j g 0 + 1) G
                   = (pre ++ firstn j g ++ [S (nth j g 0)]) ++ skipn (S j) g).
      { unfold G. rewrite upd_app_r. rewrite <- !app_assoc. f_equal.
        clear -Hjg. revert j Hjg; induction g as [|a g IH]; intros [|j] Hj; simpl in *; try lia.
        - f_equal; lia.
        - f_equal. apply IH; lia. }
      rewrite Hu.
      replace f with (length (pre ++ firstn j g ++ [S (nth j g 0)])).
      2:{ rewrite !app_length, firstn_length; simpl; lia. }
      rewrite next_fill_spec with (t := skipn (S j) g); auto.
      * rewrite !app_assoc, last_last, <- !app_assoc. do 2 f_equal.
        rewrite !app_length, firstn_length. simpl length.
        replace (length g - j) with (S (length g - S j)) by lia. cbn [seq app].
        do 2 f_equal. unfold k; lia.
      * rewrite skipn_length, !app_length, firstn_length; simpl; unfold k; lia.
      * destruct pre; [|simpl; congruence]. destruct (firstn j g); simpl; congruence.
    + rewrite <- pos_fails_app with (pre := pre). fold G k.
      replace (length pre + j) with (f - 1) by lia. exact H4.
    + intros i Hi. rewrite <- pos_fails_app with (pre := pre). fold G k. apply H2. unfold k; lia.
Qed.
