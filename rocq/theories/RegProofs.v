From Coq Require Import String Lia.
From Verif Require Export RegSpec.
Local Open Scope Z_scope.

Lemma gof_eqb_eq a b : gof_eqb a b = true <-> a = b.
Proof. destruct a, b; cbn; split; intros H; congruence. Qed.
Lemma sc_eqb_eq a b : sc_eqb a b = true <-> a = b.
Proof. destruct a, b; cbn; split; intros H; congruence. Qed.

Lemma min_metric_smallest {A} (eqb : A -> A -> bool) m k t mn :
  (forall a b, eqb a b = true <-> a = b) -> min_metric eqb m k t = Ok mn -> smallest m k t mn.
Proof.
  intros E. unfold min_metric, smallest. destruct (find _ m) as [[k' l]|] eqn:F.
  - destruct (t <? 0) eqn:T; [discriminate|]. destruct (nth_error l _) eqn:N; [|discriminate]. intros H; injection H as <-.
    apply find_some in F. destruct F as [F1 F2]. cbn in F2. apply E in F2. subst k'. right. exists l. split; [exact F1|]. split; [lia|exact N].
  - intros H; injection H as <-. left. split; [|reflexivity]. intros l K. apply (find_none _ _ F) in K. cbn in K.
    assert (eqb k k = true) by (apply E; reflexivity). congruence.
Qed.
Lemma weight_of_has g i t m w : (i < measures g)%nat -> weight_of g i t m = Ok w -> has_weight g i t m w.
Proof.
  intros Hi. unfold weight_of, has_weight. destruct (nth_error (g_in g) i) as [f|] eqn:N.
  - destruct (min_metric _ _ _ _) as [mn| |] eqn:M; cbn; try discriminate. intros H; injection H as <-.
    left. exists f, mn. split; [reflexivity|]. split; [|reflexivity]. apply (min_metric_smallest _ _ _ _ _ gof_eqb_eq M).
  - destruct (nth_error (g_out g) _) as [s|] eqn:N2; [|discriminate].
    destruct (min_metric _ _ _ _) as [mn| |] eqn:M; cbn; try discriminate. intros H; injection H as <-.
    right. exists s, mn. split; [apply nth_error_None; exact N|]. split; [reflexivity|]. split; [|reflexivity].
    apply (min_metric_smallest _ _ _ _ _ sc_eqb_eq M).
Qed.

Lemma indexed_in {A} (l : list A) j t : In (j, t) (indexed l) <-> nth_error l j = Some t.
Proof.
  unfold indexed. assert (G : forall (l : list A) k j t, In (j, t) (combine (seq k (List.length l)) l) <-> (k <= j)%nat /\ nth_error l (j - k) = Some t).
  { clear. induction l as [|a l IH]; intros k j t; cbn [List.length seq combine].
    - split; [intros []|]. intros [_ H]. destruct (j - k)%nat; discriminate.
    - split.
      + intros [H|H]. { injection H as <- <-. rewrite Nat.sub_diag. split; [lia|reflexivity]. }
        apply IH in H. destruct H as [H1 H2]. split; [lia|]. replace (j - k)%nat with (S (j - S k)) by lia. exact H2.
      + intros [H1 H2]. destruct (Nat.eq_dec j k) as [->|Hn]. { left. rewrite Nat.sub_diag in H2. cbn in H2. congruence. }
        right. apply IH. split; [lia|]. replace (j - k)%nat with (S (j - S k)) in H2 by lia. exact H2. }
  rewrite G. rewrite Nat.sub_0_r. split; [intros [_ H]; exact H|intros H; split; [lia|exact H]].
Qed.

Lemma run_spec {A} (l : list (res (list A))) p b : run l = (p, b) ->
  (forall x, In x p -> exists q, In (Ok q) l /\ In x q) /\ (b = false -> (forall r, In r l -> exists q, r = Ok q) /\ (forall q x, In (Ok q) l -> In x q -> In x p)).
Proof.
  revert p b. induction l as [|r l IH]; intros p b H.
  - injection H as <- <-. split; [intros x []|]. intros _. split; [intros r []|intros q x []].
  - destruct r as [q| |]; cbn in H.
    + destruct (run l) as [p' b'] eqn:R. injection H as <- <-. destruct (IH p' b' eq_refl) as [I1 I2]. split.
      * intros x K. apply in_app_or in K. destruct K as [K|K]; [exists q; split; [left; reflexivity|exact K]|].
        destruct (I1 x K) as (q' & K1 & K2). exists q'. split; [right; exact K1|exact K2].
      * intros Hb. destruct (I2 Hb) as [J1 J2]. split.
        { intros r [<-|K]; [exists q; reflexivity|apply J1; exact K]. }
        intros q' x [K|K] Kx; [injection K as ->; apply in_or_app; left; exact Kx|apply in_or_app; right; apply (J2 q' x K Kx)].
    + injection H as <- <-. split; [intros x []|discriminate].
    + injection H as <- <-. split; [intros x []|discriminate].
Qed.

Lemma reg_targets_eq g cur : reg_targets g cur = filter (fun a => a <? g_targets g) (endo_of g cur).
Proof. reflexivity. Qed.

Lemma steps_in g cur o r : In r (steps g cur o) <-> exists i j t, (i < measures g)%nat /\ nth_error (reg_targets g cur) j = Some t /\ r = cell_pushes g cur o i j t.
Proof.
  unfold steps. rewrite in_flat_map. split.
  - intros (i & Hi & H). apply in_seq in Hi. apply in_map_iff in H. destruct H as ([j t] & <- & H). apply indexed_in in H. exists i, j, t. repeat split; [lia|exact H].
  - intros (i & j & t & Hi & Ht & ->). exists i. split; [apply in_seq; lia|]. apply in_map_iff. exists (j, t). split; [reflexivity|apply indexed_in; exact Ht].
Qed.

(** What one cell pushes is what must be recorded for it. *)
Definition recorded_at (g : reg) (cur : list Z) (o : one) (i j : nat) (t : Z) (m : R) (x : push) : Prop :=
    p_eval x = i /\ p_target x = t /\ p_metric x = m /\ has_weight g i t m (p_weight x) /\
    p_endo x = endo_of g cur /\ p_exo x = exo_of g cur /\ p_extra x = o_extra o /\
    ((g_keep g = true /\ p_third x = None /\ p_mean x = None) \/
     (exists r c, (r < g_len1 g)%nat /\ o_mean o r j = Some c /\ p_third x = Some r /\ p_mean x = Some (c, o_var o r j))).
Lemma smallest_fun {A} (given : list (A * list R)) k t a b : NoDup (map fst given) -> smallest given k t a -> smallest given k t b -> a = b.
Proof.
  intros ND [[Ha ->]|(l & Hl & _ & Na)] [[Hb ->]|(l' & Hl' & _ & Nb)]; [reflexivity|exfalso; apply (Ha l' Hl')|exfalso; apply (Hb l Hl)|].
  assert (l = l'). { clear - ND Hl Hl'. induction given as [|[k0 l0] g IH]; [destruct Hl|]. cbn in ND. apply NoDup_cons_iff in ND. destruct ND as [N1 N2].
    destruct Hl as [Hl|Hl], Hl' as [Hl'|Hl'].
    - congruence.
    - injection Hl as -> ->. exfalso. apply N1. apply in_map_iff. exists (k, l'). split; [reflexivity|exact Hl'].
    - injection Hl' as -> ->. exfalso. apply N1. apply in_map_iff. exists (k, l). split; [reflexivity|exact Hl].
    - apply IH; assumption. }
  congruence.
Qed.
Lemma cell_sound g cur o i j t m q : (i < measures g)%nat -> o_metrics o i j = Some m -> cell_pushes g cur o i j t = Ok q ->
  forall x, In x q -> recorded_at g cur o i j t m x.
Proof.
  intros Hi Hm. unfold cell_pushes. rewrite Hm. destruct (weight_of g i t m) as [w| |] eqn:W; cbn [bind]; try discriminate. cbv zeta.
  match goal with |- context [if ?c then Throw else Ok (?a ++ ?b)] => destruct c; [discriminate|]; intros H; apply (f_equal (fun o => match o with Ok v => v | _ => q end)) in H; cbv beta iota in H; subst q end.
  intros x Hx. apply in_app_or in Hx. apply weight_of_has in W; [|exact Hi]. destruct Hx as [Hx|Hx].
  - destruct (g_keep g) eqn:K; [|destruct Hx]. destruct Hx as [<-|[]]. repeat split; cbn; try assumption. left. repeat split; assumption || reflexivity.
  - apply in_flat_map in Hx. destruct Hx as (r & Hr & Hx). apply in_seq in Hr. destruct (o_mean o r j) as [c|] eqn:C; [|destruct Hx]. destruct Hx as [<-|[]].
    repeat split; cbn; try assumption. right. exists r, c. repeat split; [lia|assumption].
Qed.
Lemma cell_complete g cur o i j t m q x : NoDup (map fst (g_minin g)) -> NoDup (map fst (g_minout g)) -> (i < measures g)%nat ->
  o_metrics o i j = Some m -> cell_pushes g cur o i j t = Ok q -> recorded_at g cur o i j t m x -> In x q.
Proof.
  intros N1 N2 Hi Hm. unfold cell_pushes. rewrite Hm. destruct (weight_of g i t m) as [w| |] eqn:W; cbn [bind]; try discriminate. cbv zeta.
  match goal with |- context [if ?c then Throw else Ok (?a ++ ?b)] => destruct c; [discriminate|]; intros H; apply (f_equal (fun o => match o with Ok v => v | _ => q end)) in H; cbv beta iota in H; subst q end.
  intros (E1 & E2 & E3 & E4 & E5 & E6 & E7 & E8). apply weight_of_has in W; [|exact Hi].
  assert (Ew : p_weight x = w).
  { destruct W as [(f & mn & A1 & A2 & ->)|(s & mn & A0 & A1 & A2 & ->)], E4 as [(f' & mn' & B1 & B2 & ->)|(s' & mn' & B0 & B1 & B2 & ->)].
    - rewrite B1 in A1. injection A1 as ->. rewrite (smallest_fun _ _ _ _ _ N1 B2 A2). reflexivity.
    - exfalso. apply nth_error_None in B0. congruence.
    - exfalso. apply nth_error_None in A0. congruence.
    - rewrite B1 in A1. injection A1 as ->. rewrite (smallest_fun _ _ _ _ _ N2 B2 A2). reflexivity. }
  destruct x as [xe xt xth xm xw xx xex xen xmn]. cbn in *. subst. apply in_or_app. destruct E8 as [(K & -> & ->)|(r & c & Hr & Hc & -> & ->)].
  - left. rewrite K. left. unfold exo_of, endo_of. reflexivity.
  - right. apply in_flat_map. exists r. split; [apply in_seq; lia|]. rewrite Hc. left. reflexivity.
Qed.

Lemma NoDup_flat_map {A B C} (f : A -> list B) (k : B -> C) (l : list A) :
  (forall a, In a l -> NoDup (map k (f a))) -> NoDup l -> (forall a a' b b', In a l -> In a' l -> In b (f a) -> In b' (f a') -> k b = k b' -> a = a') -> NoDup (map k (flat_map f l)).
Proof.
  induction l as [|a l IH]; intros H1 H2 H3; cbn; [constructor|].
  rewrite map_app. apply NoDup_cons_iff in H2. destruct H2 as [H2 H2'].
  assert (G : forall (l1 l2 : list C), NoDup l1 -> NoDup l2 -> (forall x, In x l1 -> ~ In x l2) -> NoDup (l1 ++ l2)).
  { clear. induction l1 as [|x l1 IH]; intros l2 N1 N2 D; cbn; [exact N2|]. apply NoDup_cons_iff in N1. destruct N1 as [N N1]. constructor.
    - rewrite in_app_iff. intros [K|K]; [exact (N K)|]. apply (D x); [left; reflexivity|exact K].
    - apply IH; [exact N1|exact N2|]. intros y Hy. apply D. right. exact Hy. }
  apply G.
  - apply H1. left. reflexivity.
  - apply IH; [intros b Hb; apply H1; right; exact Hb|exact H2'|]. intros b b' c c' Hb Hb'. apply H3; right; assumption.
  - intros x Hx K. apply in_map_iff in Hx. destruct Hx as (b & <- & Hb). apply in_map_iff in K. destruct K as (b' & E & Hb'). apply in_flat_map in Hb'.
    destruct Hb' as (a' & Ha' & Hb'). apply H2. rewrite (H3 a a' b b'); [exact Ha'|left; reflexivity|right; exact Ha'|exact Hb|exact Hb'|symmetry; exact E].
Qed.
Lemma run_flat {A} (l : list (res (list A))) p : run l = (p, false) -> p = flat_map (fun r => match r with Ok q => q | _ => [] end) l.
Proof.
  revert p. induction l as [|[q| |] l IH]; intros p H; cbn in H; try discriminate; [injection H as <-; reflexivity|].
  destruct (run l) as [p' b'] eqn:R. injection H as <- ->. cbn. rewrite (IH p' eq_refl). reflexivity.
Qed.
Lemma run_prefix {A} (l : list (res (list A))) p b : run l = (p, b) -> exists n, p = flat_map (fun r => match r with Ok q => q | _ => [] end) (firstn n l).
Proof.
  revert p b. induction l as [|[q| |] l IH]; intros p b H; cbn in H; [injection H as <- <-; exists 0%nat; reflexivity| |injection H as <- <-; exists 0%nat; reflexivity..].
  destruct (run l) as [p' b'] eqn:R. injection H as <- <-. destruct (IH p' b' eq_refl) as [n ->]. exists (S n). reflexivity.
Qed.
Lemma combine_map_fst_snd {A} (l : list A) k : map fst (combine (seq k (List.length l)) l) = seq k (List.length l) /\ map snd (combine (seq k (List.length l)) l) = l.
Proof. revert k. induction l as [|a l IH]; intros k; cbn; [split; reflexivity|]. destruct (IH (S k)) as [E1 E2]. rewrite E1, E2. split; reflexivity. Qed.
