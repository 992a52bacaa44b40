(** C107: what a search over regressions estimates and records. *)
From Coq Require Import String Lia Lra.
From Verif Require Import RegProofs.
Local Open Scope Z_scope.

(** The columns of the model's data are those of its endogenous variables, the weights, and those of its exogenous variables. *)
Theorem c107_columns : forall g cur,
  (forall v, In v (endo_of g cur) -> v < g_endo g) -> (forall v, In v (exo_of g cur) -> g_endo g <= v) ->
  col_indices g cur = map (column_of (g_weight g) (g_endo g)) (endo_of g cur) ++ (if g_weight g then [g_endo g] else []) ++
                      map (column_of (g_weight g) (g_endo g)) (exo_of g cur).
Proof.
  intros g cur H1 H2. unfold col_indices.
  assert (A : map (column_of (g_weight g) (g_endo g)) (endo_of g cur) = endo_of g cur).
  { rewrite <- (map_id (endo_of g cur)) at 2. apply map_ext_in. intros v Hv. apply H1 in Hv. unfold column_of. destruct (v <? g_endo g) eqn:E; [reflexivity|lia]. }
  assert (B : map (column_of (g_weight g) (g_endo g)) (exo_of g cur) = map (fun a => a + (if g_weight g then 1 else 0)) (exo_of g cur)).
  { apply map_ext_in. intros v Hv. apply H2 in Hv. unfold column_of. destruct (v <? g_endo g) eqn:E; [lia|]. destruct (g_weight g); lia. }
  rewrite A, B. unfold endo_of, exo_of. destruct (g_innerexo g); reflexivity.
Qed.

(** No column is used twice. *)
Theorem c107_columns_distinct : forall g cur,
  (forall v, In v (endo_of g cur) -> v < g_endo g) -> (forall v, In v (exo_of g cur) -> g_endo g <= v) ->
  NoDup (endo_of g cur) -> NoDup (exo_of g cur) -> NoDup (col_indices g cur).
Proof.
  intros g cur H1 H2 N1 N2.
  assert (E : col_indices g cur = endo_of g cur ++ (if g_weight g then [g_endo g] else []) ++ map (fun a => a + (if g_weight g then 1 else 0)) (exo_of g cur)).
  { unfold col_indices, endo_of, exo_of. destruct (g_innerexo g); reflexivity. }
  rewrite E.
  assert (N3 : NoDup (map (fun a => a + (if g_weight g then 1 else 0)) (exo_of g cur))).
  { apply FinFun.Injective_map_NoDup; [|exact N2]. intros a b. destruct (g_weight g); lia. }
  assert (G : forall l1 l2 : list Z, NoDup l1 -> NoDup l2 -> (forall x, In x l1 -> ~ In x l2) -> NoDup (l1 ++ l2)).
  { clear. induction l1 as [|x l1 IH]; intros l2 N1 N2 D; cbn; [exact N2|]. apply NoDup_cons_iff in N1. destruct N1 as [N N1]. constructor.
    - rewrite in_app_iff. intros [K|K]; [exact (N K)|]. apply (D x); [left; reflexivity|exact K].
    - apply IH; [exact N1|exact N2|]. intros y Hy. apply D. right. exact Hy. }
  apply G; [exact N1| |].
  - apply G; [|exact N3|]; [destruct (g_weight g); repeat constructor; intros []|].
    intros x Hx K. apply in_map_iff in K. destruct K as (a & E' & Ha). apply H2 in Ha. destruct (g_weight g); [|destruct Hx]. destruct Hx as [<-|[]]. lia.
  - intros x Hx K. apply H1 in Hx. apply in_app_or in K. destruct K as [K|K].
    + destruct (g_weight g); [|destruct K]. destruct K as [<-|[]]. lia.
    + apply in_map_iff in K. destruct K as (a & E' & Ha). apply H2 in Ha. destruct (g_weight g); lia.
Qed.

(** A model whose estimation succeeds: exactly one record for each metric that is a number and each target of the model (and one for each of its coefficients
    that is a number), with the model's variables and the weight of the metric. *)
Theorem c107_records : forall g est c1 c2 cur p, NoDup (map fst (g_minin g)) -> NoDup (map fst (g_minout g)) ->
  estimate_one g est c1 c2 cur = (p, Msg "") ->
  exists o, est (col_indices g cur) = Ok o /\ o_msg o = ""%string /\ (forall x, In x p <-> recorded g cur o x).
Proof.
  intros g est c1 c2 cur p N1 N2. unfold estimate_one. destruct (measures g =? 0)%nat eqn:M0; [discriminate|].
  destruct (reg_targets g cur) as [|t0 ts] eqn:T; [discriminate|]. destruct c1; [discriminate|].
  destruct (est (col_indices g cur)) as [o| |] eqn:E; try discriminate.
  destruct (String.eqb (o_msg o) "") eqn:Em; cbn [negb]; [|intros H; injection H as <- Hm; rewrite Hm in Em; discriminate].
  destruct c2; [discriminate|]. destruct (run (steps g cur o)) as [p' threw] eqn:Ru. destruct threw; [discriminate|].
  destruct (all_nan g cur o); [discriminate|]. intros H; injection H as ->.
  exists o. split; [reflexivity|]. split; [apply String.eqb_eq; exact Em|].
  apply run_spec in Ru. destruct Ru as [R1 R2]. destruct (R2 eq_refl) as [R3 R4]. intros x. split.
  - intros Hx. destruct (R1 x Hx) as (q & Hq & Hxq). apply steps_in in Hq. destruct Hq as (i & j & t & Hi & Ht & Hq).
    destruct (o_metrics o i j) as [m|] eqn:Hm; [|unfold cell_pushes in Hq; rewrite Hm in Hq; injection Hq as ->; destruct Hxq].
    pose proof (cell_sound g cur o i j t m q Hi Hm (eq_sym Hq) x Hxq) as K. exists i, j, t, m.
    split; [exact Hi|]. split; [exact Ht|]. split; [exact Hm|]. exact K.
  - intros (i & j & t & m & Hi & Ht & Hm & K).
    assert (Hs : In (cell_pushes g cur o i j t) (steps g cur o)) by (apply steps_in; exists i, j, t; repeat split; assumption).
    destruct (R3 _ Hs) as [q Hq]. apply (R4 q x); [rewrite <- Hq; exact Hs|]. exact (cell_complete g cur o i j t m q x N1 N2 Hi Hm Hq K).
Qed.

Lemma cell_keys g cur o i j t q : cell_pushes g cur o i j t = Ok q -> NoDup (map key q) /\ (forall x, In x q -> p_eval x = i /\ p_target x = t).
Proof.
  unfold cell_pushes. destruct (o_metrics o i j) as [m|]; [|intros H; injection H as <-; split; [constructor|intros x []]].
  destruct (weight_of g i t m) as [w| |]; cbn [bind]; try discriminate. cbv zeta.
  match goal with |- context [if ?c then Throw else Ok (?a ++ ?b)] => destruct c; [discriminate|]; intros H; apply (f_equal (fun o => match o with Ok v => v | _ => q end)) in H; cbv beta iota in H; subst q end.
  split.
  - rewrite map_app.
    assert (F : forall r l, NoDup (map key (flat_map (fun i1 => match o_mean o i1 j with None => [] | Some c => [Push i t (Some i1) m w (if g_innerexo g then g_inner g else cur) (o_extra o) (if g_innerexo g then cur else g_inner g) (Some (c, o_var o i1 j))] end) (seq r l)))
      /\ (forall k, In k (map key (flat_map (fun i1 => match o_mean o i1 j with None => [] | Some c => [Push i t (Some i1) m w (if g_innerexo g then g_inner g else cur) (o_extra o) (if g_innerexo g then cur else g_inner g) (Some (c, o_var o i1 j))] end) (seq r l))) -> exists n, (r <= n)%nat /\ k = (i, t, Some n))).
    { intros r l. revert r. induction l as [|l IH]; intros r; cbn [seq flat_map]; [split; [constructor|intros k []]|]. destruct (IH (S r)) as [I1 I2].
      destruct (o_mean o r j) as [c|]; cbn [app map].
      - split.
        + constructor; [|exact I1]. intros K. apply I2 in K. destruct K as (n & Hn & K). unfold key in K. cbn in K. injection K as ->. lia.
        + intros k [<-|K]; [exists r; split; [lia|reflexivity]|]. destruct (I2 k K) as (n & Hn & ->). exists n. split; [lia|reflexivity].
      - split; [exact I1|]. intros k K. destruct (I2 k K) as (n & Hn & ->). exists n. split; [lia|reflexivity]. }
    destruct (F 0%nat (g_len1 g)) as [F1 F2]. destruct (g_keep g); cbn [map app]; [|exact F1].
    constructor; [|exact F1]. intros K. apply F2 in K. destruct K as (n & _ & K). discriminate.
  - intros x Hx. apply in_app_or in Hx. destruct Hx as [Hx|Hx].
    + destruct (g_keep g); [|destruct Hx]. destruct Hx as [<-|[]]. split; reflexivity.
    + apply in_flat_map in Hx. destruct Hx as (r & _ & Hx). destruct (o_mean o r j); [|destruct Hx]. destruct Hx as [<-|[]]. split; reflexivity.
Qed.

(** Nothing is recorded twice, whatever the outcome. *)
Theorem c107_once : forall g est c1 c2 cur p r, NoDup (endo_of g cur) -> estimate_one g est c1 c2 cur = (p, r) -> NoDup (map key p).
Proof.
  intros g est c1 c2 cur p r ND. unfold estimate_one.
  destruct (measures g =? 0)%nat; [intros H; injection H as <- _; constructor|].
  destruct (reg_targets g cur) as [|t0 ts] eqn:T; [intros H; injection H as <- _; constructor|]. destruct c1; [intros H; injection H as <- _; constructor|].
  destruct (est (col_indices g cur)) as [o| |]; [|intros H; injection H as <- _; constructor..].
  destruct (negb (String.eqb (o_msg o) "")); [intros H; injection H as <- _; constructor|]. destruct c2; [intros H; injection H as <- _; constructor|].
  destruct (run (steps g cur o)) as [p' threw] eqn:Ru. intros H.
  assert (p = p') by (destruct threw; [|destruct (all_nan g cur o)]; injection H as -> _; reflexivity). subst p'. clear H.
  assert (NT : NoDup (reg_targets g cur)) by (rewrite reg_targets_eq; apply NoDup_filter; exact ND).
  set (pick := fun r : res (list push) => match r with Ok q => q | _ => [] end).
  assert (P : exists rest, flat_map pick (steps g cur o) = p ++ rest).
  { clear - Ru. revert p threw Ru. induction (steps g cur o) as [|[q| |] l IH]; intros p b H; cbn in H; [injection H as <- <-; exists []; reflexivity| |injection H as <- <-; eexists; reflexivity..].
    destruct (run l) as [p' b'] eqn:R. injection H as <- <-. destruct (IH p' b' eq_refl) as [rest E]. exists rest. cbn. rewrite E. rewrite app_assoc. reflexivity. }
  destruct P as [rest P].
  assert (A : NoDup (map key (flat_map pick (steps g cur o)))).
  { unfold steps.
    assert (Ef : flat_map pick (flat_map (fun i => map (fun '(j, t) => cell_pushes g cur o i j t) (indexed (reg_targets g cur))) (seq 0 (measures g))) =
      flat_map (fun i => flat_map (fun '(j, t) => pick (cell_pushes g cur o i j t)) (indexed (reg_targets g cur))) (seq 0 (measures g))).
    { generalize (seq 0 (measures g)). induction l as [|i l IH]; [reflexivity|]. cbn. rewrite flat_map_app, IH. apply (f_equal (fun z => z ++ _)). clear.
      induction (indexed (reg_targets g cur)) as [|[j t] k IHk]; [reflexivity|]. cbn. rewrite IHk. reflexivity. }
    rewrite Ef. clear Ef. apply NoDup_flat_map.
    - intros i _. apply NoDup_flat_map.
      + intros [j t] _. destruct (cell_pushes g cur o i j t) as [q| |] eqn:C; [|constructor..]. apply (cell_keys _ _ _ _ _ _ _ C).
      + unfold indexed. apply (NoDup_map_inv fst). rewrite (proj1 (combine_map_fst_snd (reg_targets g cur) 0)). apply seq_NoDup.
      + intros [j t] [j' t'] b b' Ha Ha' Hb Hb' Hk. apply indexed_in in Ha, Ha'.
        destruct (cell_pushes g cur o i j t) as [q| |] eqn:C; [|destruct Hb..]. destruct (cell_pushes g cur o i j' t') as [q'| |] eqn:C'; [|destruct Hb'..].
        destruct (proj2 (cell_keys _ _ _ _ _ _ _ C) b Hb) as [_ Et]. destruct (proj2 (cell_keys _ _ _ _ _ _ _ C') b' Hb') as [_ Et'].
        unfold key in Hk. injection Hk as _ Hk _. rewrite Et, Et' in Hk. subst t'.
        assert (j = j') by (apply (proj1 (NoDup_nth_error _) NT); [apply nth_error_Some; congruence|congruence]). subst. reflexivity.
    - apply seq_NoDup.
    - intros i i' b b' _ _ Hb Hb' Hk. apply in_flat_map in Hb, Hb'. destruct Hb as ([j t] & _ & Hb). destruct Hb' as ([j' t'] & _ & Hb').
      destruct (cell_pushes g cur o i j t) as [q| |] eqn:C; [|destruct Hb..]. destruct (cell_pushes g cur o i' j' t') as [q'| |] eqn:C'; [|destruct Hb'..].
      destruct (proj2 (cell_keys _ _ _ _ _ _ _ C) b Hb) as [Et _]. destruct (proj2 (cell_keys _ _ _ _ _ _ _ C') b' Hb') as [Et' _].
      unfold key in Hk. injection Hk as Hk _ _. congruence. }
  rewrite P, map_app in A. clear - A. induction (map key p) as [|k l IH]; [constructor|]. cbn in A. apply NoDup_cons_iff in A. destruct A as [A1 A2]. constructor; [|apply IH; exact A2].
  intros K. apply A1. apply in_or_app. left. exact K.
Qed.

(** Whatever the outcome, what is recorded belongs to the model; the weight is a number. *)
Theorem c107_sound : forall g est c1 c2 cur p r x, estimate_one g est c1 c2 cur = (p, r) -> In x p ->
  (exists o, est (col_indices g cur) = Ok o /\ recorded g cur o x) /\ p_weight x <> None.
Proof.
  intros g est c1 c2 cur p r x. unfold estimate_one.
  destruct (measures g =? 0)%nat; [intros H; injection H as <- _; intros []|].
  destruct (reg_targets g cur) as [|t0 ts] eqn:T; [intros H; injection H as <- _; intros []|]. destruct c1; [intros H; injection H as <- _; intros []|].
  destruct (est (col_indices g cur)) as [o| |]; [|intros H; injection H as <- _; intros []..].
  destruct (negb (String.eqb (o_msg o) "")); [intros H; injection H as <- _; intros []|]. destruct c2; [intros H; injection H as <- _; intros []|].
  destruct (run (steps g cur o)) as [p' threw] eqn:Ru. intros H Hx.
  assert (p = p') by (destruct threw; [|destruct (all_nan g cur o)]; injection H as -> _; reflexivity). subst p'. clear H.
  destruct (proj1 (run_spec _ _ _ Ru) x Hx) as (q & Hq & Hxq). apply steps_in in Hq. destruct Hq as (i & j & t & Hi & Ht & Hq).
  destruct (o_metrics o i j) as [m|] eqn:Hm; [|unfold cell_pushes in Hq; rewrite Hm in Hq; injection Hq as ->; destruct Hxq].
  pose proof (cell_sound g cur o i j t m q Hi Hm (eq_sym Hq) x Hxq) as K. split.
  - exists o. split; [reflexivity|]. exists i, j, t, m. split; [exact Hi|]. split; [exact Ht|]. split; [exact Hm|]. exact K.
  - destruct K as (_ & _ & _ & [(f & mn & _ & _ & ->)|(s & mn & _ & _ & _ & ->)] & _); [destruct f|destruct s]; cbn; discriminate.
Qed.

(** If no metric is a number, nothing is recorded and the model is counted as failed. *)
Theorem c107_all_nan : forall g est cur o, est (col_indices g cur) = Ok o -> o_msg o = ""%string -> (forall i j, o_metrics o i j = None) ->
  estimate_one g est false false cur = ([], Thrown).
Proof.
  intros g est cur o E Em N. unfold estimate_one. destruct (measures g =? 0)%nat; [reflexivity|]. destruct (reg_targets g cur) as [|t0 ts] eqn:T; [reflexivity|].
  rewrite E, Em. cbn [String.eqb negb].
  assert (R : run (steps g cur o) = ([], false)).
  { assert (A : forall r, In r (steps g cur o) -> r = Ok []).
    { intros r Hr. apply steps_in in Hr. destruct Hr as (i & j & t & _ & _ & ->). unfold cell_pushes. rewrite N. reflexivity. }
    induction (steps g cur o) as [|r l IH]; [reflexivity|]. cbn. rewrite (A r (or_introl eq_refl)). rewrite IH; [reflexivity|]. intros r' Hr'. apply A. right. exact Hr'. }
  rewrite R. unfold all_nan. rewrite (proj2 (forallb_forall _ _)); [reflexivity|]. intros i _. apply forallb_forall. intros j _. rewrite N. reflexivity.
Qed.

(** A cancelled search records nothing more, whether the request is seen before or after the estimation. *)
Theorem c107_cancelled : forall g est c1 c2 cur, c1 || c2 = true -> fst (estimate_one g est c1 c2 cur) = [].
Proof.
  intros g est c1 c2 cur H. unfold estimate_one. destruct (measures g =? 0)%nat; [reflexivity|]. destruct (reg_targets g cur) as [|t0 ts]; [reflexivity|].
  destruct c1; [reflexivity|]. cbn in H. subst c2. destruct (est (col_indices g cur)) as [o| |]; [|reflexivity..]. destruct (negb _); reflexivity.
Qed.

(** The targets of a model are its endogenous variables among the first ones; a model without one is refused and records nothing. *)
Theorem c107_targets : forall g cur, (forall t, In t (reg_targets g cur) <-> In t (endo_of g cur) /\ t < g_targets g) /\
  ((forall t, In t (endo_of g cur) -> g_targets g <= t) -> (g_innerexo g = false -> reg_new g = Throw) /\ forall est c1 c2, estimate_one g est c1 c2 cur = ([], Thrown)).
Proof.
  intros g cur. split.
  - intros t. rewrite reg_targets_eq, filter_In. rewrite Z.ltb_lt. reflexivity.
  - intros H. assert (T : reg_targets g cur = []).
    { rewrite reg_targets_eq. destruct (filter _ (endo_of g cur)) as [|t l] eqn:F; [reflexivity|]. exfalso.
      assert (K : In t (filter (fun a => a <? g_targets g) (endo_of g cur))) by (rewrite F; left; reflexivity). apply filter_In in K. destruct K as [K1 K2].
      apply H in K1. lia. }
    split.
    + intros E. unfold reg_new. rewrite E. unfold reg_targets in T. rewrite E in T. rewrite T. reflexivity.
    + intros est c1 c2. unfold estimate_one. rewrite T. destruct (measures g =? 0)%nat; reflexivity.
Qed.

(** Conversely, a message-free estimation with a number among the metrics is not reported as failed (unless a smallest metric is missing for a target). *)
Theorem c107_succeeds : forall g est cur o i j t m, est (col_indices g cur) = Ok o -> o_msg o = ""%string ->
  (forall v, In v (endo_of g cur) -> 0 <= v) ->
  (forall f l, In (f, l) (g_minin g) -> g_targets g <= Z.of_nat (List.length l)) -> (forall s l, In (s, l) (g_minout g) -> g_targets g <= Z.of_nat (List.length l)) ->
  (i < List.length (g_in g) + List.length (g_out g))%nat -> nth_error (reg_targets g cur) j = Some t -> o_metrics o i j = Some m ->
  exists p, estimate_one g est false false cur = (p, Msg "") .
Proof.
  intros g est cur o i j t m E Em Pos L1 L2 Hi Ht Hm. unfold estimate_one. unfold measures. destruct (_ =? 0)%nat eqn:M0; [apply Nat.eqb_eq in M0; lia|].
  destruct (reg_targets g cur) as [|t0 ts] eqn:T; [destruct j; discriminate|]. rewrite E, Em. cbn [String.eqb negb].
  destruct (run (steps g cur o)) as [p threw] eqn:Ru.
  assert (threw = false).
  { assert (A : forall r, In r (steps g cur o) -> exists q, r = Ok q).
    { intros r Hr. apply steps_in in Hr. destruct Hr as (i' & j' & t' & Hi' & Ht' & ->).
      assert (It : In t' (reg_targets g cur)) by (apply (nth_error_In _ _ Ht')). apply c107_targets in It. destruct It as [It It2]. apply Pos in It.
      unfold cell_pushes. destruct (o_metrics o i' j') as [m'|]; [|eexists; reflexivity].
      assert (W : exists w, weight_of g i' t' m' = Ok w).
      { unfold weight_of.
        assert (MM : forall A (eqb : A -> A -> bool) ms k, (forall f l, In (f, l) ms -> g_targets g <= Z.of_nat (List.length l)) -> exists mn, min_metric eqb ms k t' = Ok mn).
        { intros A eqb ms k HL. unfold min_metric. destruct (find _ ms) as [[k' l]|] eqn:F; [|eexists; reflexivity]. apply find_some in F. destruct F as [F _]. apply HL in F.
          destruct (t' <? 0) eqn:Tn; [lia|]. destruct (nth_error l (Z.to_nat t')) eqn:Nl; [eexists; reflexivity|]. apply nth_error_None in Nl. lia. }
        destruct (nth_error (g_in g) i') as [f|] eqn:N1. { destruct (MM _ gof_eqb (g_minin g) f L1) as [mn ->]. eexists; reflexivity. }
        destruct (nth_error (g_out g) _) as [s|] eqn:N2; [destruct (MM _ sc_eqb (g_minout g) s L2) as [mn ->]; eexists; reflexivity|].
        apply nth_error_None in N1, N2. unfold measures in Hi'. lia. }
      destruct W as [w ->]. cbn [bind]. cbv zeta. replace (t' <? 0) with false by lia. cbn [andb]. eexists; reflexivity. }
    clear - Ru A. revert p threw Ru A. induction (steps g cur o) as [|r l IH]; intros p b H A; cbn in H; [congruence|].
    destruct (A r (or_introl eq_refl)) as [q ->]. destruct (run l) as [p' b'] eqn:R. injection H as <- <-. apply (IH p' b' eq_refl). intros r Hr. apply A. right. exact Hr. }
  subst threw. assert (An : all_nan g cur o = false).
  { unfold all_nan. apply Bool.not_true_iff_false. intros K. rewrite forallb_forall in K. specialize (K i (proj2 (in_seq _ _ _) (conj (Nat.le_0_l _) Hi))).
    rewrite forallb_forall in K. assert (Hj : (j < List.length (reg_targets g cur))%nat) by (rewrite T; apply nth_error_Some; congruence).
    specialize (K j (proj2 (in_seq _ _ _) (conj (Nat.le_0_l _) Hj))). rewrite Hm in K. discriminate. }
  rewrite An. exists p. reflexivity.
Qed.

(** ** A concrete search: two endogenous variables in the inner group (one target), exogenous variables 2, 3, 4 with weights at column 2. *)
Definition ex_reg : reg := Reg false [0; 1] true 2 1 [GAic; GSic] [SRmse] [(GAic, [5%R])] [] true 3.
Definition ex_one : one := One "" (fun i _ => match i with 0%nat => Some 7%R | 1%nat => None | _ => Some 2%R end)
  (fun r _ => if (r =? 1)%nat then Some 4%R else None) (fun _ _ => Some 1%R) [].
Example ex_columns : col_indices ex_reg [3] = [0; 1; 2; 4] /\ (forall v, In v (endo_of ex_reg [3]) -> v < g_endo ex_reg) /\ (forall v, In v (exo_of ex_reg [3]) -> g_endo ex_reg <= v).
Proof. split; [reflexivity|]. split; intros v; cbn; intros H; intuition lia. Qed.
Example ex_records : map key (fst (estimate_one ex_reg (fun _ => Ok ex_one) false false [3])) = [(0%nat, 0, None); (0%nat, 0, Some 1%nat); (2%nat, 0, None); (2%nat, 0, Some 1%nat)] /\
  snd (estimate_one ex_reg (fun _ => Ok ex_one) false false [3]) = Msg "" /\ NoDup (map fst (g_minin ex_reg)).
Proof. split; [reflexivity|]. split; [reflexivity|]. repeat constructor; intros []. Qed.
Example ex_weight : exists x, In x (fst (estimate_one ex_reg (fun _ => Ok ex_one) false false [3])) /\ p_weight x = Some (exp (- (1 / 2) * (7 - 5))%R).
Proof. eexists. split; [left; reflexivity|]. reflexivity. Qed.

Print Assumptions c107_columns.
Print Assumptions c107_columns_distinct.
Print Assumptions c107_records.
Print Assumptions c107_once.
Print Assumptions c107_sound.
Print Assumptions c107_all_nan.
Print Assumptions c107_cancelled.
Print Assumptions c107_targets.
Print Assumptions c107_succeeds.
