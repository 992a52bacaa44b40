(** C108: search over systems of equations. *)
From Coq Require Import String Lia Lra ZifyBool.
From Verif Require Import RegProofs2.
Local Open Scope Z_scope.

(** The options of the search, as a call of Update on a new object makes them. *)
Definition prepared (m : mopts) : Prop := exists m0, m_inidx m0 = [] /\ m_outidx m0 = [] /\ metrics_update true false m0 = Ok m.
Lemma prepared_ok m : prepared m -> ins_ok m /\ outs_ok m.
Proof. intros (m0 & E1 & E2 & H). split; intros k; [apply (update_in _ _ _ _ k H E1)|apply (update_out _ _ _ _ k H E2)]. Qed.

(** The evaluations of a model are its AIC, its SIC and the scores of its simulation, each in the row of the metric; no memory outside of the results is touched. *)
Theorem c108_metrics : forall m E len1 cur f s, prepared m -> NoDup (m_in m) -> NoDup (m_out m) ->
  (forall k, In k (m_in m) -> supported_in k = true) -> (forall k, In k (m_out m) -> supported_out k = true) ->
  NoDup cur -> (forall b, In b cur -> E <= b < E + Z.of_nat len1) ->
  exists o, sur_one m E len1 cur (Some (Ok f)) (Some (Ok s)) = Ok o /\ o_msg o = ""%string /\
    (forall i t, (nth_error (m_in m) i = Some GAic -> o_metrics o i t = f_aic f) /\ (nth_error (m_in m) i = Some GSic -> o_metrics o i t = f_sic f)) /\
    (forall i t, (i < List.length (m_out m))%nat -> o_metrics o (List.length (m_in m) + i)%nat t = s i t).
Proof.
  intros m E len1 cur f s P N1 N2 S1 S2 ND R. destruct (prepared_ok m P) as [Hi Ho].
  destruct (sur_one_ok m E len1 cur f s Hi Ho (fun _ => conj R ND)) as (o & E0 & Em & _ & A & B & _ & _ & _).
  assert (First : forall {A} (l : list A) i k, NoDup l -> nth_error l i = Some k -> forall j, (j < i)%nat -> nth_error l j <> Some k).
  { clear. intros A l i k ND N j Hj K. assert (j = i); [|lia]. apply (proj1 (NoDup_nth_error l) ND); [apply nth_error_Some; congruence|congruence]. }
  exists o. split; [exact E0|]. split; [exact Em|]. split.
  - intros i t. split; intros N; rewrite (A i t _ N (First _ _ _ _ N1 N)); reflexivity.
  - intros i t Hl. destruct (nth_error (m_out m) i) as [k|] eqn:N; [|apply nth_error_None in N; lia].
    rewrite (B i t k N (First _ _ _ _ N2 N)). rewrite (S2 k (nth_error_In _ _ N)). reflexivity.
Qed.

(** Without these hypotheses: a metric that systems of equations do not have (or that is asked for twice) is evaluated to zero, for every model. *)
Theorem c108_unsupported_refuted : forall m E len1 cur f s i k t, prepared m -> NoDup cur -> (forall b, In b cur -> E <= b < E + Z.of_nat len1) ->
  nth_error (m_in m) i = Some k -> (supported_in k = false \/ exists j, (j < i)%nat /\ nth_error (m_in m) j = Some k) ->
  exists o, sur_one m E len1 cur (Some (Ok f)) (Some (Ok s)) = Ok o /\ o_metrics o i t = Some 0%R.
Proof.
  intros m E len1 cur f s i k t P ND R N D. destruct (prepared_ok m P) as [Hi Ho].
  destruct (sur_one_ok m E len1 cur f s Hi Ho (fun _ => conj R ND)) as (o & E0 & _ & _ & A & _ & C & _ & _). exists o. split; [exact E0|].
  assert (Dec : (exists j, (j < i)%nat /\ nth_error (m_in m) j = Some k) \/ forall j, (j < i)%nat -> nth_error (m_in m) j <> Some k).
  { clear. induction i as [|i IH]; [right; intros j Hj; lia|]. destruct IH as [(j & Hj & K)|IH]; [left; exists j; split; [lia|exact K]|].
    destruct (nth_error (m_in m) i) as [k'|] eqn:N.
    - destruct (gof_eqb k' k) eqn:G.
      + left. exists i. split; [lia|]. apply gof_eqb_eq in G. subst. exact N.
      + right. intros j Hj. destruct (Nat.eq_dec j i) as [->|]; [|apply IH; lia]. rewrite N. intros K. assert (k' = k) by congruence. subst. rewrite (proj2 (gof_eqb_eq k k) eq_refl) in G. discriminate.
    - right. intros j Hj. destruct (Nat.eq_dec j i) as [->|]; [congruence|apply IH; lia]. }
  destruct Dec as [Dec|Dec].
  - apply C; [apply nth_error_Some; congruence|]. intros k' N'. assert (k' = k) by congruence. subst. exact Dec.
  - destruct D as [D|(j & Hj & K)]; [|exfalso; apply (Dec j Hj K)]. rewrite (A i t k N Dec). destruct k; (discriminate || reflexivity).
Qed.

(** The coefficients: row v - E is the coefficient (and the square of its standard error) of exogenous variable v if it is in the model, NaN otherwise. *)
Theorem c108_coefficients : forall m E len1 cur f s, prepared m -> NoDup cur -> (forall b, In b cur -> E <= b < E + Z.of_nat len1) ->
  exists o, sur_one m E len1 cur (Some (Ok f)) (Some (Ok s)) = Ok o /\
    (forall i v t, nth_error cur i = Some v -> o_mean o (Z.to_nat (v - E)) t = f_beta f i t /\
        o_var o (Z.to_nat (v - E)) t = match f_std f i t with Some s => Some (s * s)%R | None => None end) /\
    (forall r t, ~ In (E + Z.of_nat r) cur -> o_mean o r t = None).
Proof.
  intros m E len1 cur f s P ND R. destruct (prepared_ok m P) as [Hi Ho].
  destruct (sur_one_ok m E len1 cur f s Hi Ho (fun _ => conj R ND)) as (o & E0 & _ & _ & _ & _ & _ & T1 & T2). exists o. split; [exact E0|]. split; [|exact T2].
  intros i v t Hv. apply (T1 i v t); [|exact Hv]. pose proof (R v (nth_error_In _ _ Hv)). lia.
Qed.

(** What is recorded for a target is of the equation of the target, if the targets are the first ones of the model's endogenous variables. *)
Definition targets_first (L : Z) (inner : list Z) : Prop := exists a b, inner = a ++ b /\ (forall v, In v a -> v < L) /\ (forall v, In v b -> L <= v).
Lemma targets_first_eq L inner : targets_first L inner -> forall j t, nth_error (filter (fun a => a <? L) inner) j = Some t -> nth_error inner j = Some t.
Proof.
  intros (a & b & -> & Ha & Hb) j t. rewrite filter_app.
  assert (Fa : filter (fun v => v <? L) a = a). { clear Hb. induction a as [|x a IH]; [reflexivity|]. cbn. pose proof (Ha x (or_introl eq_refl)). replace (x <? L) with true by lia. rewrite IH; [reflexivity|]. intros v Hv. apply Ha. right. exact Hv. }
  assert (Fb : filter (fun v => v <? L) b = []). { clear Ha Fa. induction b as [|x b IH]; [reflexivity|]. cbn. pose proof (Hb x (or_introl eq_refl)). replace (x <? L) with false by lia. apply IH. intros v Hv. apply Hb. right. exact Hv. }
  rewrite Fa, Fb, app_nil_r. intros H. rewrite nth_error_app1; [exact H|]. apply nth_error_Some. congruence.
Qed.

(** A search with options m, whose estimation gives f and whose simulation gives s. *)
Definition sur_reg (m : mopts) (E L : Z) (inner : list Z) (minin : list (gof * list R)) (minout : list (scoring * list R)) (keep : bool) (len1 : nat) : reg :=
  Reg false inner false E L (m_in m) (m_out m) minin minout keep len1.
Theorem c108_equation : forall m E L inner minin minout keep len1 cur f s c1 c2 p r x, prepared m ->
  NoDup (m_in m) -> NoDup (m_out m) -> (forall k, In k (m_in m) -> supported_in k = true) -> (forall k, In k (m_out m) -> supported_out k = true) ->
  NoDup cur -> (forall b, In b cur -> E <= b < E + Z.of_nat len1) -> targets_first L inner ->
  estimate_one (sur_reg m E L inner minin minout keep len1) (fun _ => sur_one m E len1 cur (Some (Ok f)) (Some (Ok s))) c1 c2 cur = (p, r) -> In x p ->
  exists e, nth_error inner e = Some (p_target x) /\
    ((exists k, nth_error (m_in m) (p_eval x) = Some k /\ ((k = GAic /\ f_aic f = Some (p_metric x)) \/ (k = GSic /\ f_sic f = Some (p_metric x)))) \/
     (exists i, p_eval x = (List.length (m_in m) + i)%nat /\ s i e = Some (p_metric x))) /\
    (forall row, p_third x = Some row -> exists i c v, nth_error cur i = Some (E + Z.of_nat row) /\ f_beta f i e = Some c /\ p_mean x = Some (c, v) /\
        v = match f_std f i e with Some s => Some (s * s)%R | None => None end).
Proof.
  intros m E L inner minin minout keep len1 cur f s c1 c2 p r x P N1 N2 S1 S2 ND R TF H Hx.
  destruct (c108_metrics m E len1 cur f s P N1 N2 S1 S2 ND R) as (o & E0 & _ & A & B).
  destruct (c108_coefficients m E len1 cur f s P ND R) as (o' & E0' & T1 & T2). assert (o' = o) by congruence. subst o'.
  assert (Sd : exists o, (fun _ : list Z => sur_one m E len1 cur (Some (Ok f)) (Some (Ok s))) (col_indices (sur_reg m E L inner minin minout keep len1) cur) = Ok o /\ recorded (sur_reg m E L inner minin minout keep len1) cur o x).
  { revert H Hx. unfold estimate_one. set (g := sur_reg m E L inner minin minout keep len1).
    destruct (measures g =? 0)%nat; [intros H; injection H as <- _; intros []|].
    destruct (reg_targets g cur) as [|t0 ts] eqn:T; [intros H; injection H as <- _; intros []|]. destruct c1; [intros H; injection H as <- _; intros []|].
    rewrite E0. destruct (negb (String.eqb (o_msg o) "")); [intros H; injection H as <- _; intros []|]. destruct c2; [intros H; injection H as <- _; intros []|].
    destruct (run (steps g cur o)) as [p' threw] eqn:Ru. intros H Hx.
    assert (p = p') by (destruct threw; [|destruct (all_nan g cur o)]; injection H as -> _; reflexivity). subst p'. clear H.
    destruct (proj1 (run_spec _ _ _ Ru) x Hx) as (q & Hq & Hxq). apply steps_in in Hq. destruct Hq as (i & j & t & Hi & Ht & Hq).
    destruct (o_metrics o i j) as [mm|] eqn:Hm; [|unfold cell_pushes in Hq; rewrite Hm in Hq; injection Hq as ->; destruct Hxq].
    pose proof (cell_sound g cur o i j t mm q Hi Hm (eq_sym Hq) x Hxq) as K.
    exists o. split; [reflexivity|]. exists i, j, t, mm. split; [exact Hi|]. split; [exact Ht|]. split; [exact Hm|]. exact K. }
  destruct Sd as (o' & E0'' & (i & j & t & mm & Hi & Ht & Hm & K1 & K2 & K3 & _ & _ & _ & _ & K8)). assert (o' = o) by congruence. subst o'. cbn in Ht, Hi.
  apply (targets_first_eq L inner TF) in Ht. exists j. split; [rewrite K2; exact Ht|]. split.
  - destruct (Nat.lt_ge_cases i (List.length (m_in m))) as [Li|Li].
    + left. destruct (nth_error (m_in m) i) as [k|] eqn:Nk; [|apply nth_error_None in Nk; lia]. exists k. rewrite K1. split; [exact Nk|].
      destruct (A i j) as [A1 A2]. pose proof (S1 k (nth_error_In _ _ Nk)) as Sk. destruct k; try discriminate; [left|right]; (split; [reflexivity|]); rewrite K3, <- Hm; symmetry; [apply A1|apply A2]; exact Nk.
    + right. exists (i - List.length (m_in m))%nat. split; [lia|]. rewrite K3, <- Hm. rewrite <- (B (i - List.length (m_in m))%nat j) by lia. f_equal. lia.
  - intros row Hrow. destruct K8 as [(_ & K & _)|(r' & c & Hr' & Hc & K & Kc)]; [congruence|]. assert (r' = row) by congruence. subst r'.
    destruct (in_dec Z.eq_dec (E + Z.of_nat row) cur) as [I|I]; [|rewrite (T2 row j I) in Hc; discriminate].
    apply In_nth_error in I. destruct I as [n I]. destruct (T1 n _ j I) as [X1 X2]. replace (Z.to_nat (E + Z.of_nat row - E)) with row in X1, X2 by lia.
    exists n, c, (o_var o row j). split; [exact I|]. split; [congruence|]. split; [exact Kc|exact X2].
Qed.

(** With a target behind another variable, what is recorded for it is of the wrong equation. *)
Definition ex_m0 : mopts := Mopts [GAic] [SMae] [] 0 (1 / 2) 4 10 [] false [] [].
Definition ex_m : mopts := Mopts [GAic] [SMae] [false; false] 0 (1 / 2) 4 10 [] false
  [(GAic, 0); (GAuc, -1); (GBrier, -1); (GFrequencyCost, -1); (GSic, -1)]
  [(SAuc, -1); (SBrier, -1); (SCrps, -1); (SDirection, -1); (SFrequencyCost, -1); (SMae, 0); (SMape, -1); (SRmse, -1); (SRmspe, -1); (SSign, -1)].
Lemma ex_m_prepared : prepared ex_m.
Proof.
  exists ex_m0. split; [reflexivity|]. split; [reflexivity|]. unfold metrics_update, ex_m0. cbn [m_in m_out m_pos m_trainfix m_ratio m_simfix m_seed m_horizons m_ts m_inidx m_outidx].
  cbn [negb andb orb Z.ltb Z.eqb Z.compare]. destruct (Req_EM_T (1 / 2) 0) as [K|K]; [exfalso; lra|]. reflexivity.
Qed.
Definition ex_fit : fitted_sur := FitS (Some 3%R) (Some 4%R) (fun i e => Some (INR (10 * i + e))) (fun _ _ => Some 2%R).
Definition ex_sim : nat -> nat -> option R := fun _ e => Some (INR e).
Theorem c108_unordered_refuted : ~ (forall m E L inner len1 cur f s p r x, prepared m -> NoDup inner -> (exists t, In t inner /\ t < L) ->
  NoDup cur -> (forall b, In b cur -> E <= b < E + Z.of_nat len1) ->
  estimate_one (sur_reg m E L inner [] [] true len1) (fun _ => sur_one m E len1 cur (Some (Ok f)) (Some (Ok s))) false false cur = (p, r) -> In x p -> p_eval x = List.length (m_in m) ->
  exists e, nth_error inner e = Some (p_target x) /\ s 0%nat e = Some (p_metric x)).
Proof.
  intros K.
  assert (ND : forall a b : Z, a <> b -> NoDup [a; b]). { intros a b Hab. constructor; [intros [X|[]]; congruence|]. constructor; [intros []|constructor]. }
  destruct (estimate_one (sur_reg ex_m 2 1 [1; 0] [] [] true 2) (fun _ => sur_one ex_m 2 2 [2; 3] (Some (Ok ex_fit)) (Some (Ok ex_sim))) false false [2; 3]) as [p r] eqn:E.
  specialize (K ex_m 2 1 [1; 0] 2%nat [2; 3] ex_fit ex_sim p r (Push 1 0 None 0 (Some (exp (- (1 / 2) * (0 - 0)))) [2; 3] [] [1; 0] None) ex_m_prepared).
  destruct K as (e & N & V).
  - apply ND. lia.
  - exists 0. split; [right; left; reflexivity|lia].
  - apply ND. lia.
  - intros b [<-|[<-|[]]]; lia.
  - exact E.
  - cbn in E. injection E as <- _. right. right. right. left. reflexivity.
  - reflexivity.
  - destruct e as [|[|e]]; cbn in N; [discriminate| |destruct e; discriminate]. unfold ex_sim in V. cbn in V. injection V as V. lra.
Qed.

(** ** The set of searchers *)
Lemma group_loop_spec bad L seed s l : forall co acc co' acc', group_loop bad L seed s l co acc = Ok (co', acc') ->
  exists new, acc' = acc ++ new /\ co' = co + Z.of_nat (List.length new) /\
    map (fun q => (fst (fst q), snd (fst q))) new = map (fun e => (s, e)) (filter (fun e => match e with e0 :: _ => e0 <=? L | [] => false end) l) /\
    (forall i q, nth_error new i = Some q -> snd q = if seed =? 0 then 0 else if seed <? 0 then - seed else seed + (co + Z.of_nat i)) /\
    (forall q, In q new -> exists t, In t (snd (fst q)) /\ t < L) /\ (forall e, In e l -> e <> []) /\ (new <> [] -> bad = false).
Proof.
  induction l as [|e l IH]; intros co acc co' acc' H; cbn [group_loop] in H.
  - apply (f_equal (fun o => match o with Ok v => v | _ => (co, acc) end)) in H; cbv beta iota in H. injection H as <- <-. exists [].
    rewrite app_nil_r. cbn. split; [reflexivity|]. split; [lia|]. split; [reflexivity|]. split; [intros [|i] q; discriminate|]. split; [intros q []|]. split; [intros e []|congruence].
  - destruct e as [|e0 e]; [discriminate|]. destruct (L <? e0) eqn:Le.
    + destruct (IH _ _ _ _ H) as (new & A1 & A2 & A3 & A4 & A5 & A6 & A7). exists new. split; [exact A1|]. split; [exact A2|]. split; [|split; [exact A4|split; [exact A5|split; [|exact A7]]]].
      * cbn [filter]. replace (e0 <=? L) with false by lia. exact A3.
      * intros e' [<-|K]; [discriminate|apply A6; exact K].
    + destruct bad eqn:Eb; [discriminate|]. cbv zeta in H.
      destruct (target_positions L (e0 :: e)) as [|t0 ts] eqn:T; [discriminate|]. destruct (IH _ _ _ _ H) as (new & A1 & A2 & A3 & A4 & A5 & A6 & A7).
      exists ((s, e0 :: e, if seed =? 0 then 0 else if seed <? 0 then - seed else seed + co) :: new). split; [rewrite A1, <- app_assoc; reflexivity|]. split; [cbn [List.length]; lia|].
      split; [|split; [|split; [|split]]].
      * cbn [filter]. replace (e0 <=? L) with true by lia. cbn [map fst snd]. rewrite A3. reflexivity.
      * intros [|i] q Hq; cbn in Hq; [injection Hq as <-; cbn; replace (co + 0) with co by lia; reflexivity|]. rewrite (A4 i q Hq). replace (co + 1 + Z.of_nat i) with (co + Z.of_nat (S i)) by lia. reflexivity.
      * intros q [<-|Hq]; [|apply A5; exact Hq]. cbn [fst snd]. exists t0. assert (K : In t0 (target_positions L (e0 :: e))) by (rewrite T; left; reflexivity).
        unfold target_positions in K. apply filter_In in K. destruct K as [K1 K2]. split; [exact K1|lia].
      * intros e' [<-|K]; [discriminate|apply A6; exact K].
      * reflexivity.
Qed.
Lemma size_loop_spec bad L seed fix_ groups l : forall co acc out, size_loop bad L seed fix_ groups l co acc = Ok out ->
  exists new, out = acc ++ new /\
    map (fun q => (fst (fst q), snd (fst q))) new =
      flat_map (fun s => map (fun e => (s, e)) (filter (fun e => match e with e0 :: _ => e0 <=? L | [] => false end) groups)) (filter (fun s => fix_ <=? s) l) /\
    (forall i q, nth_error new i = Some q -> snd q = if seed =? 0 then 0 else if seed <? 0 then - seed else seed + (co + Z.of_nat i)) /\
    (forall q, In q new -> exists t, In t (snd (fst q)) /\ t < L) /\ (forall s, In s l -> 0 < s).
Proof.
  induction l as [|s l IH]; intros co acc out H; cbn [size_loop] in H.
  - apply (f_equal (fun o => match o with Ok v => v | _ => acc end)) in H; cbv beta iota in H. subst out. exists []. rewrite app_nil_r. split; [reflexivity|]. split; [reflexivity|]. split; [intros [|i] q; discriminate|]. split; [intros q []|intros s []].
  - destruct (s <=? 0) eqn:S0; [discriminate|]. destruct (s <? fix_) eqn:Sf.
    + destruct (IH _ _ _ H) as (new & A1 & A2 & A3 & A4 & A5). exists new. split; [exact A1|]. split; [|split; [exact A3|split; [exact A4|]]].
      * cbn [filter]. replace (fix_ <=? s) with false by lia. exact A2.
      * intros s' [<-|K]; [lia|apply A5; exact K].
    + destruct (group_loop bad L seed s groups co acc) as [[co' acc']| |] eqn:G; cbn [bind] in H; try discriminate.
      destruct (group_loop_spec _ _ _ _ _ _ _ _ _ G) as (n1 & B1 & B2 & B3 & B4 & B5 & _ & _). destruct (IH _ _ _ H) as (new & A1 & A2 & A3 & A4 & A5).
      exists (n1 ++ new). split; [rewrite A1, B1, app_assoc; reflexivity|]. split; [|split; [|split]].
      * cbn [filter]. replace (fix_ <=? s) with true by lia. cbn [flat_map]. rewrite map_app, A2, B3. reflexivity.
      * intros i q Hq. destruct (Nat.lt_ge_cases i (List.length n1)) as [Hl|Hl]; [rewrite nth_error_app1 in Hq by exact Hl; apply (B4 i q Hq)|].
        rewrite nth_error_app2 in Hq by exact Hl. rewrite (A3 _ q Hq). replace (co' + Z.of_nat (i - List.length n1)) with (co + Z.of_nat i) by lia. reflexivity.
      * intros q Hq. apply in_app_or in Hq. destruct Hq as [Hq|Hq]; [apply B5; exact Hq|apply A4; exact Hq].
      * intros s' [<-|K]; [lia|apply A5; exact K].
Qed.
(** What the set of searchers contains when the options are accepted: each positive size that is not below the number of fixed partitions with each group whose
    first variable is not beyond the targets; every one has a target; the partitions contain only exogenous variables. *)
Theorem c108_searchers_partial : forall m k b t m' k' l, sur_modelset m k b t = Ok (m', k', l) ->
  map (fun q => (fst (fst q), snd (fst q))) l =
    flat_map (fun s => map (fun e => (s, e)) (filter (fun e => match e with e0 :: _ => e0 <=? t_targets t | [] => false end) (b_groups b))) (filter (fun s => b_fix b <=? s) (b_sizes b)) /\
  (forall s, In s (b_sizes b) -> 0 < s) /\ (forall q, In q l -> exists v, In v (snd (fst q)) /\ v < t_targets t) /\
  (forall g v, In g (b_parts b) -> In v g -> t_endo t <= v < t_endo t + t_exo t) /\ 0 < t_targets t /\ (t_len1 t = 0 \/ (t_len1 t = t_exo t /\ k_est k' = true)).
Proof.
  intros m k b t m' k' l. unfold sur_modelset. destruct (metrics_update true false m) as [m1| |]; cbn [bind]; try discriminate.
  destruct (checks_update m1 k) as [k1| |]; cbn [bind]; try discriminate. destruct (t_targets t <=? 0) eqn:T0; [discriminate|].
  destruct (negb (t_len1 t =? 0) && negb (t_len1 t =? t_exo t)) eqn:C1; [discriminate|]. destruct (negb (t_len1 t =? 0) && negb (k_est k1)) eqn:C2; [discriminate|].
  destruct (existsb _ (b_parts b)) eqn:X; [discriminate|]. cbv zeta. destruct (size_loop _ _ _ _ _ _ _ _) as [l'| |] eqn:SL; cbn [bind]; try discriminate.
  intros H. injection H as <- <- <-. destruct (size_loop_spec _ _ _ _ _ _ _ _ _ SL) as (new & A1 & A2 & A3 & A4 & A5). cbn in A1. subst new.
  split; [exact A2|]. split; [exact A5|]. split; [exact A4|]. split; [|split; [lia|]].
  - intros g v Hg Hv. rewrite <- not_true_iff_false in X. rewrite existsb_exists in X.
    destruct ((v <? t_endo t) || (t_endo t + t_exo t <=? v) || (v <? 0)) eqn:Y; [|lia]. exfalso. apply X. exists g. split; [exact Hg|]. apply existsb_exists. exists v. split; [exact Hv|exact Y].
  - destruct (t_len1 t =? 0) eqn:Z0; [left; lia|right]. cbn in C1, C2. destruct (k_est k1); [|discriminate]. split; [lia|reflexivity].
Qed.
(** The searchers get different seeds if the seed is positive; the same one if it is negative. *)
Theorem c108_seeds : forall m k b t m' k' l, sur_modelset m k b t = Ok (m', k', l) ->
  forall i q, nth_error l i = Some q -> (0 < m_seed m -> snd q = m_seed m + Z.of_nat i) /\ (m_seed m < 0 -> snd q = - m_seed m) /\ (m_seed m = 0 -> snd q = 0).
Proof.
  intros m k b t m' k' l. unfold sur_modelset. destruct (metrics_update true false m) as [m1| |] eqn:U; cbn [bind]; try discriminate.
  destruct (checks_update m1 k) as [k1| |]; cbn [bind]; try discriminate. destruct (t_targets t <=? 0) eqn:T0; [discriminate|].
  destruct (negb (t_len1 t =? 0) && negb (t_len1 t =? t_exo t)) eqn:C1; [discriminate|]. destruct (negb (t_len1 t =? 0) && negb (k_est k1)) eqn:C2; [discriminate|].
  destruct (existsb _ (b_parts b)) eqn:X; [discriminate|]. cbv zeta. destruct (size_loop _ _ _ _ _ _ _ _) as [l'| |] eqn:SL; cbn [bind]; try discriminate.
  intros H. injection H as <- <- <-. destruct (size_loop_spec _ _ _ _ _ _ _ _ _ SL) as (new & A1 & A2 & A3 & A4 & A5). cbn in A1. subst new.
  assert (Es : m_seed m1 = m_seed m).
  { unfold metrics_update in U. cbv zeta in U. destruct (_ && _) in U; [discriminate|]. destruct (_ && _) in U; [discriminate|]. destruct (_ && _) in U; [discriminate|].
    apply (f_equal (fun o => match o with Ok v => v | _ => m1 end)) in U. cbv beta iota in U. subst m1. reflexivity. }
  intros i q Hq. rewrite (A3 i q Hq), Es. destruct (m_seed m =? 0) eqn:Z0, (m_seed m <? 0) eqn:Z1; repeat split; lia.
Qed.

(** Increasing groups: exactly those with a target are searched. It fails in two ways: a group that starts with the first non-target is not skipped but makes the whole search
    fail, and a group with a target behind a non-target is skipped. *)
Definition ex_chk : chk := Chk true 0 0 0 NegInf PosInf PosInf PosInf false false false.
Lemma ex_update : metrics_update true false ex_m0 = Ok ex_m.
Proof.
  unfold metrics_update, ex_m0. cbn [m_in m_out m_pos m_trainfix m_ratio m_simfix m_seed m_horizons m_ts m_inidx m_outidx].
  cbn [negb andb orb Z.ltb Z.eqb Z.compare]. destruct (Req_EM_T (1 / 2) 0) as [K|K]; [exfalso; lra|]. reflexivity.
Qed.
Theorem c108_groups_refuted :
  (forall e, 1 < e -> exists m' k', sur_modelset ex_m0 ex_chk (Combos [1] [[3]; [4]] 0 [[0]; [e]]) (Items 1 true 0 3 2) = Ok (m', k', [(1, [0], 10)])) /\
  sur_modelset ex_m0 ex_chk (Combos [1] [[3]; [4]] 0 [[0]; [1]]) (Items 1 true 0 3 2) = Throw /\
  (exists m' k', sur_modelset ex_m0 ex_chk (Combos [1] [[3]; [4]] 0 [[0]; [2; 0]]) (Items 1 true 0 3 2) = Ok (m', k', [(1, [0], 10)])).
Proof.
  unfold sur_modelset. rewrite ex_update. cbn [bind]. split; [|split].
  - intros e He. eexists _, _. cbn -[Z.ltb Z.add]. replace (1 <? e) with true by lia. reflexivity.
  - reflexivity.
  - eexists _, _. reflexivity.
Qed.

Example ex_search : snd (estimate_one (sur_reg ex_m 2 1 [0; 1] [] [] true 2) (fun _ => sur_one ex_m 2 2 [2; 3] (Some (Ok ex_fit)) (Some (Ok ex_sim))) false false [2; 3]) = Msg "" /\
  List.length (fst (estimate_one (sur_reg ex_m 2 1 [0; 1] [] [] true 2) (fun _ => sur_one ex_m 2 2 [2; 3] (Some (Ok ex_fit)) (Some (Ok ex_sim))) false false [2; 3])) = 6%nat /\ targets_first 1 [0; 1].
Proof. split; [reflexivity|]. split; [reflexivity|]. exists [0], [1]. split; [reflexivity|]. split; intros v [<-|[]]; lia. Qed.

Print Assumptions c108_metrics.
Print Assumptions c108_unsupported_refuted.
Print Assumptions c108_coefficients.
Print Assumptions c108_equation.
Print Assumptions c108_unordered_refuted.
Print Assumptions c108_searchers_partial.
Print Assumptions c108_seeds.
Print Assumptions c108_groups_refuted.
