(** C112: search over VARMA models. *)
From Coq Require Import String Lia ZifyBool.
From Verif Require Import RegProofs2 VarmaSearchModel Prop_SurSearch Prop_SurExt Prop_RegSearch.
From Coq Require Import Lra.
Local Open Scope Z_scope.

(** The options of the search, as a call of Update on a new object makes them. *)
Definition prepared_ts (m : mopts) : Prop := exists m0, m_inidx m0 = [] /\ m_outidx m0 = [] /\ metrics_update false true m0 = Ok m.
Lemma prepared_ts_ok m : prepared_ts m -> ins_ok m /\ outs_ok m.
Proof. intros (m0 & E1 & E2 & H). split; intros k; [apply (update_in _ _ _ _ k H E1)|apply (update_out _ _ _ _ k H E2)]. Qed.
Lemma set_row_in' m rows k v M : (List.length (m_in m) <= rows)%nat -> exists M', RegModel.set_row rows (index_of gof_eqb (m_in m) k) v M = Ok M' /\
  forall i t, M' i t = if Z.of_nat i =? index_of gof_eqb (m_in m) k then v t else M i t.
Proof.
  intros L. unfold RegModel.set_row. destruct (index_of_spec gof_eqb (m_in m) k gof_eqb_eq) as [[-> _]|(n & -> & N & _)].
  - exists M. split; [reflexivity|]. intros i t. replace (Z.of_nat i =? -1) with false by lia. reflexivity.
  - assert (Hn : (n < List.length (m_in m))%nat) by (apply nth_error_Some; congruence). replace (Z.of_nat n <? 0) with false by lia. replace (Z.of_nat rows <=? Z.of_nat n) with false by lia.
    eexists. split; [reflexivity|]. intros i t. rewrite Nat2Z.id. replace (Z.of_nat i =? Z.of_nat n) with (i =? n)%nat; [reflexivity|]. destruct (Nat.eqb_spec i n); lia.
Qed.
Lemma idx_same {A} (eqb : A -> A -> bool) l i k : (forall a b, eqb a b = true <-> a = b) -> NoDup l -> nth_error l i = Some k -> index_of eqb l k = Z.of_nat i.
Proof.
  intros E ND N. apply (index_of_first eqb l k i E N). intros j Hj K. assert (j = i); [|lia]. apply (proj1 (NoDup_nth_error l) ND); [apply nth_error_Some; congruence|congruence].
Qed.
Lemma idx_other {A} (eqb : A -> A -> bool) l i k k' : (forall a b, eqb a b = true <-> a = b) -> nth_error l i = Some k -> k' <> k -> index_of eqb l k' <> Z.of_nat i.
Proof.
  intros E N D K. destruct (index_of_spec eqb l k' E) as [[K' _]|(n & K' & N' & _)]; [lia|]. assert (n = i) by lia. subst n. congruence.
Qed.
Definition simulates (m : mopts) : bool := (0 <? m_simfix m) && negb (match m_out m with [] => true | _ => false end).
Definition known (s : scoring) : bool := match s with SSign | SDirection | SMae | SMape | SRmse | SRmspe | SCrps => true | _ => false end.

(** What a successful call of EstimateOneReg (estimation, predictions, simulation) has done. *)
Lemma varma_inv m k L len1 hc cur inner params bounds yc fit fc sim o : ins_ok m -> outs_ok m -> k_est k = true -> simulates m = true ->
  varma_one m k L len1 hc cur inner params bounds yc fit fc sim = Ok o ->
  exists f s, fit = Ok f /\ sim = Ok s /\ v_before k yc (Z.of_nat (List.length inner)) = true /\ v_after k f = true /\ o_msg o = ""%string /\ o_extra o = params /\
    (forall i t key, NoDup (m_in m) -> nth_error (m_in m) i = Some key -> o_metrics o i t = match key with GAic => w_aic f | GSic => w_sic f | _ => Some 0%R end) /\
    (forall i t key, NoDup (m_out m) -> nth_error (m_out m) i = Some key -> known key = true -> o_metrics o (List.length (m_in m) + i)%nat t = s i t) /\
    (k_pred k = true -> exists c, fc = Ok c /\ any_nan (List.length cur) hc c = false /\ (forall b, bounds = Some b -> bound_loop L (m_horizons m) hc c b cur 0 = Ok tt) /\
       (target_positions L cur <> [] -> (len1 <= hc)%nat) /\ forall i t, (i < len1)%nat -> o_mean o i t = c_mean c t (i + c_start c)%nat /\ o_var o i t = c_var c t (i + c_start c)%nat).
Proof.
  intros Hi Ho Ke Hs. unfold varma_one. rewrite Ke. destruct (v_before k yc _) eqn:B; cbn [negb]; [|discriminate]. destruct fit as [f| |]; cbn [bind]; try discriminate.
  destruct (v_after k f) eqn:A; cbn [negb]; [|discriminate]. set (rows := (List.length (m_in m) + List.length (m_out m))%nat).
  match goal with |- context [bind (if k_pred k then ?e else ?e') _] => set (F := if k_pred k then e else e') end.
  destruct F as [fo| |] eqn:EF; cbn [bind]; try discriminate. subst F. rewrite (Hi GAic), (Hi GSic). cbn [bind].
  assert (Lr : (List.length (m_in m) <= rows)%nat) by (unfold rows; lia).
  destruct (set_row_in' m rows GAic (fun _ => w_aic f) (fun _ _ => Some 0%R) Lr) as (M1 & -> & H1). cbn [bind].
  destruct (set_row_in' m rows GSic (fun _ => w_sic f) M1 Lr) as (M2 & -> & H2). cbn [bind]. fold (simulates m). rewrite Hs.
  destruct sim as [s| |]; cbn [bind]; try discriminate. destruct (set_out_fold m s varma_outs M2 Ho) as (M3 & E3 & C1 & C2). unfold rows. rewrite E3. cbn [bind].
  match goal with |- context [bind ?e _] => destruct e as [[T V]| |] eqn:ET end; cbn [bind]; try discriminate. intros H.
  apply (f_equal (fun r => match r with Ok v => v | _ => o end)) in H. cbv beta iota in H. subst o. cbn [o_msg o_extra o_metrics o_mean o_var].
  exists f, s. split; [reflexivity|]. split; [reflexivity|]. split; [reflexivity|]. split; [exact A|]. split; [reflexivity|]. split; [reflexivity|]. split; [|split].
  - intros i t key Nd N. assert (Li : (i < List.length (m_in m))%nat) by (apply nth_error_Some; congruence). rewrite C2 by (intros (sx & _ & _ & K); lia). rewrite H2, H1.
    pose proof (idx_same gof_eqb _ _ _ gof_eqb_eq Nd N) as Ix.
    assert (Ot : forall k', k' <> key -> (Z.of_nat i =? index_of gof_eqb (m_in m) k') = false) by (intros k' D; pose proof (idx_other gof_eqb _ _ _ _ gof_eqb_eq N D); lia).
    assert (Sm : (Z.of_nat i =? index_of gof_eqb (m_in m) key) = true) by lia.
    destruct key; repeat match goal with |- context [index_of gof_eqb (m_in m) ?k'] => first [rewrite Sm|rewrite (Ot k') by discriminate] end; reflexivity.
  - intros i t key Nd N Kn. pose proof (idx_same sc_eqb _ _ _ sc_eqb_eq Nd N) as Ix. rewrite C1; [f_equal; lia|]. exists key. rewrite Ix. split; [|lia]. unfold varma_outs. destruct key; cbn in *; try discriminate; tauto.
  - intros Kp. rewrite Kp in EF. destruct fc as [c| |]; cbn [bind] in EF; try discriminate. destruct (any_nan _ _ c) eqn:An; [discriminate|].
    match type of EF with bind ?e _ = _ => destruct e as [u| |] eqn:Bo end; cbn [bind] in EF; try discriminate. injection EF as <-. exists c. split; [reflexivity|]. split; [exact An|].
    split; [intros b Eb; subst bounds; destruct u; exact Bo|].
    match type of ET with (if ?q then _ else _) = _ => destruct q eqn:Q end; [discriminate|]. split.
    { intros Nt. destruct (target_positions L cur); [congruence|]. rewrite !andb_false_iff, !Nat.ltb_ge in Q. cbn [List.length] in Q. lia. }
    apply (f_equal (fun r => match r with Ok v => v | _ => (T, V) end)) in ET. cbv beta iota in ET. injection ET as <- <-. intros i t Hl. replace (i <? len1)%nat with true by lia. split; reflexivity.
Qed.

(** The evaluations of a model are its AIC, its SIC and the scores of its simulation, each in the row of the metric; the orders of the model are recorded. *)
Theorem c112_metrics : forall m k L len1 hc cur inner params bounds yc fit fc sim o, prepared_ts m -> NoDup (m_in m) -> NoDup (m_out m) ->
  (forall g, In g (m_in m) -> g = GAic \/ g = GSic) -> (forall g, In g (m_out m) -> known g = true) -> k_est k = true -> simulates m = true ->
  varma_one m k L len1 hc cur inner params bounds yc fit fc sim = Ok o ->
  exists f s, fit = Ok f /\ sim = Ok s /\ o_msg o = ""%string /\ o_extra o = params /\
    (forall i t, (nth_error (m_in m) i = Some GAic -> o_metrics o i t = w_aic f) /\ (nth_error (m_in m) i = Some GSic -> o_metrics o i t = w_sic f)) /\
    (forall i t, (i < List.length (m_out m))%nat -> o_metrics o (List.length (m_in m) + i)%nat t = s i t).
Proof.
  intros m k L len1 hc cur inner params bounds yc fit fc sim o P N1 N2 S1 S2 Ke Hs H. destruct (prepared_ts_ok m P) as [Hi Ho].
  destruct (varma_inv _ _ _ _ _ _ _ _ _ _ _ _ _ _ Hi Ho Ke Hs H) as (f & s & E1 & E2 & _ & _ & Em & Ex & A & B & _). exists f, s. repeat (split; [assumption|]). split.
  - intros i t. split; intros N; rewrite (A i t _ N1 N); reflexivity.
  - intros i t Hl. destruct (nth_error (m_out m) i) as [g|] eqn:N; [|apply nth_error_None in N; lia]. apply (B i t g N2 N). apply S2. apply (nth_error_In _ _ N).
Qed.
(** A search with options m. *)
Definition varma_reg (m : mopts) (E L : Z) (inner : list Z) (minin : list (gof * list R)) (minout : list (scoring * list R)) (keep : bool) (len1 : nat) : reg :=
  Reg true inner false E L (m_in m) (m_out m) minin minout keep len1.
(** What is recorded for a target is of the equation of the target, if the targets are the first ones of the model's variables; row r is the prediction for horizon r + 1, with its variance. *)
Theorem c112_equation : forall m k E L inner minin minout keep len1 hc cur params bounds yc f c s c1 c2 p r x, prepared_ts m -> NoDup (m_in m) -> NoDup (m_out m) ->
  (forall g, In g (m_in m) -> g = GAic \/ g = GSic) -> (forall g, In g (m_out m) -> known g = true) -> k_est k = true -> k_pred k = true -> simulates m = true -> targets_first L cur ->
  estimate_one (varma_reg m E L inner minin minout keep len1) (fun _ => varma_one m k L len1 hc cur inner params bounds yc (Ok f) (Ok c) (Ok s)) c1 c2 cur = (p, r) -> In x p ->
  exists e, nth_error cur e = Some (p_target x) /\ p_extra x = params /\
    ((exists g, nth_error (m_in m) (p_eval x) = Some g /\ ((g = GAic /\ w_aic f = Some (p_metric x)) \/ (g = GSic /\ w_sic f = Some (p_metric x)))) \/
     (exists i, p_eval x = (List.length (m_in m) + i)%nat /\ s i e = Some (p_metric x))) /\
    (forall row, p_third x = Some row -> (row < hc)%nat /\ exists v, c_mean c e (c_start c + row)%nat = Some v /\ p_mean x = Some (v, c_var c e (c_start c + row)%nat)).
Proof.
  intros m k E L inner minin minout keep len1 hc cur params bounds yc f c s c1 c2 p r x P N1 N2 S1 S2 Ke Kp Hs TF H Hx. destruct (prepared_ts_ok m P) as [Hi Ho].
  destruct (c107_sound _ _ _ _ _ _ _ _ H Hx) as [(o & E0 & (i & j & t & mm & Hil & Ht & Hm & K1 & K2 & K3 & _ & _ & _ & K7 & K8)) _].
  destruct (varma_inv _ _ _ _ _ _ _ _ _ _ _ _ _ _ Hi Ho Ke Hs E0) as (f' & s' & F1 & F2 & _ & _ & _ & Ex & A & B & Pr). injection F1 as <-. injection F2 as <-. destruct (Pr Kp) as (c' & F3 & _ & _ & Hh & Pm). injection F3 as <-. clear Pr.
  cbn in Ht, Hil. assert (Nt : target_positions L cur <> []) by (unfold target_positions; intros K; rewrite K in Ht; destruct j; discriminate).
  apply (targets_first_eq L cur TF) in Ht. exists j. split; [rewrite K2; exact Ht|]. split; [rewrite K7; exact Ex|]. split.
  - destruct (Nat.lt_ge_cases i (List.length (m_in m))) as [Li|Li].
    + left. destruct (nth_error (m_in m) i) as [g|] eqn:Ng; [|apply nth_error_None in Ng; lia]. exists g. rewrite K1. split; [exact Ng|]. pose proof (A i j g N1 Ng) as Ag.
      destruct (S1 g (nth_error_In _ _ Ng)) as [-> | ->]; [left|right]; (split; [reflexivity|]); congruence.
    + right. exists (i - List.length (m_in m))%nat. split; [lia|]. destruct (nth_error (m_out m) (i - List.length (m_in m))) as [g|] eqn:Ng; [|apply nth_error_None in Ng; lia].
      rewrite <- (B _ j g N2 Ng (S2 g (nth_error_In _ _ Ng))). replace (List.length (m_in m) + (i - List.length (m_in m)))%nat with i by lia. congruence.
  - intros row Hrow. destruct K8 as [(_ & K & _)|(r' & cc & Hr' & Hc & K & Kc)]; [congruence|]. assert (r' = row) by congruence. subst r'. cbn in Hr'. specialize (Hh Nt). split; [lia|].
    destruct (Pm row j Hr') as [X1 X2]. exists cc. rewrite (Nat.add_comm (c_start c) row). split; [congruence|]. rewrite Kc. f_equal. f_equal. exact X2.
Qed.

(** Accepted models meet the checks, and their predictions for the horizons of the evaluation are numbers within the bounds. *)
Lemma fold_ok {A} (g : A -> res unit) l : fold_left (fun r a => do _ <- r; g a) l (Ok tt) = Ok tt -> forall a, In a l -> g a = Ok tt.
Proof.
  assert (Bad : forall l r, r <> Ok tt -> fold_left (fun r a => do _ <- r; g a) l r <> Ok tt).
  { clear. induction l as [|a l IH]; intros r Hr; cbn; [exact Hr|]. apply IH. destruct r as [[]| |]; [congruence|discriminate|discriminate]. }
  induction l as [|a l IH]; cbn [fold_left]; [intros _ a []|]. cbn [bind]. intros H b [<-|Hb].
  - destruct (g a) as [[]| |] eqn:G; [reflexivity|exfalso; revert H; apply Bad; discriminate..].
  - apply IH; [|exact Hb]. destruct (g a) as [[]| |] eqn:G; [exact H|exfalso; revert H; apply Bad; discriminate..].
Qed.
Lemma bound_loop_ok L hs h c b cur k : bound_loop L hs h c b cur k = Ok tt -> forall i t hz, nth_error cur i = Some t -> t < L -> In hz hs -> bound_one h c b (k + i) t hz = Ok tt.
Proof.
  revert k. induction cur as [|t0 cur IH]; intros k; cbn [bound_loop]; [intros _ [|i] t hz; discriminate|].
  match goal with |- bind ?e _ = _ -> _ => destruct e as [[]| |] eqn:E end; cbn [bind]; try discriminate. intros H i t hz N Ht Hz. destruct i as [|i]; cbn in N.
  - injection N as ->. replace (t <? L) with true in E by lia. rewrite Nat.add_0_r. apply (fold_ok _ _ E hz Hz).
  - replace (k + S i)%nat with (S k + i)%nat by lia. apply (IH (S k) H i t hz N Ht Hz).
Qed.
Definition within (low up : option R) (v : R) : Prop := (forall a, low = Some a -> (a <= v)%R) /\ (forall a, up = Some a -> (v <= a)%R).
Theorem c112_bounds : forall m k L len1 hc cur inner params b yc fit c sim o, prepared_ts m -> k_est k = true -> k_pred k = true -> simulates m = true ->
  varma_one m k L len1 hc cur inner params (Some b) yc fit (Ok c) sim = Ok o ->
  forall i t h, nth_error cur i = Some t -> t < L -> In h (m_horizons m) ->
  1 <= h <= Z.of_nat hc /\ exists v, c_mean c i (c_start c + Z.to_nat (h - 1))%nat = Some v /\ within (b_low b (h - 1) t) (b_up b (h - 1) t) v.
Proof.
  intros m k L len1 hc cur inner params b yc fit c sim o P Ke Kp Hs H i t h N Ht Hh. destruct (prepared_ts_ok m P) as [Hi Ho].
  destruct (varma_inv _ _ _ _ _ _ _ _ _ _ _ _ _ _ Hi Ho Ke Hs H) as (f & s & _ & _ & _ & _ & _ & _ & _ & _ & Pr). destruct (Pr Kp) as (c' & F3 & An & Bo & _). injection F3 as <-. specialize (Bo b eq_refl).
  pose proof (bound_loop_ok _ _ _ _ _ _ _ Bo i t h N Ht Hh) as O. unfold bound_one in O. cbn [Nat.add] in O.
  match type of O with (if ?q then _ else _) = _ => destruct q eqn:Q end; [discriminate|]. split; [lia|].
  replace (Z.to_nat (h + Z.of_nat (c_start c) - 1)) with (c_start c + Z.to_nat (h - 1))%nat in O by lia.
  destruct (c_mean c i (c_start c + Z.to_nat (h - 1))) as [v|] eqn:V.
  - exists v. split; [reflexivity|]. cbn [finv] in O. destruct (vlt _ _) eqn:V1 in O; [discriminate|]. destruct (vlt _ _) eqn:V2 in O; [discriminate|].
    split; intros a Ea; [rewrite Ea in V1; cbn in V1; destruct (Rlt_dec v a) in V1; [discriminate|lra]|rewrite Ea in V2; cbn in V2; destruct (Rlt_dec a v) in V2; [discriminate|lra]].
  - exfalso. rewrite <- not_true_iff_false in An. apply An. unfold any_nan. apply existsb_exists. exists i. split; [apply in_seq; split; [lia|]; cbn; apply nth_error_Some; congruence|].
    apply existsb_exists. exists (c_start c + Z.to_nat (h - 1))%nat. split; [apply in_seq; lia|]. rewrite V. reflexivity.
Qed.
Theorem c112_checks_partial : forall m k L len1 hc cur inner params bounds yc f fc sim o, prepared_ts m -> k_est k = true -> simulates m = true ->
  varma_one m k L len1 hc cur inner params bounds yc (Ok f) fc sim = Ok o ->
  (0 < k_obs k -> k_obs k <= yc) /\ (0 < k_dof k -> k_dof k <= yc - Z.of_nat (List.length inner)) /\
  (w_aic f <> None -> at_most (finv (w_aic f)) (k_aic k)) /\ (w_sic f <> None -> at_most (finv (w_sic f)) (k_sic k)).
Proof.
  intros m k L len1 hc cur inner params bounds yc f fc sim o P Ke Hs H. destruct (prepared_ts_ok m P) as [Hi Ho].
  destruct (varma_inv _ _ _ _ _ _ _ _ _ _ _ _ _ _ Hi Ho Ke Hs H) as (f' & s & E1 & _ & B & A & _). injection E1 as <-. unfold v_before in B. unfold v_after in A. rewrite andb_true_iff, !negb_true_iff in A. destruct A as [A1 A2].
  assert (Nn : forall v, v <> None -> finv v <> None) by (intros [v|] K; [discriminate|congruence]). split; [lia|]. split; [lia|]. split; intros N; apply vlt_at_most; auto.
Qed.

(** Conversely, an estimated model which meets the limits is kept: without predictions, or with predictions which are numbers, not bounded, and enough horizons. *)
Theorem c112_kept : forall m k L len1 hc cur inner params yc f fc s, prepared_ts m -> k_est k = true -> simulates m = true ->
  (0 < k_obs k -> k_obs k <= yc) -> (0 < k_dof k -> k_dof k <= yc - Z.of_nat (List.length inner)) ->
  (w_aic f <> None -> at_most (finv (w_aic f)) (k_aic k)) -> (w_sic f <> None -> at_most (finv (w_sic f)) (k_sic k)) ->
  (k_pred k = true -> exists c, fc = Ok c /\ (forall i j, (i < List.length cur)%nat -> (j < c_start c + hc)%nat -> c_mean c i j <> None) /\ (len1 <= hc)%nat) ->
  exists o, varma_one m k L len1 hc cur inner params None yc (Ok f) fc (Ok s) = Ok o.
Proof.
  intros m k L len1 hc cur inner params yc f fc s P Ke Hs H1 H2 H3 H4 H5. destruct (prepared_ts_ok m P) as [Hi Ho]. unfold varma_one. rewrite Ke.
  assert (B : v_before k yc (Z.of_nat (List.length inner)) = true) by (unfold v_before; rewrite andb_true_iff, !negb_true_iff, !andb_false_iff; lia). rewrite B. cbn [negb bind].
  assert (Vn : forall v l, (v <> None -> at_most (finv v) l) -> vlt (Some l) (finv v) = false) by (intros [v|] l K; [apply vlt_at_most; [discriminate|apply K; discriminate]|destruct l; reflexivity]).
  assert (A : v_after k f = true) by (unfold v_after; rewrite !Vn by assumption; reflexivity). rewrite A. cbn [negb]. set (rows := (List.length (m_in m) + List.length (m_out m))%nat).
  assert (F : exists fo, (if k_pred k then do c <- fc; if any_nan (List.length cur) hc c then Throw else Ok (Some c) else Ok None) = Ok fo /\ forall c, fo = Some c -> (len1 <= hc)%nat).
  { destruct (k_pred k); [|exists None; split; [reflexivity|discriminate]]. destruct (H5 eq_refl) as (c & -> & N & Lh). exists (Some c). cbn [bind]. assert (An : any_nan (List.length cur) hc c = false).
    { apply not_true_iff_false. intros K. unfold any_nan in K. apply existsb_exists in K. destruct K as (i & Ii & K). apply existsb_exists in K. destruct K as (j & Ij & K). apply in_seq in Ii, Ij. specialize (N i j ltac:(lia) ltac:(lia)). destruct (c_mean c i j); [discriminate|congruence]. }
    rewrite An. split; [reflexivity|]. intros _ _. exact Lh. }
  destruct F as (fo & F & Fo). cbn [bind] in *. rewrite F. cbn [bind]. rewrite (Hi GAic), (Hi GSic). cbn [bind].
  assert (Lr : (List.length (m_in m) <= rows)%nat) by (unfold rows; lia).
  destruct (set_row_in' m rows GAic (fun _ => w_aic f) (fun _ _ => Some 0%R) Lr) as (M1 & -> & _). cbn [bind].
  destruct (set_row_in' m rows GSic (fun _ => w_sic f) M1 Lr) as (M2 & -> & _). cbn [bind]. fold (simulates m). rewrite Hs. cbn [bind].
  destruct (set_out_fold m s varma_outs M2 Ho) as (M3 & E3 & _). unfold rows. rewrite E3. cbn [bind]. destruct fo as [c|]; [|cbn [bind]; eexists; reflexivity].
  specialize (Fo c eq_refl). rewrite (proj2 (Nat.ltb_ge hc len1) Fo), andb_false_r. cbn [bind]. eexists; reflexivity.
Qed.

(** ** Searchers *)
Lemma in_upto n a : In a (VarmaSearchModel.upto n) <-> 0 <= a <= n.
Proof.
  unfold VarmaSearchModel.upto. rewrite in_map_iff. split.
  - intros (x & <- & H). apply in_seq in H. lia.
  - intros H. exists (Z.to_nat a). split; [lia|]. apply in_seq. lia.
Qed.
Lemma in_orders mx o : In o (orders mx) <-> exists p d q P D Q, o = [p; d; q; P; D; Q] /\ 0 <= p <= nth 0 mx 0 /\ 0 <= d <= nth 1 mx 0 /\ 0 <= q <= nth 2 mx 0 /\ 0 <= P <= nth 3 mx 0 /\ 0 <= D <= nth 4 mx 0 /\ 0 <= Q <= nth 5 mx 0 /\
  ~ (p = 0 /\ q = 0 /\ P = 0 /\ Q = 0).
Proof.
  unfold orders. split.
  - intros H. apply in_flat_map in H. destruct H as (p & Hp & H). apply in_flat_map in H. destruct H as (d & Hd & H). apply in_flat_map in H. destruct H as (q & Hq & H). apply in_flat_map in H. destruct H as (P & HP & H).
    apply in_flat_map in H. destruct H as (D & HD & H). apply in_flat_map in H. destruct H as (Q & HQ & H). apply in_upto in Hp, Hd, Hq, HP, HD, HQ.
    match type of H with In _ (if ?b then _ else _) => destruct b eqn:B end; [destruct H|]. destruct H as [<-|[]]. exists p, d, q, P, D, Q. repeat (split; [first [reflexivity|assumption]|]). lia.
  - intros (p & d & q & P & D & Q & -> & Hp & Hd & Hq & HP & HD & HQ & N). apply in_flat_map. exists p. split; [apply in_upto; exact Hp|]. apply in_flat_map. exists d. split; [apply in_upto; exact Hd|].
    apply in_flat_map. exists q. split; [apply in_upto; exact Hq|]. apply in_flat_map. exists P. split; [apply in_upto; exact HP|]. apply in_flat_map. exists D. split; [apply in_upto; exact HD|]. apply in_flat_map. exists Q. split; [apply in_upto; exact HQ|].
    match goal with |- In _ (if ?b then _ else _) => destruct b eqn:B end; [exfalso; lia|]. left. reflexivity.
Qed.
Lemma flat_NoDup {A B} (f : A -> list B) (key : B -> A) l : NoDup l -> (forall a, In a l -> NoDup (f a)) -> (forall a b, In b (f a) -> key b = a) -> NoDup (flat_map f l).
Proof.
  intros ND Nf K. induction l as [|a l IH]; cbn; [constructor|]. apply NoDup_cons_iff in ND. destruct ND as [Na ND].
  assert (App : forall (x y : list B), NoDup x -> NoDup y -> (forall b, In b x -> ~ In b y) -> NoDup (x ++ y)).
  { clear. induction x as [|b x IH]; cbn; [auto|]. intros y Nx Ny D. apply NoDup_cons_iff in Nx. destruct Nx as [Nb Nx]. constructor.
    - rewrite in_app_iff. intros [H|H]; [exact (Nb H)|exact (D b (or_introl eq_refl) H)].
    - apply IH; [exact Nx|exact Ny|]. intros b' Hb. apply D. right. exact Hb. }
  apply App; [apply Nf; left; reflexivity|apply IH; [exact ND|intros a' Ha'; apply Nf; right; exact Ha']|].
  intros b Hb H. apply in_flat_map in H. destruct H as (a' & Ha' & H). assert (a = a') by (rewrite <- (K a b Hb), <- (K a' b H); reflexivity). subst. exact (Na Ha').
Qed.
Lemma orders_NoDup mx : NoDup (orders mx).
Proof.
  assert (U : forall n, NoDup (VarmaSearchModel.upto n)). { intros n. unfold VarmaSearchModel.upto. apply FinFun.Injective_map_NoDup; [intros x y H; lia|apply seq_NoDup]. }
  unfold orders. apply (flat_NoDup _ (fun o => nth 0 o 0)); [apply U| |].
  - intros p _. apply (flat_NoDup _ (fun o => nth 1 o 0)); [apply U| |].
    + intros d _. apply (flat_NoDup _ (fun o => nth 2 o 0)); [apply U| |].
      * intros q _. apply (flat_NoDup _ (fun o => nth 3 o 0)); [apply U| |].
        -- intros P _. apply (flat_NoDup _ (fun o => nth 4 o 0)); [apply U| |].
           ++ intros D _. apply (flat_NoDup _ (fun o => nth 5 o 0)); [apply U| |].
              ** intros Q _. match goal with |- NoDup (if ?b then _ else _) => destruct b end; repeat constructor. intros [].
              ** intros Q b H. match type of H with In _ (if ?b then _ else _) => destruct b end; [destruct H|]. destruct H as [<-|[]]. reflexivity.
           ++ intros D b H. apply in_flat_map in H. destruct H as (Q & _ & H). match type of H with In _ (if ?b then _ else _) => destruct b end; [destruct H|]. destruct H as [<-|[]]. reflexivity.
        -- intros P b H. do 2 (apply in_flat_map in H; destruct H as (? & _ & H)). match type of H with In _ (if ?b then _ else _) => destruct b end; [destruct H|]. destruct H as [<-|[]]. reflexivity.
      * intros q b H. do 3 (apply in_flat_map in H; destruct H as (? & _ & H)). match type of H with In _ (if ?b then _ else _) => destruct b end; [destruct H|]. destruct H as [<-|[]]. reflexivity.
    + intros d b H. do 4 (apply in_flat_map in H; destruct H as (? & _ & H)). match type of H with In _ (if ?b then _ else _) => destruct b end; [destruct H|]. destruct H as [<-|[]]. reflexivity.
  - intros p b H. do 5 (apply in_flat_map in H; destruct H as (? & _ & H)). match type of H with In _ (if ?b then _ else _) => destruct b end; [destruct H|]. destruct H as [<-|[]]. reflexivity.
Qed.
Lemma vsize_loop_ok ok mx exos l acc r : vsize_loop ok mx exos l acc = Ok r -> (forall s, In s l -> 0 < s) /\ r = acc ++ flat_map (fun s => flat_map (fun o => map (fun e => (s, o, e)) exos) (orders mx)) l.
Proof.
  revert acc. induction l as [|s l IH]; intros acc; cbn [vsize_loop flat_map].
  - intros H. injection H as <-. split; [intros s []|]. rewrite app_nil_r. reflexivity.
  - destruct (s <=? 0) eqn:S0; [discriminate|]. destruct (forallb _ _); [|discriminate]. intros H. apply IH in H. destruct H as [A ->]. split; [intros s' [<-|I]; [lia|apply A; exact I]|]. rewrite app_assoc. reflexivity.
Qed.
(** If the options are accepted there is exactly one searcher for each size, all orders up to the given ones that are not zero for all lags, and each group of exogenous variables (no exogenous
    variables if there is no group). *)
Theorem c112_searchers : forall ok m k sizes parts groups len1 targets endo mx m' k' l, varma_modelset ok m k sizes parts groups len1 targets endo mx = Ok (m', k', l) ->
  (forall s o e, In (s, o, e) l <-> In s sizes /\ (In e groups \/ (groups = [] /\ e = [])) /\
     exists p d q P D Q, o = [p; d; q; P; D; Q] /\ 0 <= p <= nth 0 mx 0 /\ 0 <= d <= nth 1 mx 0 /\ 0 <= q <= nth 2 mx 0 /\ 0 <= P <= nth 3 mx 0 /\ 0 <= D <= nth 4 mx 0 /\ 0 <= Q <= nth 5 mx 0 /\
       ~ (p = 0 /\ q = 0 /\ P = 0 /\ Q = 0)) /\
  (NoDup sizes -> NoDup groups -> NoDup l) /\ (forall s, In s sizes -> 0 < s) /\ List.length mx = 6%nat /\ (0 < len1 -> k_pred k' = true).
Proof.
  intros ok m k sizes parts groups len1 targets endo mx m' k' l. unfold varma_modelset. destruct (metrics_update false true m) as [m1| |]; cbn [bind]; try discriminate. destruct (checks_update m1 k) as [k1| |]; cbn [bind]; try discriminate.
  destruct (targets <=? 0); [discriminate|]. ifd Lp; [discriminate|]. ifd Gr; [discriminate|]. ifd Lm; [discriminate|]. ifd Ng; [discriminate|].
  destruct (vsize_loop _ _ _ _ _) as [l1| |] eqn:Sz; cbn [bind]; try discriminate. intros H. injection H as <- <- <-. apply vsize_loop_ok in Sz. destruct Sz as [Sp ->]. cbn [app].
  assert (Ex : forall e, In e (match groups with [] => [[]] | _ => groups end) <-> In e groups \/ (groups = [] /\ e = [])).
  { intros e. destruct groups as [|g gs]; cbn; [split; [intros [<-|[]]; right; split; reflexivity|intros [[]|[_ ->]]; left; reflexivity]|]. split; [intros H; left; exact H|intros [H|[K _]]; [exact H|discriminate]]. }
  split; [|split; [|split; [exact Sp|split; [destruct (Nat.eqb_spec (List.length mx) 6); [assumption|discriminate]|intros Hl; destruct (k_pred k1); [reflexivity|cbn in Lp; lia]]]]].
  - intros s o e. rewrite <- Ex, <- in_orders. split.
    + intros H. apply in_flat_map in H. destruct H as (s' & Hs & H). apply in_flat_map in H. destruct H as (o' & Ho & H). apply in_map_iff in H. destruct H as (e' & E & He). injection E as -> -> ->. split; [exact Hs|]. split; assumption.
    + intros (Hs & He & Ho). apply in_flat_map. exists s. split; [exact Hs|]. apply in_flat_map. exists o. split; [exact Ho|]. apply in_map_iff. exists e. split; [reflexivity|exact He].
  - intros Ns Ngr. apply (flat_NoDup _ (fun x => fst (fst x))); [exact Ns| |].
    + intros s _. apply (flat_NoDup _ (fun x => snd (fst x))); [apply orders_NoDup| |].
      * intros o _. apply FinFun.Injective_map_NoDup; [intros x y E; injection E as ->; reflexivity|]. destruct groups; [constructor; [intros []|constructor]|exact Ngr].
      * intros o x H. apply in_map_iff in H. destruct H as (e & <- & _). reflexivity.
    + intros s x H. apply in_flat_map in H. destruct H as (o & _ & H). apply in_map_iff in H. destruct H as (e & <- & _). reflexivity.
Qed.

(** ** Examples and defects *)
Definition vm0 : mopts := Mopts [GAic] [SMae; SDirection] [] 0 (1 / 2) 4 10 [1; 2] false [] [].
Definition vm : mopts := Mopts [GAic] [SMae; SDirection] [false; false; true] 0 (1 / 2) 4 0 [1; 2] true
  [(GAic, 0); (GAuc, -1); (GBrier, -1); (GFrequencyCost, -1); (GSic, -1)]
  [(SAuc, -1); (SBrier, -1); (SCrps, -1); (SDirection, 1); (SFrequencyCost, -1); (SMae, 0); (SMape, -1); (SRmse, -1); (SRmspe, -1); (SSign, -1)].
Lemma vm_eq : metrics_update false true vm0 = Ok vm.
Proof. reflexivity. Qed.
Lemma vm_prepared : prepared_ts vm.
Proof. exists vm0. split; [reflexivity|]. split; [reflexivity|exact vm_eq]. Qed.
Definition vk (est : bool) : chk := Chk est 0 0 0 NegInf PosInf PosInf PosInf true false false.
Definition vfit : fitted_v := FitV (Some 3%R) (Some 4%R).
Definition vfc : forecasts := Fc 2 (fun i j => Some (INR (10 * i + j))) (fun _ _ => Some 1%R).
Definition vsim : nat -> nat -> option R := fun i e => Some (INR (i + e)).
(** A model with a target behind another variable: what is recorded for the target is the prediction of the other variable. *)
Theorem c112_unordered_refuted : exists p r, estimate_one (varma_reg vm 2 1 [] [] [] true 2) (fun _ => varma_one vm (vk true) 1 2 2 [1; 0] [] [1; 0; 0; 0; 0; 0] None 20 (Ok vfit) (Ok vfc) (Ok vsim)) false false [1; 0] = (p, r) /\
  exists x, In x p /\ p_target x = 0 /\ p_third x = Some 0%nat /\ nth_error [1; 0] 1 = Some (p_target x) /\ p_mean x = Some (INR 2, Some 1%R) /\ c_mean vfc 1 2 = Some (INR 12) /\ INR 12 <> INR 2.
Proof.
  eexists _, _. split; [reflexivity|]. eexists. split; [right; left; reflexivity|]. cbn [p_target p_third p_mean]. repeat (split; [reflexivity|]). intros K. apply INR_eq in K. discriminate.
Qed.
(** The check of the degrees of freedom ignores the coefficients of the lags: a model with three coefficients in each equation and three observations is accepted although two degrees of freedom are required. *)
Theorem c112_dof_refuted : exists o, varma_one vm (Chk true 0 2 0 NegInf PosInf PosInf PosInf true false false) 1 2 2 [0] [] [3; 0; 0; 0; 0; 0] None 3 (Ok vfit) (Ok vfc) (Ok vsim) = Ok o.
Proof. eexists. reflexivity. Qed.
(** Predictions are not reported if the estimation is not required by another option. *)
Theorem c112_predictions_refuted : (exists m' k' l, varma_modelset (fun _ _ _ => true) (Mopts [] [SMae] [] 0 (1 / 2) 4 10 [1] false [] []) (vk false) [1] [[0]] [] 2 1 1 [1; 0; 0; 0; 0; 0] = Ok (m', k', l) /\ k_pred k' = true /\ k_est k' = false /\ l = [(1, [1; 0; 0; 0; 0; 0], [])]) /\
  forall m k L hc cur inner params bounds yc fit fc sim o i t, k_est k = false -> varma_one m k L 2 hc cur inner params bounds yc fit fc sim = Ok o -> o_mean o i t = None.
Proof.
  split; [eexists _, _, _; split; [reflexivity|]; repeat split|]. intros m k L hc cur inner params bounds yc fit fc sim o i t Ke. unfold varma_one. rewrite Ke. cbn [bind].
  match goal with |- bind ?e _ = _ -> _ => destruct e as [M2| |] end; cbn [bind]; try discriminate. intros H. apply (f_equal (fun r => match r with Ok v => v | _ => o end)) in H. cbv beta iota in H. subst o. reflexivity.
Qed.
(** A bound for a horizon behind the predicted ones is compared with memory behind the predictions. *)
Theorem c112_horizon_refuted : forall b, b_rows b = 2 -> b_cols b = 1 -> b_low b 0 0 = None -> b_up b 0 0 = None ->
  varma_one vm (vk true) 1 0 1 [0] [] [1; 0; 0; 0; 0; 0] (Some b) 20 (Ok vfit) (Ok vfc) (Ok vsim) = UB.
Proof. intros b E1 E2 E3 E4. unfold varma_one. cbn -[bound_one]. unfold bound_one. cbn. rewrite E1, E2, E3, E4. cbn. reflexivity. Qed.
(** The number of endogenous variables is accepted as an index. *)
Theorem c112_index_refuted : exists m' k' l, varma_modelset (fun _ _ _ => true) vm0 (vk true) [1] [[0]; [2]] [] 0 1 2 [1; 0; 0; 0; 0; 0] = Ok (m', k', l) /\ l <> [].
Proof. eexists _, _, _. split; [reflexivity|discriminate]. Qed.

Example ex_varma : exists o, varma_one vm (vk true) 1 2 2 [0; 1] [] [1; 0; 0; 0; 0; 0] (Some (Pb 2 1 (fun _ _ => Some 0%R) (fun _ _ => None))) 20 (Ok vfit) (Ok vfc) (Ok vsim) = Ok o /\ simulates vm = true /\ targets_first 1 [0; 1] /\
  o_metrics o 0 0 = Some 3%R /\ o_metrics o 2 1 = Some (INR 2) /\ o_mean o 1 0 = Some (INR 3).
Proof.
  unfold varma_one. cbn -[bound_one]. unfold bound_one. cbn -[INR].
  repeat match goal with |- context [Rlt_dec (INR ?n) 0] => destruct (Rlt_dec (INR n) 0) as [K|_]; [exfalso; pose proof (pos_INR n); lra|]; cbn -[INR] end.
  eexists. split; [reflexivity|]. split; [reflexivity|]. split; [exists [0], [1]; split; [reflexivity|]; split; intros v [<-|[]]; lia|]. repeat split.
Qed.

Print Assumptions c112_metrics.
Print Assumptions c112_equation.
Print Assumptions c112_bounds.
Print Assumptions c112_checks_partial.
Print Assumptions c112_kept.
Print Assumptions c112_searchers.
Print Assumptions c112_unordered_refuted.
Print Assumptions c112_dof_refuted.
Print Assumptions c112_predictions_refuted.
Print Assumptions c112_horizon_refuted.
Print Assumptions c112_index_refuted.
