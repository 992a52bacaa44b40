(** C110: systems of equations with checks and projections. *)
From Coq Require Import Lia ZifyBool.
From Verif Require Import SurExtModel.
From Coq Require Import Lra.
Local Open Scope Z_scope.

(** Specification: a number (or infinity) x respects the limits; NaN does not. *)
Definition at_most (x : val) (l : lim) : Prop :=
  match x with
  | None => False
  | Some PosInf => l = PosInf
  | Some NegInf => True
  | Some (Num a) => match l with PosInf => True | NegInf => False | Num b => (a <= b)%R end
  end.
Definition at_least (x : val) (l : lim) : Prop :=
  match x with
  | None => False
  | Some PosInf => True
  | Some NegInf => l = NegInf
  | Some (Num a) => match l with PosInf => False | NegInf => True | Num b => (b <= a)%R end
  end.
Lemma vlt_at_most x l : x <> None -> (vlt (Some l) x = false <-> at_most x l).
Proof.
  intros N. destruct x as [[| |a]|]; [| | |congruence]; destruct l as [| |b]; cbn; try (destruct (Rlt_dec _ _)); split; intros H; try reflexivity; try exact I; try discriminate; try tauto; try lra; try (exfalso; lra); try (apply Rnot_lt_le; assumption).
Qed.
Lemma vlt_at_least x l : x <> None -> (vlt x (Some l) = false <-> at_least x l).
Proof.
  intros N. destruct x as [[| |a]|]; [| | |congruence]; destruct l as [| |b]; cbn; try (destruct (Rlt_dec _ _)); split; intros H; try reflexivity; try exact I; try discriminate; try tauto; try lra; try (exfalso; lra); try (apply Rnot_lt_le; assumption).
Qed.
(** The rows of the data without missing values (all rows if missing values are not looked for), in their order. *)
Definition complete (r : list (option R)) : Prop := forall a, In a r -> a <> None.
Lemma missing_complete r : missing r = false <-> complete r.
Proof.
  unfold missing, complete. split.
  - intros H a Ha ->. rewrite <- not_true_iff_false in H. apply H. apply existsb_exists. exists None. split; [exact Ha|reflexivity].
  - intros H. apply not_true_iff_false. intros K. apply existsb_exists in K. destruct K as ([a|] & Ka & K); [discriminate|]. apply (H None Ka eq_refl).
Qed.
Inductive picks {A} (P : A -> Prop) : list A -> list A -> Prop :=
| picks_nil : picks P [] []
| picks_yes a l l' : P a -> picks P l l' -> picks P (a :: l) (a :: l')
| picks_no a l l' : ~ P a -> picks P l l' -> picks P (a :: l) l'.
Lemma usable_picks data : picks complete data (usable true data).
Proof.
  unfold usable. induction data as [|r l IH]; cbn; [constructor|]. destruct (missing r) eqn:E; cbn.
  - apply picks_no; [|exact IH]. intros K. apply missing_complete in K. congruence.
  - apply picks_yes; [|exact IH]. apply missing_complete. exact E.
Qed.

Ltac ifd N := match goal with |- (if ?b then _ else _) = _ -> _ => destruct b eqn:N end.
Ltac ifg := match goal with |- (if ?b then _ else _) = _ => destruct b | |- (if ?b then _ else _) <> _ => destruct b end.
Section S.
Context {F P : Type} (estimate : list (list (option R)) -> list (list (option R)) -> res (F * quality)) (project : F -> list (list (option R)) -> res P).

Lemma calc_inv e data cols m restr newx c f q o : sext_calculate estimate project e data cols m restr newx c = Ok (f, q, o) ->
  let use := usable (e_nan e) data in
  0 <= cols - m /\ check_before c (Z.of_nat (length use)) (cols - m) = true /\
  estimate (map (firstn (Z.to_nat m)) use) (map (skipn (Z.to_nat m)) use) = Ok (f, q) /\ check_after c q = true /\
  (exists temp, sext_new (Z.of_nat (length data)) m (cols - m) (sd_restricted (e_model e)) (e_nan e) (sd_details (e_model e)) (match newx with Some (x, _) => Z.of_nat (length x) | None => 0 end) (sd_iter (e_model e)) (match e_proj e with Some p => pd_var p | None => false end) = Ok temp /\
    e_work temp <= e_work e /\ e_storage temp <= e_storage e) /\
  (let need := declare (Z.of_nat (length use)) m (cols - m) (sd_restricted (e_model e)) (sd_details (e_model e)) (sd_iter (e_model e)) in sur_work need <= sur_work (e_model e) /\ sur_storage need <= sur_storage (e_model e)) /\
  (forall x xc, newx = Some (x, xc) -> x <> [] -> xc = cols - m /\ exists r p, o = Some r /\ project f x = Ok r /\ e_proj e = Some p /\
     proj_storage (PD (Z.of_nat (length x)) m (cols - m) (pd_restricted p) (pd_var p)) <= proj_storage p /\ proj_work (PD (Z.of_nat (length x)) m (cols - m) (pd_restricted p) (pd_var p)) <= proj_work p) /\
  ((newx = None \/ exists xc, newx = Some ([], xc)) -> o = None) /\
  (0 < sd_iter (e_model e) -> exists l, restr = Some l /\ (m * (cols - m)) * (m * (cols - m)) <= l).
Proof.
  unfold sext_calculate. destruct (cols - m <? 0) eqn:K0; [discriminate|]. cbv zeta.
  destruct (sext_new _ _ _ _ _ _ _ _ _) as [temp| |] eqn:T; cbn [bind]; try discriminate.
  ifd Sz; [discriminate|]. destruct (check_before c _ _) eqn:CB; cbn [negb]; [|discriminate].
  ifd Xc; [discriminate|]. ifd Ra; [discriminate|]. ifd Rb; [discriminate|].
  ifd Sm; [discriminate|]. destruct (estimate _ _) as [[f' q']| |] eqn:Es; cbn [bind]; try discriminate.
  destruct (check_after c q') eqn:CA; cbn [negb]; [|discriminate]. intros H.
  assert (Hf : f = f' /\ q = q' /\ (forall x xc, newx = Some (x, xc) -> x <> [] -> xc = cols - m /\ exists r p, o = Some r /\ project f' x = Ok r /\ e_proj e = Some p /\
     proj_storage (PD (Z.of_nat (length x)) m (cols - m) (pd_restricted p) (pd_var p)) <= proj_storage p /\ proj_work (PD (Z.of_nat (length x)) m (cols - m) (pd_restricted p) (pd_var p)) <= proj_work p) /\ ((newx = None \/ exists xc, newx = Some ([], xc)) -> o = None)).
  { destruct newx as [[nx xc]|].
    - destruct (0 <? Z.of_nat (length nx)) eqn:Ln.
      + destruct (e_proj e) as [p|] eqn:Ep; [|discriminate]. match type of H with (if ?b then _ else _) = _ => destruct b eqn:Sp end; [discriminate|]. destruct (project f' nx) as [r| |] eqn:Pr; cbn [bind] in H; try discriminate.
        injection H as <- <- <-. split; [reflexivity|]. split; [reflexivity|]. split.
        * intros x xc' E Ne. injection E as <- <-. cbn in Xc. split; [lia|]. exists r, p. repeat split; try assumption; lia.
        * intros [K|[xc' K]]; [discriminate|]. injection K as -> ->. cbn in Ln. discriminate.
      + injection H as <- <- <-. split; [reflexivity|]. split; [reflexivity|]. split; [|reflexivity]. intros x xc' E Ne. injection E as <- <-. destruct nx; [congruence|]. cbn in Ln. lia.
    - injection H as <- <- <-. split; [reflexivity|]. split; [reflexivity|]. split; [intros x xc E; discriminate|reflexivity]. }
  destruct Hf as (-> & -> & Hp & Hn). split; [lia|]. split; [first [exact CB|reflexivity]|]. split; [first [exact Es|reflexivity]|]. split; [first [exact CA|reflexivity]|]. split; [exists temp; split; [reflexivity|]; lia|].
  split; [lia|]. split; [exact Hp|]. split; [exact Hn|]. intros Hi. destruct restr as [l|]; [|lia]. exists l. split; [reflexivity|lia].
Qed.

(** A model that is accepted was estimated with the complete rows, its endogenous variables being the first m columns. *)
Theorem c110_rows : forall e data cols m restr newx c f q o, sext_calculate estimate project e data cols m restr newx c = Ok (f, q, o) ->
  exists rows, (if e_nan e then picks complete data rows else rows = data) /\
    estimate (map (firstn (Z.to_nat m)) rows) (map (skipn (Z.to_nat m)) rows) = Ok (f, q).
Proof.
  intros e data cols m restr newx c f q o H. apply calc_inv in H. destruct H as (_ & _ & E & _). exists (usable (e_nan e) data). split; [|exact E].
  destruct (e_nan e); [apply usable_picks|reflexivity].
Qed.
(** The checks: enough observations and degrees of freedom; and, if they are not NaN, AIC and SIC at most and R2 at least the limits, and the condition number at most its limit
    if the limit is in use. *)
Theorem c110_checks_partial : forall e data cols m restr newx c f q o, sext_calculate estimate project e data cols m restr newx (Some c) = Ok (f, q, o) ->
  let count := Z.of_nat (length (usable (e_nan e) data)) in
  (0 < k_obs c -> k_obs c <= count) /\ (0 < k_dof c -> k_dof c <= count - (cols - m)) /\
  (q_aic q <> None -> at_most (q_aic q) (k_aic c)) /\ (q_sic q <> None -> at_most (q_sic q) (k_sic c)) /\ (q_r2 q <> None -> at_least (q_r2 q) (k_r2 c)) /\
  (k_checkcn_all c = true -> q_cn q <> None -> at_most (q_cn q) (k_cn c)).
Proof.
  intros e data cols m restr newx c f q o H. apply calc_inv in H. destruct H as (_ & B & _ & A & _). unfold check_before in B. unfold check_after in A. cbv zeta.
  rewrite !andb_true_iff, !negb_true_iff in A. destruct A as [[[A1 A2] A3] A4]. split; [lia|]. split; [lia|]. split; [intros N; apply vlt_at_most; assumption|]. split; [intros N; apply vlt_at_most; assumption|].
  split; [intros N; apply vlt_at_least; assumption|]. intros K N. rewrite K in A1. apply vlt_at_most; assumption.
Qed.
(** Conversely, the checks refuse no model that meets all of them. *)
Theorem c110_checks_complete : forall e data cols m restr newx c, let count := Z.of_nat (length (usable (e_nan e) data)) in
  (0 < k_obs c -> k_obs c <= count) -> (0 < k_dof c -> k_dof c <= count - (cols - m)) ->
  (forall f q, estimate (map (firstn (Z.to_nat m)) (usable (e_nan e) data)) (map (skipn (Z.to_nat m)) (usable (e_nan e) data)) = Ok (f, q) ->
     at_most (q_aic q) (k_aic c) /\ at_most (q_sic q) (k_sic c) /\ at_least (q_r2 q) (k_r2 c) /\ at_most (q_cn q) (k_cn c)) ->
  sext_calculate estimate project e data cols m restr newx (Some c) = sext_calculate estimate project e data cols m restr newx None.
Proof.
  intros e data cols m restr newx c count H1 H2 H3. unfold sext_calculate. destruct (cols - m <? 0); [reflexivity|]. cbv zeta.
  destruct (sext_new _ _ _ _ _ _ _ _ _) as [temp| |]; cbn [bind]; try reflexivity. ifg; [reflexivity|].
  assert (B : check_before (Some c) (Z.of_nat (length (usable (e_nan e) data))) (cols - m) = true) by (unfold check_before; fold count; lia). rewrite B. cbn [negb check_before].
  ifg; [reflexivity|]. ifg; [reflexivity|]. ifg; [reflexivity|]. ifg; [reflexivity|].
  destruct (estimate _ _) as [[f q]| |] eqn:E; cbn [bind]; try reflexivity. destruct (H3 f q eq_refl) as (A1 & A2 & A3 & A4).
  assert (A : check_after (Some c) q = true).
  { unfold check_after. assert (N : forall x l, at_most x l -> x <> None) by (intros [x|] l K; [discriminate|destruct K]). assert (N' : forall x l, at_least x l -> x <> None) by (intros [x|] l K; [discriminate|destruct K]).
    rewrite (proj2 (vlt_at_most _ _ (N _ _ A1)) A1), (proj2 (vlt_at_most _ _ (N _ _ A2)) A2), (proj2 (vlt_at_least _ _ (N' _ _ A3)) A3), (proj2 (vlt_at_most _ _ (N _ _ A4)) A4). rewrite andb_false_r. reflexivity. }
  rewrite A. cbn [negb check_after]. reflexivity.
Qed.
(** New exogenous data must have as many columns as there are exogenous variables; then the projections are those of the estimated model. *)
Theorem c110_projections : forall e data cols m restr x xc c f q o, sext_calculate estimate project e data cols m restr (Some (x, xc)) c = Ok (f, q, o) -> x <> [] ->
  xc = cols - m /\ exists r, o = Some r /\ project f x = Ok r.
Proof.
  intros e data cols m restr x xc c f q o H N. apply calc_inv in H. destruct H as (_ & _ & _ & _ & _ & _ & Hp & _). destruct (Hp x xc eq_refl N) as (E & r & p & A1 & A2 & _). split; [exact E|]. exists r. split; assumption.
Qed.
(** A search for significant coefficients without a matrix of restrictions is refused; with one that is large enough no memory outside of it is used. *)
Theorem c110_restrictions : forall e data cols m newx c, 0 < sd_iter (e_model e) ->
  (forall f q o, sext_calculate estimate project e data cols m None newx c <> Ok (f, q, o)) /\
  (forall l, (m * (cols - m)) * (m * (cols - m)) <= l -> (forall y x, estimate y x <> UB) -> (forall f x, project f x <> UB) -> sext_calculate estimate project e data cols m (Some l) newx c <> UB).
Proof.
  intros e data cols m newx c Hi. split.
  - intros f q o H. apply calc_inv in H. destruct H as (_ & _ & _ & _ & _ & _ & _ & _ & H). destruct (H Hi) as (l & K & _). discriminate.
  - intros l Hl E1 E2. unfold sext_calculate. destruct (cols - m <? 0); [discriminate|]. cbv zeta.
    destruct (sext_new _ _ _ _ _ _ _ _ _) as [temp| |] eqn:T; cbn [bind]; try discriminate.
    2:{ exfalso. revert T. unfold sext_new, dataset_new. destruct (e_nan e); [match goal with |- context [if ?b then Throw else Ok _] => destruct b end; cbn [bind]; [discriminate|]|cbn [bind]]; cbv zeta; destruct (0 <? _); discriminate. }
    ifg; [discriminate|]. ifg; [discriminate|]. ifg; [discriminate|]. cbn [andb]. replace (0 <? sd_iter (e_model e)) with true by lia. cbn [andb].
    replace (l <? m * (cols - m) * (m * (cols - m))) with false by lia. ifg; [discriminate|].
    destruct (estimate _ _) as [[f q]| |] eqn:Es; cbn [bind]; try discriminate; [|exfalso; apply (E1 _ _ Es)]. ifg; [discriminate|]. destruct newx as [[nx xc]|]; [|discriminate].
    destruct (0 <? Z.of_nat (length nx)); [|discriminate]. destruct (e_proj e) as [p|]; [|discriminate]. ifg; [discriminate|].
    destruct (project f nx) as [r| |] eqn:Pr; cbn [bind]; try discriminate. exfalso. apply (E2 _ _ Pr).
Qed.
End S.

(** Models with NaN instead of AIC, SIC or R2 pass all of these checks. *)
Theorem c110_nan_refuted : exists e data c q, sext_new 3 1 1 false true false 0 0 false = Ok e /\
  k_aic c = Num 0 /\ k_sic c = Num 0 /\ k_r2 c = Num 1 /\ k_checkcn_all c = true /\ k_cn c = Num 1 /\ q = Quality None None None None /\
  sext_calculate (P := unit) (fun _ _ => Ok (tt, q)) (fun _ _ => Throw) e data 2 1 None None (Some c) = Ok (tt, q, None) /\ ~ at_least (q_r2 q) (k_r2 c) /\ ~ at_most (q_aic q) (k_aic c).
Proof.
  eexists. exists [[Some 1%R; Some 1%R]; [Some 1%R; Some 2%R]; [Some 1%R; Some 3%R]], (Chk true 0 0 0 (Num 1) (Num 0) (Num 0) (Num 1) false false true), (Quality None None None None).
  split; [reflexivity|]. do 6 (split; [reflexivity|]). split; [reflexivity|]. split; intros K; destruct K.
Qed.

(** ** Buffers *)
Definition disjoint (a b : Z * Z) : Prop := fst a + snd a <= fst b \/ fst b + snd b <= fst a.
Definition inside (size : Z) (a : Z * Z) : Prop := 0 <= fst a /\ fst a + snd a <= size.
Lemma declare_flags N m k r d i : let x := declare N m k r d i in sd_N x = N /\ sd_m x = m /\ sd_k x = k /\ sd_iter x = i /\ declare N m k (sd_restricted x) (sd_details x) i = x.
Proof. unfold declare. destruct (i =? 0) eqn:E; cbn; rewrite ?E; repeat split. Qed.
(** If the data (with its missing values) is not larger than announced, all parts of an accepted call lie in the storage and do not overlap. *)
Theorem c110_buffers_partial : forall (F P : Type) estimate project N m k restricted nan dets np iter var e data cols m' restr newx c (f : F) q (o : option P),
  sext_new N m k restricted nan dets np iter var = Ok e -> restricted = sd_restricted (e_model e) -> 0 <= m -> 0 <= k -> 0 <= N -> 0 <= m' -> 0 <= np ->
  sext_calculate estimate project e data cols m' restr newx c = Ok (f, q, o) -> (nan = true -> Z.of_nat (length data) * cols <= N * (m + k)) ->
  let parts := sext_parts e (Z.of_nat (length data)) m' (cols - m') (Z.of_nat (length (usable nan data))) (match newx with Some (x, _) => Z.of_nat (length x) | None => 0 end) in
  Forall (inside (e_storage e)) parts /\ ForallOrdPairs disjoint parts.
Proof.
  intros F P estimate project N m k restricted nan dets np iter var e data cols m' restr newx c f q o New Rs Hm Hk HN Hm' Hnp H D.
  apply calc_inv in H. destruct H as (K & _ & _ & _ & (temp & T & Tw & Ts) & (Mw & Ms) & Pr & _ & _).
  assert (Inv : e_nan e = nan /\ e_data e = (if nan then N * (m + k) else 0) /\ e_model e = declare N m k restricted dets iter /\
    ((0 < np /\ e_proj e = Some (PD np m k restricted var) /\ e_storage e = e_data e + sur_storage (e_model e) + proj_storage (PD np m k restricted var)) \/ (e_proj e = None /\ e_storage e = e_data e + sur_storage (e_model e)))).
  { revert New. unfold sext_new, dataset_new. destruct nan; [destruct (_ || _); cbn [bind]; [discriminate|]|cbn [bind]]; cbv zeta; destruct (0 <? np) eqn:Np; intros New;
      (apply (f_equal (fun o => match o with Ok v => v | _ => e end)) in New; cbv beta iota in New; subst e; cbn [e_nan e_data e_model e_proj e_storage]; split; [reflexivity|]; split; [reflexivity|]; split; [reflexivity|]); (left; split; [lia|]; split; [reflexivity|lia]) || (right; split; [reflexivity|lia]). }
  destruct Inv as (I1 & I2 & I3 & I4).
  assert (S0 : forall d, 0 <= sd_N d -> 0 <= sd_m d -> 0 <= sd_k d -> 0 <= sur_storage d) by (intros [a b cc ? dd ?]; unfold sur_storage; cbn [sd_N sd_m sd_k sd_details]; intros; assert (0 <= cc * b) by nia; assert (0 <= 2 * a * b) by nia; assert (0 <= b * b) by nia; assert (0 <= cc * b * (cc * b)) by nia; destruct dd; lia).
  assert (Sm : 0 <= sur_storage (e_model e)) by (rewrite I3; pose proof (declare_flags N m k restricted dets iter) as G; cbv zeta in G; destruct G as (G1 & G2 & G3 & _); apply S0; lia).
  assert (Le : Z.of_nat (length (usable nan data)) <= Z.of_nat (length data)).
  { unfold usable. destruct nan; [|lia]. clear. induction data as [|r l IH]; cbn [filter length]; [lia|]. destruct (negb (missing r)); cbn [length]; lia. }
  rewrite I1 in Ms. set (cnt := Z.of_nat (length (usable nan data))) in *. cbv zeta. unfold sext_parts. rewrite I1.
  set (ms := sur_storage (declare cnt m' (cols - m') (sd_restricted (e_model e)) (sd_details (e_model e)) (sd_iter (e_model e)))) in *. clearbody ms.
  assert (Pp : match newx with Some (x, _) => Z.of_nat (length x) | None => 0 end = 0 \/ (exists p, e_proj e = Some p /\
     proj_storage (PD (match newx with Some (x, _) => Z.of_nat (length x) | None => 0 end) m' (cols - m') (sd_restricted (e_model e)) (pd_var p)) <= proj_storage p)).
  { destruct newx as [[x xc]|]; [|left; reflexivity]. destruct x as [|x0 xs]; [left; reflexivity|right]. destruct (Pr (x0 :: xs) xc eq_refl ltac:(discriminate)) as (_ & r & p & _ & _ & Ep & A1 & _).
    exists p. split; [exact Ep|]. exact A1. }
  set (npx := match newx with Some (x, _) => Z.of_nat (length x) | None => 0 end) in *. assert (Npx : 0 <= npx) by (unfold npx; destruct newx as [[x xc]|]; lia). clearbody npx.
  assert (Dp : nan = true -> 0 <= cnt * (m' + (cols - m')) <= e_data e). { intros E. specialize (D E). rewrite I2, E. nia. }
  assert (Dd : 0 <= e_data e) by (rewrite I2; destruct nan; nia).
  assert (Dz : nan = false -> e_data e = 0) by (intros ->; exact I2).
  clear - I4 Sm Ms Pp Dp Dd Dz Npx Hm Hk Hnp.
  assert (Pz : forall p, e_proj e = Some p -> e_storage e = e_data e + sur_storage (e_model e) + proj_storage p).
  { intros p Ep. destruct I4 as [(_ & E & St)|(E & _)]; [|congruence]. rewrite Ep in E. injection E as ->. exact St. }
  assert (Pn : 0 <= e_storage e - (e_data e + sur_storage (e_model e))).
  { destruct I4 as [(_ & E & St)|(E & St)]; [|lia]. rewrite St. unfold proj_storage. cbn. destruct var; nia. }
  set (pj := proj_storage (PD npx m' (cols - m') (sd_restricted (e_model e)) match e_proj e with Some p => pd_var p | None => false end)).
  assert (Pj : 0 < npx -> e_data e + sur_storage (e_model e) + pj <= e_storage e).
  { intros L. destruct Pp as [Z0|(p & Ep & Lp)]; [lia|]. unfold pj. rewrite Ep. rewrite (Pz p Ep). lia. }
  clearbody pj. generalize dependent (cnt * (m' + (cols - m'))). intros dlen Dp. clear Pp Pz I4 Hm Hk Hnp.
  generalize dependent (sur_storage (e_model e)). intros sm. intros.
  destruct nan; destruct (0 <? npx) eqn:L; cbn [app]; (split; [repeat constructor; unfold inside; cbn [fst snd]; try specialize (Dp eq_refl); try specialize (Dz eq_refl); try specialize (Pj ltac:(lia)); lia|]);
    repeat (constructor; [repeat (constructor; [unfold disjoint; cbn [fst snd]; try specialize (Dp eq_refl); left; lia|]); constructor|]); constructor.
Qed.
(** Otherwise not: an object for 10 x (1 + 20) data accepts 100 x (1 + 2) data, and the coefficients are written into the copy of the data. *)
Theorem c110_overlap_refuted : exists e data f q, sext_new 10 1 20 false true false 0 0 false = Ok e /\ length data = 100%nat /\
  sext_calculate (P := unit) (fun _ _ => Ok (f, q)) (fun _ _ => Throw) e data 3 1 None None None = Ok (tt, q, None) /\ ~ ForallOrdPairs disjoint (sext_parts e 100 1 2 100 0).
Proof.
  eexists. exists (repeat [Some 1%R; Some 1%R; Some 1%R] 100), tt, (Quality None None None None). split; [reflexivity|]. split; [reflexivity|]. split; [reflexivity|].
  intros H. vm_compute in H. inversion H as [|? ? A B]; subst. inversion A as [|? ? C _]; subst. destruct C as [C|C]; apply C; reflexivity.
Qed.

Example ex_accept : exists e, sext_new 4 1 1 false true false 2 0 false = Ok e /\
  sext_calculate (fun y x => Ok (length y, Quality (Some (Num 5)) (Some (Num 1)) (Some (Num 1)) (Some (Num (1 / 2))))) (fun f x => Ok (length x)) e
    [[Some 1%R; Some 1%R]; [None; Some 1%R]; [Some 2%R; Some 1%R]; [Some 3%R; Some 2%R]] 2 1 None (Some ([[Some 1%R]; [Some 2%R]], 1)) (Some (Chk true 3 2 0 NegInf PosInf PosInf PosInf false false true))
  = Ok (3%nat, Quality (Some (Num 5)) (Some (Num 1)) (Some (Num 1)) (Some (Num (1 / 2))), Some 2%nat).
Proof. eexists. split; reflexivity. Qed.

Print Assumptions c110_rows.
Print Assumptions c110_checks_partial.
Print Assumptions c110_checks_complete.
Print Assumptions c110_projections.
Print Assumptions c110_restrictions.
Print Assumptions c110_nan_refuted.
Print Assumptions c110_buffers_partial.
Print Assumptions c110_overlap_refuted.
