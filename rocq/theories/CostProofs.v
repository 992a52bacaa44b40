From Verif Require Import CostModel CostSpec MatProofs MatDotProofs.
From Coq Require Import Lia.
Local Open Scope Qc_scope.

Lemma trunc_qz k : trunc (qz k) = k.
Proof. unfold trunc, qz. change (this (Q2Qc (inject_Z k))) with (Qred (inject_Z k)). rewrite Qred_identity by (cbn; apply Z.gcd_1_r). cbn. apply Z.quot_1_r. Qed.
Lemma nrows_S (c : mat Qc) n r : (Z.of_nat (S n) + r = nrows c)%Z -> (0 <= r)%Z -> (r < nrows c)%Z. Proof. lia. Qed.
Lemma bound_get c r : mat_ok c -> (0 <= r < nrows c)%Z -> (0 < ncols c)%Z -> get0 c r 0 = Ok (bound c r).
Proof. intros M H1 H2. unfold get0, pos. rewrite rd_el; auto. split; lia. Qed.
Lemma cost_get c r k : mat_ok c -> (0 <= r < nrows c)%Z -> (0 <= k)%Z -> (k + 1 < ncols c)%Z -> get0 c r (k + 1) = Ok (cost_at c r k).
Proof. intros M H1 H2 H3. unfold get0, pos. rewrite rd_el; auto. split; lia. Qed.

Lemma find_row_some c x r : mat_ok c -> (0 < ncols c)%Z -> bracket c x r -> forall n q, (Z.of_nat n + q = nrows c)%Z -> (0 <= q <= r)%Z -> find_row c (Some x) n q = Ok r.
Proof.
  intros M C ((R1 & R2) & B1 & B2). induction n as [|n IH]; intros q E Q; [lia|]. cbn [find_row]. rewrite bound_get by (auto; lia). cbn [bind].
  destruct (qleb_spec x (bound c q)) as [L|L].
  - destruct (Z.eq_dec q r) as [-> |N]; auto. specialize (B2 q ltac:(lia)). exfalso. apply (Qclt_not_le _ _ B2 L).
  - destruct (Z.eq_dec q r) as [-> |N]; [contradiction|]. apply IH; lia.
Qed.
Lemma find_row_none c p : mat_ok c -> (0 < ncols c)%Z -> (forall q, (0 <= q < nrows c)%Z -> match p with Some x => bound c q < x | None => True end) ->
  forall n q, (Z.of_nat n + q = nrows c)%Z -> (0 <= q)%Z -> find_row c p n q = Ok (nrows c).
Proof.
  intros M C B. induction n as [|n IH]; intros q E Q; cbn [find_row]; [f_equal; lia|]. rewrite bound_get by (auto; lia). cbn [bind].
  assert (X : match p with Some x => qleb x (bound c q) | None => false end = false). { specialize (B q ltac:(lia)). destruct p as [x|]; auto. destruct (qleb_spec x (bound c q)) as [L|L]; auto. exfalso. apply (Qclt_not_le _ _ B L). }
  rewrite X. apply IH; lia.
Qed.

Lemma rd_app {A} (pre t : list A) a : rd (pre ++ a :: t) (Z.of_nat (length pre)) = Ok a.
Proof. unfold rd. destruct (Z.ltb_spec (Z.of_nat (length pre)) 0); [lia|]. rewrite Nat2Z.id, nth_error_app2 by lia. rewrite Nat.sub_diag. auto. Qed.
Lemma upd_app {A} (pre t : list A) a b : upd (length pre) b (pre ++ a :: t) = pre ++ b :: t.
Proof. induction pre as [|x pre IH]; cbn; auto. f_equal. apply IH. Qed.
Lemma wr_app {A} (pre t : list A) a b : wr (pre ++ a :: t) (Z.of_nat (length pre)) b = Ok (pre ++ b :: t).
Proof.
  unfold wr. destruct (Z.ltb_spec (Z.of_nat (length pre)) 0); [lia|]. rewrite app_length. cbn [length]. destruct (Z.leb_spec (Z.of_nat (length pre + S (length t))) (Z.of_nat (length pre))); [lia|]. cbn [orb].
  rewrite Nat2Z.id, upd_app. auto.
Qed.
Lemma charge_ok c p r k w pre pre' s u t t' : mat_ok c -> bracket c p r -> (0 <= k)%Z -> (k + 1 < ncols c)%Z -> length pre' = length pre ->
  charge c (Z.of_nat (length pre)) (Some p) k w (pre ++ s :: t) (pre' ++ u :: t') = Ok (pre ++ (s + w * cost_at c r k) :: t, pre' ++ (u + w) :: t').
Proof.
  intros M B K1 K2 L. unfold charge. rewrite (find_row_some c p r) by (auto; unfold nrows in *; destruct B; lia). cbn [bind]. rewrite cost_get by (auto; apply B). cbn [bind].
  rewrite <- L. rewrite rd_app. cbn [bind]. rewrite wr_app. cbn [bind]. rewrite L, rd_app. cbn [bind]. rewrite wr_app. cbn [bind].
  destruct (qeqb_spec (cost_at c r k) 0) as [-> |N]; [replace (s + w * 0) with s by ring|rewrite (Qcmult_comm w)]; reflexivity.
Qed.
Lemma charges_ok p k w (v : mat Qc -> Qc) (f g : mat Qc -> Qc) : (0 <= k)%Z -> forall cs pre pre', length pre' = length pre ->
  Forall (fun c => mat_ok c /\ (k + 1 < ncols c)%Z /\ exists r, bracket c p r /\ v c = cost_at c r k) cs ->
  charges cs (Z.of_nat (length pre)) (Some p) k w (pre ++ map f cs, pre' ++ map g cs) = Ok (pre ++ map (fun c => f c + w * v c) cs, pre' ++ map (fun c => g c + w) cs).
Proof.
  intros K. induction cs as [|c cs IH]; intros pre pre' L F; [reflexivity|]. inversion F as [|? ? (M & C & r & B & V) F']; subst. cbn [charges map fst snd].
  rewrite (charge_ok c p r) by auto. cbn [bind]. rewrite V.
  specialize (IH (pre ++ [f c + w * cost_at c r k]) (pre' ++ [g c + w]) ltac:(rewrite !app_length; cbn; lia) F').
  rewrite app_length in IH. cbn [length] in IH. replace (Z.of_nat (length pre) + 1)%Z with (Z.of_nat (length pre + 1)) by lia. rewrite <- !app_assoc in IH. exact IH.
Qed.

Definition case_sum (labels : list (option Z)) (i : Z) (f : Z -> Z -> Qc) : Qc :=
  qsum (map (fun j => match nth j labels None with Some k => f (i + Z.of_nat j)%Z k | None => 0 end) (seq 0 (length labels))).
Lemma case_sum_cons a l i f : case_sum (a :: l) i f = match a with Some k => f i k | None => 0 end + case_sum l (i + 1) f.
Proof.
  unfold case_sum. cbn [length seq map]. change (qsum (?a :: ?l)) with (a + qsum l). f_equal.
  - cbn. destruct a; auto. f_equal. lia.
  - f_equal. rewrite <- seq_shift, map_map. apply map_ext. intros j. cbn [nth]. destruct (nth j l None); auto. f_equal. lia.
Qed.
Lemma over_cases_sum l f : over_cases l f = case_sum l 0 f.
Proof. unfold over_cases, case_sum, upto. rewrite Nat2Z.id, map_map. f_equal. apply map_ext. intros j. unfold label. rewrite Nat2Z.id. destruct (nth j l None); auto. Qed.

(** All that is needed for observation i with class k. *)
Definition case_ok (cs : list (mat Qc)) (scores : mat (option Qc)) (ws : option (list Qc)) (r : mat Qc -> Z -> Z) (i k : Z) : Prop :=
  (0 <= k)%Z /\ (match ws with Some l => (i < Z.of_nat (length l))%Z | None => True end) /\
  exists p, opel scores i k = Some p /\ Forall (fun c => mat_ok c /\ (k + 1 < ncols c)%Z /\ bracket c p (r c i)) cs.
Lemma rd_weight ws i : (0 <= i)%Z -> (match ws with Some l => (i < Z.of_nat (length l))%Z | None => True end) -> match ws with Some l => rd l i | None => Ok 1 end = Ok (weight_of ws i).
Proof.
  intros H0 H. destruct ws as [l|]; auto. unfold rd, weight_of, vel. destruct (Z.ltb_spec i 0); [lia|]. destruct (nth_error l (Z.to_nat i)) as [v|] eqn:E.
  - f_equal. symmetry. apply nth_error_nth. auto.
  - apply nth_error_None in E. lia.
Qed.
Lemma loop_ok cs scores ws r : mat_ok scores -> forall labels i (f g : mat Qc -> Qc), (0 <= i)%Z ->
  (forall j k, (0 <= j)%Z -> label labels j = Some k -> case_ok cs scores ws r (i + j) k) ->
  fc_loop cs scores ws (map (option_map qz) labels) i (map f cs, map g cs) =
    Ok (map (fun c => f c + case_sum labels i (fun i k => weight_of ws i * cost_at c (r c i) k)) cs, map (fun c => g c + case_sum labels i (fun i k => weight_of ws i)) cs).
Proof.
  intros MS. induction labels as [|a labels IH]; intros i f g HI H.
  - cbn [map fc_loop]. apply (f_equal Ok), f_equal2; apply map_ext; intros c; unfold case_sum; cbn; ring.
  - assert (H' : forall j k, (0 <= j)%Z -> label labels j = Some k -> case_ok cs scores ws r (i + 1 + j) k).
    { intros j k J E. replace (i + 1 + j)%Z with (i + (j + 1))%Z by lia. apply H; [lia|]. unfold label in *. replace (Z.to_nat (j + 1)) with (S (Z.to_nat j)) by lia. exact E. }
    destruct a as [k|]; cbn [map option_map fc_loop].
    + destruct (H 0%Z k ltac:(lia) eq_refl) as (K & W & p & P & F). rewrite Z.add_0_r in *. rewrite trunc_qz. rewrite rd_weight by auto. cbn [bind].
      assert (G : get0 scores i k = Ok (Some p)). { unfold opel in P. destruct (entry scores i k) as [o|] eqn:E; [|discriminate]. destruct o as [v|]; [|discriminate]. injection P as ->. apply get0_entry; auto. }
      rewrite G. cbn [bind].
      pose proof (charges_ok p k (weight_of ws i) (fun c => cost_at c (r c i) k) f g K cs [] [] eq_refl) as C. cbn [length app Z.of_nat] in C. rewrite C.
      * cbn [bind]. rewrite IH by (auto; lia). apply (f_equal Ok), f_equal2; apply map_ext; intros c; rewrite case_sum_cons; ring.
      * eapply Forall_impl; [|exact F]. cbn. intros c (A1 & A2 & A3). eauto.
    + rewrite IH by (auto; lia). apply (f_equal Ok), f_equal2; apply map_ext; intros c; rewrite case_sum_cons; ring.
Qed.
Lemma ratios_map {A} (cs : list A) (S : A -> Qc) (W : Qc) : cs <> [] -> ratios (map S cs) (map (fun _ => W) cs) = if qeqb W 0 then None else Some (qsum (map (fun c => S c / W) cs)).
Proof.
  destruct (qeqb_spec W 0) as [E|E].
  - destruct cs; [congruence|]. intros _. cbn. apply qeqb_eq in E. rewrite E. auto.
  - intros _. induction cs as [|c cs IH]; auto. cbn [map ratios]. destruct (qeqb_spec W 0); [contradiction|]. rewrite IH. auto.
Qed.
Lemma calculate_ok cs scores ws r labels : mat_ok scores -> cs <> [] ->
  (forall j k, (0 <= j)%Z -> label labels j = Some k -> case_ok cs scores ws r j k) ->
  let S c := over_cases labels (fun i k => weight_of ws i * cost_at c (r c i) k) in let W := over_cases labels (fun i k => weight_of ws i) in
  fc_calculate cs (map (option_map qz) labels) scores ws = Ok (map S cs, map (fun _ => W) cs, if qeqb W 0 then None else Some (qsum (map (fun c => S c / W) cs) / qn (length cs))).
Proof.
  intros MS NE H S W. unfold fc_calculate. replace (repeat 0 (length cs)) with (map (fun _ : mat Qc => 0) cs) by (clear; induction cs; cbn; congruence).
  rewrite (loop_ok cs scores ws r) by (auto; lia). cbn [bind fst snd].
  replace (map (fun c => 0 + _) cs) with (map S cs) by (apply map_ext; intros c; unfold S; rewrite over_cases_sum; ring).
  replace (map (fun c : mat Qc => 0 + _) cs) with (map (fun _ : mat Qc => W) cs) by (apply map_ext; intros c; unfold W; rewrite over_cases_sum; ring).
  rewrite ratios_map by auto. destruct cs; [congruence|]. destruct (qeqb W 0); auto.
Qed.

(** ** Check *)
Lemma check_rows_iff c : mat_ok c -> (0 < ncols c)%Z -> forall n i pre, (Z.of_nat n + i = nrows c)%Z -> (0 <= i)%Z -> (0 < i -> pre = bound c (i - 1))%Z ->
  (check_rows c n i pre = Ok tt /\ (forall r, (i <= r < nrows c)%Z -> 0 <= bound c r <= 1 /\ ((0 < r)%Z -> bound c (r - 1) < bound c r))) \/
  (check_rows c n i pre = Throw /\ exists r, (i <= r < nrows c)%Z /\ (bound c r < 0 \/ 1 < bound c r \/ (0 < r)%Z /\ bound c r <= bound c (r - 1))).
Proof.
  intros M C. induction n as [|n IH]; intros i pre E I P; cbn [check_rows]; [left; split; auto; intros; lia|]. rewrite bound_get by (auto; lia). cbn [bind].
  destruct (qltb_spec (bound c i) 0) as [L|L]; cbn [orb]; [right; split; auto; exists i; split; auto; lia|].
  destruct (qltb_spec 1 (bound c i)) as [L1|L1]; [right; split; auto; exists i; split; auto; lia|].
  destruct (Z.ltb_spec 0 i) as [LI|LI]; cbn [andb]; [destruct (qleb_spec (bound c i) pre) as [Q|Q]|].
  - right. split; auto. exists i. split; [lia|]. right. right. split; auto. rewrite <- P by auto. auto.
  - destruct (IH (i + 1)%Z (bound c i) ltac:(lia) ltac:(lia) ltac:(intros; f_equal; lia)) as [(-> & H)|(-> & r & H & H')]; [left|right]; (split; [reflexivity|]).
    + intros r Hr. destruct (Z.eq_dec r i) as [-> |]; [|apply H; lia]. split; [split; apply Qcnot_lt_le; auto|]. intros _. rewrite <- P by auto. apply Qcnot_le_lt. auto.
    + exists r. split; auto. lia.
  - destruct (IH (i + 1)%Z (bound c i) ltac:(lia) ltac:(lia) ltac:(intros; f_equal; lia)) as [(-> & H)|(-> & r & H & H')]; [left|right]; (split; [reflexivity|]).
    + intros r Hr. destruct (Z.eq_dec r i) as [-> |]; [|apply H; lia]. split; [split; apply Qcnot_lt_le; auto|]. intros; lia.
    + exists r. split; auto. lia.
Qed.
Lemma check_iff c n : mat_ok c -> (0 <= n)%Z -> (fc_check c n = Ok tt <-> valid_table n c) /\ (fc_check c n = Throw <-> ~ valid_table n c).
Proof.
  intros M N. unfold fc_check, valid_table. destruct (Z.leb_spec (nrows c) 1); [split; split; auto; try discriminate; intros; lia|].
  destruct (Z.eqb_spec (ncols c) (n + 1)) as [C|C]; cbn [negb]; [|split; split; auto; try discriminate; intros; tauto].
  destruct (check_rows_iff c M ltac:(lia) (rows c) 0 0 ltac:(unfold nrows; lia) ltac:(lia) ltac:(lia)) as [(-> & H')|(-> & r & Hr & H')].
  - assert (V : (2 <= nrows c)%Z /\ ncols c = (n + 1)%Z /\ (forall r, (0 <= r < nrows c)%Z -> 0 <= bound c r <= 1) /\ (forall a b, (0 <= a < b)%Z -> (b < nrows c)%Z -> bound c a < bound c b)).
    { split; [lia|]. split; auto. split; [intros r Hr; apply H'; auto|]. intros a b Hab Hb. assert (G : forall m, (a + 1 + Z.of_nat m < nrows c)%Z -> bound c a < bound c (a + 1 + Z.of_nat m)).
      { induction m as [|m IH]; intros Hm.
        - destruct (H' (a + 1 + Z.of_nat 0)%Z ltac:(lia)) as (_ & X). specialize (X ltac:(lia)). replace (a + 1 + Z.of_nat 0 - 1)%Z with a in X by lia. auto.
        - eapply Qclt_trans; [apply IH; lia|]. destruct (H' (a + 1 + Z.of_nat (S m))%Z ltac:(lia)) as (_ & X). specialize (X ltac:(lia)). replace (a + 1 + Z.of_nat (S m) - 1)%Z with (a + 1 + Z.of_nat m)%Z in X by lia. auto. }
      specialize (G (Z.to_nat (b - a - 1)) ltac:(lia)). replace (a + 1 + Z.of_nat (Z.to_nat (b - a - 1)))%Z with b in G by lia. auto. }
    split; split; auto; try discriminate. intros X. contradiction.
  - assert (V : ~ ((2 <= nrows c)%Z /\ ncols c = (n + 1)%Z /\ (forall r, (0 <= r < nrows c)%Z -> 0 <= bound c r <= 1) /\ (forall a b, (0 <= a < b)%Z -> (b < nrows c)%Z -> bound c a < bound c b))).
    { intros (_ & _ & V1 & V2). destruct (V1 r Hr) as (X1 & X2). destruct H' as [L|[L|(R & L)]].
      - apply (Qclt_not_le _ _ L X1).
      - apply (Qclt_not_le _ _ L X2).
      - apply (Qclt_not_le _ _ (V2 (r - 1)%Z r ltac:(lia) ltac:(lia)) L). }
    split; split; auto; try discriminate. intros X. contradiction.
Qed.

Lemma bracket_unique c p r r' : bracket c p r -> bracket c p r' -> r = r'.
Proof.
  intros (R & B1 & B2) (R' & B1' & B2'). destruct (Z.lt_trichotomy r r') as [L|[L|L]]; auto; exfalso.
  - apply (Qclt_not_le _ _ (B2' r ltac:(lia)) B1).
  - apply (Qclt_not_le _ _ (B2 r' ltac:(lia)) B1').
Qed.
Lemma bracket_exists c p n : valid_table n c -> ((exists r, bracket c p r) <-> p <= bound c (nrows c - 1)).
Proof.
  intros (V0 & _ & V1 & V2). split.
  - intros (r & R & B & _). destruct (Z.eq_dec r (nrows c - 1)) as [<- |]; auto. eapply Qcle_trans; [exact B|]. apply Qclt_le_weak, V2; lia.
  - intros L. assert (G : forall m, (Z.of_nat m <= nrows c)%Z -> (exists r, bracket c p r) \/ forall r, (0 <= r < Z.of_nat m)%Z -> bound c r < p).
    { induction m as [|m IH]; intros Hm; [right; intros; lia|]. destruct (IH ltac:(lia)) as [X|X]; auto. destruct (Qclt_le_dec (bound c (Z.of_nat m)) p) as [Q|Q].
      - right. intros r Hr. destruct (Z.eq_dec r (Z.of_nat m)) as [-> |]; auto. apply X. lia.
      - left. exists (Z.of_nat m). split; [lia|]. auto. }
    destruct (G (rows c) ltac:(unfold nrows; lia)) as [X|X]; auto. exfalso. specialize (X (nrows c - 1)%Z ltac:(unfold nrows in *; lia)). apply (Qclt_not_le _ _ X L).
Qed.
