From Verif Require Import Num DescModel DescSpec DescProofs MatProofs SplitProofs SplitProofs4.
From Coq Require Import Lia ZifyBool.
Local Open Scope Z_scope.

Lemma oat_rd {A} (l : list A) i v : oat l i = Some v <-> rd l i = Ok v.
Proof. unfold oat, rd. destruct (i <? 0); [split; discriminate|]. destruct (nth_error l (Z.to_nat i)); split; congruence. Qed.
Lemma rd_xat l i : 0 <= i < Z.of_nat (length l) -> rd l i = Ok (xat l i).
Proof. intros H. rewrite rd_nth by auto. unfold xat. destruct (Z.ltb_spec i 0); [lia|auto]. Qed.
Lemma oat_xat l i : 0 <= i < Z.of_nat (length l) -> oat l i = Some (xat l i).
Proof. intros H. apply oat_rd, rd_xat. auto. Qed.
Lemma oat_ext {A} (l l' : list A) : length l = length l' -> (forall i, 0 <= i < Z.of_nat (length l) -> oat l i = oat l' i) -> l = l'.
Proof.
  intros L H. apply list_ext_nth_error. intros k. destruct (Nat.lt_ge_cases k (length l)) as [K|K].
  - specialize (H (Z.of_nat k) ltac:(lia)). unfold oat in H. destruct (Z.ltb_spec (Z.of_nat k) 0); [lia|]. rewrite Nat2Z.id in H. auto.
  - rewrite (proj2 (nth_error_None l k)), (proj2 (nth_error_None l' k)); auto. lia.
Qed.
(** A loop of assignments over a range. *)
Lemma writes_range {A} (a n : Z) (e : Z -> res A) (g : Z -> A) d : (forall i, a <= i < a + n -> 0 <= i < Z.of_nat (length d) /\ e i = Ok (g i)) ->
  exists d', writes (map (fun i => (i, e i)) (zrange a n)) d = Ok d' /\ length d' = length d /\
    (forall i, 0 <= i < Z.of_nat (length d) -> oat d' i = if (a <=? i) && (i <? a + n) then Some (g i) else oat d i).
Proof.
  intros H. destruct (writes_fun (fun i => Some (g i)) (map (fun i => (i, e i)) (zrange a n)) d) as (d' & E & L & N).
  { intros p x Hx. apply in_map_iff in Hx. destruct Hx as (i & Ei & Hi). injection Ei as <- <-. apply in_zrange in Hi.
    destruct (H i Hi) as (B & ->). split; auto. eauto. }
  exists d'. split; auto. split; auto. intros i Hi. unfold oat. destruct (Z.ltb_spec i 0); [lia|]. rewrite N, Z2Nat.id by lia.
  assert (B : in_fst i (map (fun i => (i, e i)) (zrange a n)) = (a <=? i) && (i <? a + n)).
  { unfold in_fst. destruct ((a <=? i) && (i <? a + n)) eqn:E0.
    - apply existsb_exists. exists (i, e i). split; [|apply Z.eqb_refl]. apply in_map_iff. exists i. split; auto. apply in_zrange. lia.
    - destruct (existsb _ _) eqn:E1; auto. apply existsb_exists in E1. destruct E1 as (q & Hq & E2). apply in_map_iff in Hq.
      destruct Hq as (j & <- & Hj). apply in_zrange in Hj. cbn in E2. lia. }
  rewrite B. reflexivity.
Qed.

(** ** FilterAr *)
Lemma ar_sum_ok : forall c st p r, Z.of_nat (length c) <= p + 1 -> p < Z.of_nat (length st) ->
  ar_sum c st p r = Ok (r + sum_over (length c) (fun j => xat c j * xat st (p - j)%Z))%Qc.
Proof.
  induction c as [|a c IH]; intros st p r H1 H2; cbn [ar_sum length] in *.
  - cbn. f_equal. ring.
  - rewrite rd_xat by lia. cbn [bind]. rewrite IH by lia. f_equal. rewrite sum_over_front. replace (xat (a :: c) 0) with a by reflexivity.
    rewrite Z.sub_0_r. rewrite (sum_over_ext _ (fun i => xat (a :: c) (i + 1) * xat st (p - (i + 1))%Z)%Qc (fun j => xat c j * xat st (p - 1 - j)%Z)%Qc).
    + ring.
    + intros i Hi. rewrite xat_cons by lia. f_equal. f_equal. lia.
Qed.
Lemma xat_upd l i v j : 0 <= i < Z.of_nat (length l) -> xat (upd (Z.to_nat i) v l) j = if j =? i then v else xat l j.
Proof.
  intros H. unfold xat. destruct (Z.ltb_spec j 0), (Z.eqb_spec j i); try lia; subst; auto.
  - apply nth_upd_same. lia.
  - apply nth_upd_other. lia.
Qed.
Lemma ar_loop_ok x c n : forall i st, Z.of_nat (length c) <= i -> i + Z.of_nat n <= Z.of_nat (length x) -> (length x <= length st)%nat ->
  exists y, ar_loop (zrange i (Z.of_nat n)) c x st = Ok y /\ length y = length st /\
    (forall j, j < i \/ i + Z.of_nat n <= j -> xat y j = xat st j) /\
    (forall j, i <= j < i + Z.of_nat n -> xat y j = (xat x j + sum_over (length c) (fun l => xat c l * xat y (j - 1 - l)%Z))%Qc).
Proof.
  induction n as [|n IH]; intros i st H1 H2 H3.
  - exists st. cbn. repeat split; auto. intros; lia.
  - assert (Z1 : zrange i (Z.of_nat (S n)) = i :: zrange (i + 1) (Z.of_nat n)).
    { unfold zrange. rewrite !Nat2Z.id. cbn [seq map]. f_equal; [lia|]. rewrite <- seq_shift, map_map. apply map_ext. intros. lia. }
    rewrite Z1. cbn [ar_loop]. rewrite rd_xat by lia. cbn [bind]. rewrite ar_sum_ok by lia. cbn [bind].
    rewrite wr_ok by lia. cbn [bind]. set (v := (_ + _)%Qc).
    destruct (IH (i + 1) (upd (Z.to_nat i) v st)) as (y & E & L & A & B); [lia|lia|rewrite upd_length; lia|].
    exists y. split; auto. rewrite upd_length in L. split; auto. split.
    + intros j Hj. rewrite A by lia. rewrite xat_upd by lia. destruct (Z.eqb_spec j i); [lia|auto].
    + intros j Hj. destruct (Z.eq_dec j i) as [->|N]; [|apply B; lia]. rewrite A by lia. rewrite xat_upd by lia. rewrite Z.eqb_refl.
      unfold v. f_equal. apply sum_over_ext. intros l Hl. f_equal. rewrite A by lia. rewrite xat_upd by lia. destruct (Z.eqb_spec (i - 1 - l) i); [lia|auto].
Qed.
Lemma oat_some_xat l i v : oat l i = Some v -> xat l i = v.
Proof. unfold oat, xat. destruct (i <? 0); [discriminate|]. intros H. apply nth_error_nth with (d := 0%Qc) in H. auto. Qed.
Lemma oat_in {A} (l : list A) i : 0 <= i < Z.of_nat (length l) -> exists v, oat l i = Some v.
Proof. intros H. unfold oat. destruct (Z.ltb_spec i 0); [lia|]. destruct (nth_error l (Z.to_nat i)) eqn:E; eauto. apply nth_error_None in E. lia. Qed.
Lemma filter_ar_ok x c st : (length c <= length x <= length st)%nat ->
  exists y, filter_ar x c st = Ok y /\ length y = length st /\
    (forall i, 0 <= i < Z.of_nat (length c) -> xat y i = xat x i) /\
    (forall i, Z.of_nat (length c) <= i < Z.of_nat (length x) -> xat y i = (xat x i + sum_over (length c) (fun j => xat c j * xat y (i - 1 - j)%Z))%Qc) /\
    (forall i, Z.of_nat (length x) <= i -> xat y i = xat st i).
Proof.
  intros [H1 H2]. unfold filter_ar. destruct (Z.ltb_spec (Z.of_nat (length st)) (Z.of_nat (length x))); [lia|].
  destruct (Z.ltb_spec (Z.of_nat (length x)) (Z.of_nat (length c))); [lia|].
  destruct (writes_range 0 (Z.of_nat (length c)) (rd x) (xat x) st) as (d & -> & Ld & Nd).
  { intros i Hi. split; [lia|]. apply rd_xat. lia. }
  cbn [bind]. replace (Z.of_nat (length x) - Z.of_nat (length c)) with (Z.of_nat (length x - length c)) by lia.
  destruct (ar_loop_ok x c (length x - length c) (Z.of_nat (length c)) d) as (y & E & L & A & B); [lia|lia|lia|].
  exists y. split; auto. split; [lia|]. split; [|split].
  - intros i Hi. rewrite A by lia. specialize (Nd i ltac:(lia)). destruct ((0 <=? i) && (i <? 0 + Z.of_nat (length c))) eqn:E0; [|lia].
    apply oat_some_xat. auto.
  - intros i Hi. apply B. lia.
  - intros i Hi. rewrite A by lia. destruct (Z.lt_ge_cases i (Z.of_nat (length st))) as [K|K].
    + specialize (Nd i ltac:(lia)). destruct ((0 <=? i) && (i <? 0 + Z.of_nat (length c))) eqn:E0; [lia|].
      destruct (oat_in st i ltac:(lia)) as (v & Ev). rewrite (oat_some_xat _ _ _ Ev). apply oat_some_xat. congruence.
    + unfold xat. destruct (Z.ltb_spec i 0); [lia|]. rewrite !nth_overflow by lia. auto.
Qed.

(** ** FilterMa *)
Lemma rsum_ok : forall (l : list Z) (f : Z -> res Qc) g, (forall i, In i l -> f i = Ok (g i)) -> rsum (map f l) = Ok (qsum (map g l)).
Proof. induction l as [|i l IH]; intros f g H; [reflexivity|]. cbn [map rsum]. rewrite (H i (or_introl eq_refl)). cbn [bind]. rewrite (IH f g) by (intros; apply H; right; auto). reflexivity. Qed.
Lemma zrange_sum n f : qsum (map f (zrange 0 (Z.of_nat n))) = sum_over n f.
Proof. unfold zrange, sum_over. rewrite map_map, Nat2Z.id. reflexivity. Qed.
Lemma ma_value_ok x c o i : 0 <= o -> (0 < length c)%nat -> ma_known (Z.of_nat (length x)) (Z.of_nat (length c)) o i -> ma_value x c o i = Ok (ma_at x c o i).
Proof.
  intros Ho Hc K. unfold ma_known in K. unfold ma_value.
  replace (Z.max 0 (o + i - Z.of_nat (length x))) with 0 by lia.
  replace (Z.min (Z.of_nat (length c)) (i + o + 1)) with (Z.of_nat (length c)) by lia. rewrite Z.sub_0_r.
  rewrite (rsum_ok _ _ (fun j => xat c j * xat x (i + o - j)%Z)%Qc).
  - unfold ma_at. rewrite zrange_sum. reflexivity.
  - intros j Hj. apply in_zrange in Hj. rewrite !rd_xat by lia. reflexivity.
Qed.
Lemma offset_bounds k b : 0 < k -> 0 <= ma_offset k b <= k - 1 \/ (k = 1 /\ ma_offset k b = 0).
Proof. intros H. unfold ma_offset. destruct b; [|lia]. destruct (Z.eq_dec k 1) as [->|N]; [right; auto|]. left. pose proof (Z.div_lt k 2). pose proof (Z.div_pos k 2). lia. Qed.
Lemma oat_repeat {A} (v : A) n i : 0 <= i < Z.of_nat n -> oat (repeat v n) i = Some v.
Proof. intros H. unfold oat. destruct (Z.ltb_spec i 0); [lia|]. rewrite nth_error_repeat by lia. auto. Qed.
Lemma filter_ma_ok x c b st : (0 < length c)%nat -> (length x <= length st)%nat ->
  exists y, filter_ma x c b st = Ok y /\ length y = length st /\
    (forall i, 0 <= i < Z.of_nat (length st) -> oat y i = Some (trend_at x c (ma_offset (Z.of_nat (length c)) b) i)).
Proof.
  intros Hc Hs. unfold filter_ma. destruct (Z.ltb_spec (Z.of_nat (length st)) (Z.of_nat (length x))); [lia|].
  set (k := Z.of_nat (length c)). assert (Ob := offset_bounds k b ltac:(lia)). set (o := ma_offset k b) in *.
  destruct (writes_range (- o + (k - 1)) (Z.of_nat (length x) - o - (- o + (k - 1))) (fun i => do v <- ma_value x c o i; Ok (Some v))
    (fun i => Some (ma_at x c o i)) (repeat None (length st))) as (y & -> & L & N).
  - intros i Hi. rewrite repeat_length. split; [lia|]. rewrite ma_value_ok; auto; [lia|]. unfold ma_known. fold k. lia.
  - rewrite repeat_length in L, N. exists y. split; auto. split; auto. intros i Hi. rewrite N by auto. unfold trend_at. fold k.
    destruct ((- o + (k - 1) <=? i) && (i <? - o + (k - 1) + (Z.of_nat (length x) - o - (- o + (k - 1))))) eqn:E1;
    destruct ((k - 1 - o <=? i) && (i <? Z.of_nat (length x) - o)) eqn:E2; auto; try lia. apply oat_repeat. auto.
Qed.
Lemma filter_ma_empty x b st : (length x <= length st)%nat -> filter_ma x [] b st = UB.
Proof.
  intros H. unfold filter_ma. destruct (Z.ltb_spec (Z.of_nat (length st)) (Z.of_nat (length x))); [lia|]. cbn [length].
  replace (ma_offset (Z.of_nat 0) b) with 0 by (destruct b; reflexivity).
  replace (Z.of_nat (length x) - 0 - (- 0 + (Z.of_nat 0 - 1))) with (Z.of_nat (S (length x))) by lia.
  unfold zrange. rewrite Nat2Z.id. cbn [seq map writes]. unfold ma_value. cbn [length].
  replace (Z.min (Z.of_nat 0) (- 0 + (Z.of_nat 0 - 1) + Z.of_nat 0 + 0 + 1)) with 0 by lia.
  replace (Z.max 0 (0 + (- 0 + (Z.of_nat 0 - 1) + Z.of_nat 0) - Z.of_nat (length x))) with 0 by lia.
  cbn. reflexivity.
Qed.

(** ** Seasonal decomposition *)
Lemma season_snoc R T s f : season_values R (S T) s f = season_values R T s f ++ (if Z.of_nat T mod s =? f then match R (Z.of_nat T) with Some v => [v] | None => [] end else []).
Proof. unfold season_values. rewrite seq_S, flat_map_app. cbn [flat_map]. rewrite app_nil_r. reflexivity. Qed.
Lemma qsum_snoc l v : qsum (l ++ [v]) = (qsum l + v)%Qc.
Proof. rewrite qsum_app. cbn. ring. Qed.
Lemma oat_upd {A} (l : list A) i v j : 0 <= i < Z.of_nat (length l) -> oat (upd (Z.to_nat i) v l) j = if j =? i then Some v else oat l j.
Proof.
  intros H. unfold oat. destruct (Z.ltb_spec j 0), (Z.eqb_spec j i); try lia; subst; auto.
  - apply nth_error_upd_same. lia.
  - apply nth_error_upd_other. lia.
Qed.
Section Sums.
Variables (R : Z -> option Qc) (s : Z).
Hypothesis Hs : 0 < s.
Definition state_ok (p : nat) (means : list (option Qc)) (cnt : list Z) : Prop :=
  Z.of_nat (length cnt) = s /\ s <= Z.of_nat (length means) /\
  forall f, 0 <= f < s -> oat means f = Some (Some (qsum (season_values R p s f))) /\ oat cnt f = Some (Z.of_nat (length (season_values R p s f))).
Lemma season_sums_ok : forall (vals : list (option Qc)) p f means cnt, (if s <=? f then 0 else f) = Z.of_nat p mod s -> state_ok p means cnt ->
  (forall k, (k < length vals)%nat -> nth_error vals k = Some (R (Z.of_nat (p + k)))) ->
  exists (means' : list (option Qc)) cnt', season_sums vals s f means cnt = Ok (means', cnt') /\ length means' = length means /\ state_ok (p + length vals) means' cnt'.
Proof.
  induction vals as [|v vals IH]; intros p f means cnt Hf Hst HR.
  - exists means, cnt. rewrite Nat.add_0_r. auto.
  - cbn [season_sums length] in *. rewrite Hf. pose proof (Z.mod_pos_bound (Z.of_nat p) s Hs) as Hm.
    assert (Hf' : (if s <=? Z.of_nat p mod s + 1 then 0 else Z.of_nat p mod s + 1) = Z.of_nat (S p) mod s).
    { replace (Z.of_nat (S p)) with (Z.of_nat p + 1) by lia. rewrite <- Zplus_mod_idemp_l. destruct (Z.leb_spec s (Z.of_nat p mod s + 1)) as [L|L].
      - replace (Z.of_nat p mod s + 1) with s by lia. rewrite Z_mod_same_full. auto.
      - rewrite (Z.mod_small (Z.of_nat p mod s + 1)) by lia. auto. }
    assert (Hv : R (Z.of_nat p) = v). { specialize (HR 0%nat ltac:(lia)). rewrite Nat.add_0_r in HR. cbn in HR. congruence. }
    assert (HR' : forall k, (k < length vals)%nat -> nth_error vals k = Some (R (Z.of_nat (S p + k)))).
    { intros k Hk. specialize (HR (S k) ltac:(lia)). rewrite Nat.add_succ_r in HR. exact HR. }
    replace (p + S (length vals))%nat with (S p + length vals)%nat by lia. destruct Hst as (L1 & L2 & Hst).
    destruct v as [v|].
    + destruct (Hst _ Hm) as [A B]. apply oat_rd in A. apply oat_rd in B. rewrite A. cbn [bind]. rewrite wr_ok by lia. cbn [bind].
      rewrite B. cbn [bind]. rewrite wr_ok by lia. cbn [bind].
      destruct (IH (S p) (Z.of_nat p mod s + 1) (upd (Z.to_nat (Z.of_nat p mod s)) (Some (qsum (season_values R p s (Z.of_nat p mod s))) +f Some v) means)
        (upd (Z.to_nat (Z.of_nat p mod s)) (Z.of_nat (length (season_values R p s (Z.of_nat p mod s))) + 1) cnt) Hf') as (m' & c' & E & L & S'); auto.
      * split; [rewrite upd_length; auto|]. split; [rewrite upd_length; auto|]. intros f' Hf2. rewrite season_snoc, Hv, !oat_upd by lia.
        rewrite (Z.eqb_sym (Z.of_nat p mod s)). destruct (Z.eqb_spec f' (Z.of_nat p mod s)) as [->|N].
        -- rewrite qsum_snoc, app_length. cbn. split; f_equal. lia.
        -- rewrite app_nil_r. auto.
      * exists m', c'. split; auto. rewrite upd_length in L. auto.
    + destruct (IH (S p) (Z.of_nat p mod s + 1) means cnt Hf') as (m' & c' & E & L & S'); auto.
      * split; auto. split; auto. intros f' Hf2. rewrite season_snoc, Hv. destruct (_ =? _); rewrite app_nil_r; auto.
      * exists m', c'. auto.
Qed.
Lemma season_fill_ok (means : list (option Qc)) (g : Z -> option Qc) : forall n p f (st : list (option Qc)), f = p mod s -> 0 <= p -> p + Z.of_nat n <= Z.of_nat (length st) ->
  (forall f, 0 <= f < s -> oat means f = Some (g f)) ->
  exists st' : list (option Qc), season_fill (zrange p (Z.of_nat n)) s f means st = Ok st' /\ length st' = length st /\
    (forall i, 0 <= i < Z.of_nat (length st) -> oat st' i = if (p <=? i) && (i <? p + Z.of_nat n) then Some (g (i mod s)) else oat st i).
Proof.
  induction n as [|n IH]; intros p f st -> Hp HL G.
  - exists st. cbn. split; auto. split; auto. intros i Hi. destruct ((p <=? i) && (i <? p + 0)) eqn:E; auto. lia.
  - assert (Z1 : zrange p (Z.of_nat (S n)) = p :: zrange (p + 1) (Z.of_nat n)).
    { unfold zrange. rewrite !Nat2Z.id. cbn [seq map]. f_equal; [lia|]. rewrite <- seq_shift, map_map. apply map_ext. intros. lia. }
    pose proof (Z.mod_pos_bound p s Hs) as Hm. rewrite Z1. cbn [season_fill]. assert (A := G _ Hm). apply oat_rd in A. rewrite A. cbn [bind].
    rewrite wr_ok by lia. cbn [bind].
    destruct (IH (p + 1) (if s <=? p mod s + 1 then 0 else p mod s + 1) (upd (Z.to_nat p) (g (p mod s)) st)) as (st' & E & L & N); try rewrite upd_length; auto; try lia.
    { rewrite <- Zplus_mod_idemp_l. destruct (Z.leb_spec s (p mod s + 1)) as [K|K].
      - replace (p mod s + 1) with s by lia. rewrite Z_mod_same_full. auto.
      - rewrite (Z.mod_small (p mod s + 1)) by lia. auto. }
    rewrite upd_length in *. exists st'. split; auto. split; auto. intros i Hi. rewrite N by auto. rewrite oat_upd by lia.
    destruct ((p + 1 <=? i) && (i <? p + 1 + Z.of_nat n)) eqn:E1; destruct ((p <=? i) && (i <? p + Z.of_nat (S n))) eqn:E2; try lia; auto.
    + assert (i = p) as -> by lia. rewrite Z.eqb_refl. auto.
    + destruct (Z.eqb_spec i p); [lia|auto].
Qed.
End Sums.

Lemma fold_fadd_none : forall l, fold_left fadd l None = None.
Proof. induction l; auto. Qed.
Lemma fold_fadd_some : forall l a, fold_left fadd (map Some l) (Some a) = Some (a + qsum l)%Qc.
Proof. induction l as [|v l IH]; intros a; cbn [fold_left map]; [cbn; f_equal; ring|]. cbn [fadd fl2]. unfold fadd, fl2 in *. rewrite IH. f_equal. change (qsum (v :: l)) with (v + qsum l)%Qc. ring. Qed.
Lemma fold_fadd_has_none : forall l a, In None l -> fold_left fadd l a = None.
Proof. induction l as [|v l IH]; intros a []; cbn [fold_left]. - subst. replace (fadd a None) with (@None Qc) by (destruct a; auto). apply fold_fadd_none. - auto. Qed.
Ltac nofl := change fl with (option Qc) in *.
Ltac useE E := match type of E with _ = ?r => match goal with |- context [bind (writes ?l ?d) ?f] => replace (writes l d) with r by (symmetry; exact E) end end; clear E; cbn [bind]; nofl.
Section Decomposition.
Variables (x c : list Qc) (s : Z) (mult do_resid centered : bool) (st_trend st_seas st_resid st_means : list (option Qc)).
Hypothesis Hc : (0 < length c)%nat.
Hypothesis Hs : 0 < s.
Hypothesis L1 : length st_trend = length x.
Hypothesis L2 : length st_seas = length x.
Hypothesis L3 : length st_resid = length x.
Hypothesis L4 : Z.of_nat (length st_means) = s.
Notation T := (length x).
Let o := ma_offset (Z.of_nat (length c)) centered.
Let minus := if mult then fdiv else fsub.
Let R := fun i => minus (Some (xat x i)) (trend_at x c o i).
(** The mean of a season (NaN if it has no known value), and of the means. *)
Definition smean (f : Z) : option Qc := Some (qsum (season_values R T s f)) /f Some (qz (Z.of_nat (length (season_values R T s f)))).
Definition gmean : option Qc := fold_left fadd (map (fun f => smean (Z.of_nat f)) (seq 0 (Z.to_nat s))) (Some 0%Qc) /f Some (qz s).
Definition sindex (f : Z) : option Qc := minus (smean f) gmean.

Lemma decomp_ok : exists d, seasonal_decomposition x (Some c) s mult do_resid centered st_trend st_seas st_resid st_means = Ok d /\
  length (dc_trend d) = T /\ length (dc_seasonal d) = T /\ length (dc_resid d) = T /\ Z.of_nat (length (dc_means d)) = s /\
  (forall i, 0 <= i < Z.of_nat T -> oat (dc_trend d) i = Some (trend_at x c o i)) /\
  (forall i, 0 <= i < Z.of_nat T -> oat (dc_seasonal d) i = Some (sindex (i mod s))) /\
  (forall f, 0 <= f < s -> oat (dc_means d) f = Some (sindex f)) /\
  (if do_resid : bool then forall i, 0 <= i < Z.of_nat T -> oat (dc_resid d) i = Some (minus (R i) (sindex (i mod s))) else dc_resid d = st_resid).
Proof.
  assert (L1i : (length x <= length st_trend)%nat) by (rewrite L1; lia).
  unfold seasonal_decomposition. destruct (filter_ma_ok x c centered st_trend Hc L1i) as (tr & -> & Lt & Nt). nofl. fold o in Nt. cbn [bind]. fold minus.
  assert (Lm : length (map (@Some Qc) x) = T) by apply map_length.
  assert (OX : forall i, 0 <= i < Z.of_nat T -> rd (map (@Some Qc) x) i = Ok (Some (xat x i))).
  { intros i Hi. apply (oat_rd (map (@Some Qc) x)). pose proof (oat_xat x i Hi) as H. unfold oat in *. destruct (i <? 0); [discriminate|]. rewrite nth_error_map, H. auto. }
  assert (VEC : forall st, length st = T -> exists r, vec_op minus (map (@Some Qc) x) tr st = Ok r /\ length r = T /\ forall i, 0 <= i < Z.of_nat T -> oat r i = Some (R i)).
  { intros st Ls. unfold vec_op. nofl. rewrite Lm.
    destruct (@writes_range (option Qc) 0 (Z.of_nat T) (fun i => do a <- rd (map (@Some Qc) x) i; do b <- rd tr i; Ok (minus a b)) (R : Z -> option Qc) st) as (r & E & Lr & Nr).
    - intros i Hi. split; [lia|]. rewrite OX by lia. cbn [bind]. assert (A := Nt i ltac:(lia)). apply oat_rd in A. rewrite A. reflexivity.
    - exists r. split; auto. split; [lia|]. intros i Hi. rewrite Nr by lia. destruct ((0 <=? i) && (i <? 0 + Z.of_nat T)) eqn:E0; auto. lia. }
  destruct (VEC st_seas L2) as (seas & -> & Lseas & Nseas). cbn [bind]. nofl.
  destruct (@writes_range (option Qc) 0 s (fun _ => Ok (Some 0%Qc)) (fun _ => Some 0%Qc) st_means) as (means0 & -> & Lm0 & Nm0).
  { intros i Hi. split; [lia|auto]. }
  cbn [bind]. nofl.
  destruct (season_sums_ok R s Hs (firstn T seas) 0 0 means0 (repeat 0 (Z.to_nat s))) as (means1 & cnt & -> & Lm1 & (C1 & C2 & C3)).
  { destruct (Z.leb_spec s 0); [lia|]. rewrite Zmod_0_l. reflexivity. }
  { split; [rewrite repeat_length; lia|]. split; [lia|]. intros f Hf. rewrite Nm0 by lia. destruct ((0 <=? f) && (f <? 0 + s)) eqn:E; [|lia].
    split; auto. rewrite oat_repeat by lia. auto. }
  { intros k Hk. rewrite firstn_length in Hk. cbn [Nat.add]. specialize (Nseas (Z.of_nat k) ltac:(lia)). unfold oat in Nseas.
    destruct (Z.ltb_spec (Z.of_nat k) 0); [lia|]. rewrite Nat2Z.id in Nseas. rewrite <- Nseas. rewrite <- (firstn_skipn T seas) at 2.
    rewrite nth_error_app1; auto. rewrite firstn_length. lia. }
  cbn [bind]. nofl. replace (0 + length (firstn T seas))%nat with T in C3 by (rewrite firstn_length; lia).
  destruct (@writes_range (option Qc) 0 s (fun j => do m <- rd means1 j; do n <- rd cnt j; Ok (m /f Some (qz n))) smean means1) as (means2 & E2 & Lm2 & Nm2).
  { intros f Hf. split; [lia|]. destruct (C3 f ltac:(lia)) as [A B]. apply oat_rd in A. apply oat_rd in B. rewrite A. cbn [bind]. rewrite B. reflexivity. }
  useE E2.
  assert (Em : means2 = map (fun f => smean (Z.of_nat f)) (seq 0 (Z.to_nat s))).
  { apply oat_ext; [rewrite map_length, seq_length; lia|]. intros f Hf. rewrite Nm2 by lia. destruct ((0 <=? f) && (f <? 0 + s)) eqn:E; [|lia].
    unfold oat. destruct (Z.ltb_spec f 0); [lia|]. rewrite nth_error_map.
    rewrite (nth_error_nth' _ 0%nat) by (rewrite seq_length; lia). rewrite seq_nth by lia. cbn [option_map Nat.add]. rewrite Z2Nat.id by lia. auto. }
  rewrite Em. fold gmean.
  set (M := map (fun v : fl => minus v gmean) (map (fun f : nat => smean (Z.of_nat f)) (seq 0 (Z.to_nat s)))).
  assert (NM : forall f, 0 <= f < s -> oat M f = Some (sindex f)).
  { intros f Hf. unfold M, oat. destruct (Z.ltb_spec f 0); [lia|]. rewrite map_map, nth_error_map.
    rewrite (nth_error_nth' _ 0%nat) by (rewrite seq_length; lia). rewrite seq_nth by lia. cbn [option_map Nat.add]. rewrite Z2Nat.id by lia. reflexivity. }
  match goal with |- context [season_fill _ _ _ ?m _] => change m with M end.
  destruct (season_fill_ok s Hs M sindex T 0 0 seas) as (seas2 & -> & Ls2 & Ns2); auto; try lia.
  cbn [bind]. nofl.
  assert (Ns3 : forall i, 0 <= i < Z.of_nat T -> oat seas2 i = Some (sindex (i mod s))).
  { intros i Hi. rewrite Ns2 by lia. destruct ((0 <=? i) && (i <? 0 + Z.of_nat T)) eqn:E; auto. lia. }
  assert (LM : Z.of_nat (length M) = s) by (unfold M; rewrite !map_length, seq_length; lia).
  destruct do_resid.
  - destruct (VEC st_resid L3) as (r & -> & Lr & Nr). cbn [bind]. nofl.
    destruct (@writes_range (option Qc) 0 (Z.of_nat (length r)) (fun i => do a <- rd r i; do b <- rd seas2 i; Ok (minus a b)) (fun i => minus (R i) (sindex (i mod s))) r) as (r2 & -> & Lr2 & Nr2).
    { intros i Hi. split; [lia|]. assert (A := Nr i ltac:(lia)). apply oat_rd in A. rewrite A. cbn [bind]. assert (B := Ns3 i ltac:(lia)). apply oat_rd in B. rewrite B. reflexivity. }
    cbn [bind]. eexists. split; [reflexivity|]. cbn [dc_trend dc_seasonal dc_resid dc_means]. repeat split; auto; try lia.
    + intros i Hi. apply Nt. lia.
    + intros i Hi. rewrite Nr2 by lia. destruct ((0 <=? i) && (i <? 0 + Z.of_nat (length r))) eqn:E; auto. lia.
  - cbn [bind]. eexists. split; [reflexivity|]. cbn [dc_trend dc_seasonal dc_resid dc_means]. repeat split; auto; try lia. intros i Hi. apply Nt. lia.
Qed.

(** With a known value in every season. *)
Lemma smean_known f : season_values R T s f <> [] -> smean f = Some (season_mean R T s f).
Proof using Type.
  clear Hc Hs L1 L2 L3 L4.
  intros H. unfold smean, season_mean, avg. cbn [fdiv]. change (qz (Z.of_nat ?n)) with (qn n). destruct (qeqb_spec (qn (length (season_values R T s f))) 0) as [E|_]; auto.
  exfalso. revert E. apply Qc_lt_ne. apply qn_pos. destruct (season_values R T s f); [congruence|cbn; lia].
Qed.
Lemma smean_none f : season_values R T s f = [] -> smean f = None.
Proof using Type. clear Hc Hs L1 L2 L3 L4. intros H. unfold smean. rewrite H. reflexivity. Qed.
Lemma gmean_known : all_seasons R T s -> gmean = Some (seasons_mean R T s).
Proof using Hs.
  clear Hc L1 L2 L3 L4.
  intros H. unfold gmean. rewrite (map_ext_in _ (fun f => Some (season_mean R T s (Z.of_nat f)))).
  2:{ intros f Hf%in_seq. apply smean_known. apply H. lia. }
  rewrite <- (map_map (fun f => season_mean R T s (Z.of_nat f)) Some), fold_fadd_some. cbn [fdiv].
  destruct (qeqb_spec (qz s) 0) as [E|_]. { change 0%Qc with (qz 0) in E. apply qz_inj in E. lia. }
  f_equal. unfold seasons_mean, avg. rewrite map_length, seq_length. unfold qn. rewrite Z2Nat.id by lia. f_equal. ring.
Qed.
Lemma gmean_none f : 0 <= f < s -> season_values R T s f = [] -> gmean = None.
Proof using Hs.
  clear Hc L1 L2 L3 L4.
  intros Hf H. unfold gmean. rewrite fold_fadd_has_none; auto. apply in_map_iff. exists (Z.to_nat f). rewrite Z2Nat.id by lia. split; [apply smean_none; auto|].
  apply in_seq. lia.
Qed.
Lemma sindex_none f g : 0 <= f < s -> season_values R T s f = [] -> sindex g = None.
Proof using Hs. clear Hc L1 L2 L3 L4. intros Hf H. unfold sindex. rewrite (gmean_none f Hf H). assert (G : forall a, minus a None = None) by (intros a; unfold minus; destruct mult, a; auto). apply G. Qed.
End Decomposition.
Lemma season_values_ext R R' T s f : (forall i, 0 <= i < Z.of_nat T -> R i = R' i) -> season_values R T s f = season_values R' T s f.
Proof.
  intros H. unfold season_values. apply flat_map_ext_in. intros k Hk%in_seq. rewrite (H (Z.of_nat k)) by lia. auto.
Qed.
Lemma avg_shift l m : l <> [] -> avg (map (fun v => v - m)%Qc l) = (avg l - m)%Qc.
Proof.
  intros H. assert (E : qsum (map (fun v => v - m)%Qc l) = (qsum l - qn (length l) * m)%Qc).
  { clear H. induction l as [|v l IH]; [cbn [map length]; change (qsum []) with 0%Qc; change (qn 0) with 0%Qc; ring|]. cbn [map length]. change (qsum (?a :: ?b)) with (a + qsum b)%Qc. rewrite IH, qn_S. ring. }
  unfold avg. rewrite E, map_length. field. apply Qc_lt_ne, qn_pos. destruct l; [congruence|cbn; lia].
Qed.
Lemma avg_scale l m : l <> [] -> m <> 0%Qc -> avg (map (fun v => v / m)%Qc l) = (avg l / m)%Qc.
Proof.
  intros H Hm. assert (E : qsum (map (fun v => v / m)%Qc l) = (qsum l / m)%Qc).
  { clear H. induction l as [|v l IH]; [cbn [map length]; change (qsum []) with 0%Qc; field; auto|]. cbn [map length]. change (qsum (?a :: ?b)) with (a + qsum b)%Qc. rewrite IH. field. auto. }
  unfold avg. rewrite E, map_length. field. split; auto. apply Qc_lt_ne, qn_pos. destruct l; [congruence|cbn; lia].
Qed.
