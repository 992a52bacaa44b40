(** C124: mixtures of distributions. *)
From Coq Require Import Reals Lra Lia List.
From Verif Require Import UdSpec UdProofs UdProofs2 Prop_UdMoments MixModel MixSpec MixProofs MixProofs2.
Import Lra.
Local Open Scope R_scope.

(** The constructor accepts positive weights, as many as distributions and at least one. *)
Theorem c124_new ws cs : (exists m, mix_new ws cs = Ok m) <-> length ws = length cs /\ ws <> [] /\ positive ws.
Proof.
  unfold mix_new. destruct (Nat.eqb_spec (length ws) (length cs)) as [L|L]; cbn [negb]; [|split; [intros (m & H); discriminate|intros (A & _); contradiction]].
  destruct (existsb _ ws) eqn:X.
  - split; [intros (m & H); discriminate|]. intros (_ & _ & P). apply existsb_exists in X. destruct X as (w & I & X). exfalso. apply P in I. rewrite fin_gt in X by lra. discriminate.
  - destruct ws as [|w ws]; [split; [intros (m & H); discriminate|intros (_ & N & _); contradiction]|]. split; [|intros _; eexists; reflexivity]. intros _. split; [exact L|]. split; [discriminate|]. intros u I. destruct (Rlt_le_dec 0 u) as [U|U]; [exact U|]. exfalso.
    assert (K : existsb (fun w => xle (Fin w) (Fin 0)) (w :: ws) = true) by (apply existsb_exists; exists u; split; [exact I|apply fin_le; exact U]). congruence.
Qed.
Print Assumptions c124_new.
Lemma forall2_vals (P : (R * comp) -> ((R -> R) -> R) -> Prop) (f : comp -> xr) (g : ((R -> R) -> R) -> R) m Es : Forall2 P m Es -> (forall wc E, P wc E -> f (snd wc) = Fin (g E)) -> Forall2 (fun wc x => f (snd wc) = Fin x) m (map g Es).
Proof. intros F H. induction F; cbn; constructor; auto. Qed.
Lemma f2_length {A B} (P : A -> B -> Prop) l k : Forall2 P l k -> length k = length l.
Proof. induction 1; cbn; congruence. Qed.
Lemma f2_right {A B} (P : A -> B -> Prop) (Q : B -> Prop) l k : Forall2 P l k -> (forall a b, P a b -> Q b) -> forall b, In b k -> Q b.
Proof. intros F H. induction F as [|a b l k X F IH]; [intros c []|intros c [<-|I]; eauto]. Qed.
Section Mixture.
Variable m : mixture.
Variable Es : list ((R -> R) -> R).
Hypothesis P : positive (map fst m).
Hypothesis N : m <> [].
Let M := mixed (map fst m) Es.
Lemma ws_ne : map fst m <> []. Proof. destruct m; [contradiction|discriminate]. Qed.
Lemma mean_ok : Forall2 known m Es -> mix_mean m = Fin (M (fun x => x)).
Proof.
  intros F. unfold mix_mean, M, mixed. apply weighted_mean_ok; auto. apply (forall2_vals known c_mean (fun E => E (fun x => x)) m Es F). intros wc E (O & mu & v & A & B & (C & D)). rewrite A, C. reflexivity.
Qed.
Lemma M_operator : Forall2 known m Es -> expectation_operator M.
Proof.
  intros F. apply mixed_operator; [exact P|exact ws_ne|rewrite map_length; apply (f2_length _ _ _ F)|]. apply (f2_right known expectation_operator m Es F). intros a b K. apply K.
Qed.
Lemma variance_ok : Forall2 known m Es -> mix_variance m = Fin (M (fun x => (x - M (fun x => x)) ^ 2)).
Proof.
  intros F. unfold mix_variance. rewrite mean_ok by exact F. set (mu := M (fun x => x)).
  assert (E2 : weighted_mean (fun c => xpown (c_mean c) 2 + c_var c)%x m = Fin (M (fun x => (x - 0) ^ 2))).
  { unfold M, mixed. apply weighted_mean_ok; auto. apply (forall2_vals known (fun c => xpown (c_mean c) 2 + c_var c)%x (fun E => E (fun x => (x - 0) ^ 2)) m Es F). intros wc E (O & a & v & A & B & K). rewrite A, B. cbn [xpown xmul xadd]. rewrite (shift2 E a v 0 O K). f_equal. ring. }
  rewrite E2. cbn [xmul xsub xopp xadd]. f_equal. pose proof (M_operator F) as O. rewrite (shift2 M mu (M (fun x => (x - mu) ^ 2)) 0 O) by (split; reflexivity). ring.
Qed.
End Mixture.
(** Mean and variance of a mixture are those of the mixed distribution. *)
Theorem c124_mean_variance m Es : positive (map fst m) -> m <> [] -> Forall2 known m Es ->
  exists mu v, mix_mean m = Fin mu /\ mix_variance m = Fin v /\ mean_variance (mixed (map fst m) Es) mu v.
Proof. intros P N F. do 2 eexists. split; [apply (mean_ok m Es P N F)|]. split; [apply (variance_ok m Es P N F)|]. split; reflexivity. Qed.
Print Assumptions c124_mean_variance.
Lemma known4_known m Es : Forall2 known4 m Es -> Forall2 known m Es.
Proof. intros F. induction F as [|wc E m Es (O & mu & v & sk & ku & _ & A & B & _ & _ & (K & _)) F IH]; constructor; auto. split; [exact O|]. exists mu, v. auto. Qed.
Lemma pow32 v : 0 <= v -> xpow (Fin v) (Fin (3 / 2)) = Fin (sqrt v ^ 3).
Proof.
  intros [H|<-]; unfold xpow.
  - destruct (Rlt_dec 0 v); [|contradiction]. f_equal. rewrite <- (Rpower_pow 3) by (apply sqrt_lt_R0; exact H). rewrite <- (Rpower_sqrt v) by exact H. rewrite Rpower_mult. f_equal. cbn. field.
  - destruct (Rlt_dec 0 0); [lra|]. destruct (Rlt_dec 0 (3 / 2)); [|lra]. rewrite sqrt_0. f_equal. ring.
Qed.
Lemma ratio3 T v : 0 < v -> T / sqrt v ^ 3 * sqrt v ^ 3 = T.
Proof. intros H. field. apply Rgt_not_eq. apply sqrt_lt_R0. exact H. Qed.
(** All four moments; skewness and kurtosis if the variance is positive. *)
Theorem c124_moments m Es : positive (map fst m) -> m <> [] -> Forall2 known4 m Es ->
  exists mu v, mix_mean m = Fin mu /\ mix_variance m = Fin v /\ mean_variance (mixed (map fst m) Es) mu v /\
  (0 < v -> exists sk ku, mix_skewness m = Fin sk /\ mix_kurtosis m = Fin ku /\ four_moments (mixed (map fst m) Es) mu v sk ku).
Proof.
  intros P N F. pose proof (known4_known m Es F) as K. destruct (c124_mean_variance m Es P N K) as (mu & v & Em & Ev & MV). exists mu, v. split; [exact Em|]. split; [exact Ev|]. split; [exact MV|]. intros Hv. set (M := mixed (map fst m) Es) in *.
  exists (M (fun x => (x - mu) ^ 3) / sqrt v ^ 3), (M (fun x => (x - mu) ^ 4) / (v * v) - 3). assert (S0 : sqrt v ^ 3 <> 0) by (apply pow_nonzero, Rgt_not_eq, sqrt_lt_R0, Hv). split; [|split].
  - unfold mix_skewness. rewrite Em, Ev, pow32 by lra. rewrite (weighted_mean_ok _ m (map (fun E => E (fun x => (x - mu) ^ 3)) Es)); [apply fin_div; exact S0|exact P|exact N|].
    apply (forall2_vals known4 (fun c => let diff := (c_mean c - #mu)%x in (xpown diff 3 + #3 * diff * c_var c + c_skew c * xpow (c_var c) #(3 / 2))%x) (fun E => E (fun x => (x - mu) ^ 3)) m Es F).
    intros wc E (O & a & b & sk & ku & Pb & A & B & Sk & Ku & (MVc & H3 & H4)). cbv zeta. rewrite A, B, Sk, pow32 by exact Pb. cbn [xsub xopp xadd xmul xpown]. f_equal. rewrite (shift3 E a b mu O MVc), H3. ring.
  - unfold mix_kurtosis. rewrite Em, Ev. rewrite (weighted_mean_ok _ m (map (fun E => E (fun x => (x - mu) ^ 4)) Es)); [|exact P|exact N|].
    + cbn [xpown xmul]. rewrite fin_div by nra. cbn [xsub xopp xadd]. f_equal.
    + apply (forall2_vals known4 (fun c => let diff := (c_mean c - #mu)%x in (xpown diff 4 + #6 * xpown diff 2 * c_var c + #4 * diff * c_skew c * xpow (c_var c) #(3 / 2) + (c_kurt c + #3) * xpown (c_var c) 2)%x) (fun E => E (fun x => (x - mu) ^ 4)) m Es F).
      intros wc E (O & a & b & sk & ku & Pb & A & B & Sk & Ku & (MVc & H3 & H4)). cbv zeta. rewrite A, B, Sk, Ku, pow32 by exact Pb. cbn [xsub xopp xadd xmul xpown]. f_equal. rewrite (shift4 E a b mu O MVc), H3, H4. ring.
  - split; [exact MV|]. split; [symmetry; apply ratio3; exact Hv|]. field. lra.
Qed.
Print Assumptions c124_moments.
(** The formulas for normal distributions: third central moment 0, fourth one three times the square of the variance. *)
Theorem c124_normal m Es : positive (map fst m) -> m <> [] -> Forall2 known m Es ->
  (forall E mu v, In E Es -> mean_variance E mu v -> E (fun x => (x - mu) ^ 3) = 0 /\ E (fun x => (x - mu) ^ 4) = 3 * v ^ 2) ->
  exists mu v, mix_mean m = Fin mu /\ mix_variance m = Fin v /\ (0 < v -> exists sk ku, mix_skewness_normal m = Fin sk /\ mix_kurtosis_normal m = Fin ku /\ four_moments (mixed (map fst m) Es) mu v sk ku).
Proof.
  intros P N K Nm. destruct (c124_mean_variance m Es P N K) as (mu & v & Em & Ev & MV). exists mu, v. split; [exact Em|]. split; [exact Ev|]. intros Hv. set (M := mixed (map fst m) Es) in *.
  assert (F : Forall2 (fun wc E => known wc E /\ forall mu v, mean_variance E mu v -> E (fun x => (x - mu) ^ 3) = 0 /\ E (fun x => (x - mu) ^ 4) = 3 * v ^ 2) m Es).
  { clear - K Nm. induction K as [|wc E m Es X K IH]; constructor; [split; [exact X|intros mu v; apply Nm; left; reflexivity]|]. apply IH. intros E' mu v I. apply Nm. right. exact I. }
  exists (M (fun x => (x - mu) ^ 3) / sqrt v ^ 3), (M (fun x => (x - mu) ^ 4) / (v * v) - 3). assert (S0 : sqrt v ^ 3 <> 0) by (apply pow_nonzero, Rgt_not_eq, sqrt_lt_R0, Hv). split; [|split].
  - unfold mix_skewness_normal. rewrite Em, Ev, pow32 by lra. rewrite (weighted_mean_ok _ m (map (fun E => E (fun x => (x - mu) ^ 3)) Es)); [apply fin_div; exact S0|exact P|exact N|].
    eapply (forall2_vals _ (fun c => let diff := (c_mean c - #mu)%x in ((xpown diff 2 + #3 * c_var c) * diff)%x) (fun E => E (fun x => (x - mu) ^ 3)) m Es F).
    intros wc E ((O & a & b & A & B & MVc) & H). destruct (H a b MVc) as [H3 _]. cbv zeta. rewrite A, B. cbn [xsub xopp xadd xmul xpown]. f_equal. rewrite (shift3 E a b mu O MVc), H3. ring.
  - unfold mix_kurtosis_normal. rewrite Em, Ev. rewrite (weighted_mean_ok _ m (map (fun E => E (fun x => (x - mu) ^ 4)) Es)); [|exact P|exact N|].
    + cbn [xpown xmul]. rewrite fin_div by nra. cbn [xsub xopp xadd]. f_equal.
    + eapply (forall2_vals _ (fun c => let diff := (c_mean c - #mu)%x in (xpown diff 4 + #6 * xpown diff 2 * c_var c + #3 * xpown (c_var c) 2)%x) (fun E => E (fun x => (x - mu) ^ 4)) m Es F).
      intros wc E ((O & a & b & A & B & MVc) & H). destruct (H a b MVc) as [H3 H4]. cbv zeta. rewrite A, B. cbn [xsub xopp xadd xmul xpown]. f_equal. rewrite (shift4 E a b mu O MVc), H3, H4. ring.
  - split; [exact MV|]. split; [symmetry; apply ratio3; exact Hv|]. field. lra.
Qed.
Print Assumptions c124_normal.
(** Distribution function *)
Lemma average_between ws xs lo hi : positive ws -> ws <> [] -> length xs = length ws -> (forall x, In x xs -> lo <= x <= hi) -> lo <= average ws xs <= hi.
Proof.
  intros P N L H. unfold average. pose proof (rsum_pos ws P N) as Q. assert (E : lo * rsum ws <= rsum (products ws xs) <= hi * rsum ws).
  { clear N Q. revert xs L H. induction ws as [|w ws IH]; intros [|x xs] L H; try discriminate; cbn; [lra|]. pose proof (P w (or_introl eq_refl)) as W. pose proof (H x (or_introl eq_refl)) as X. destruct (IH ltac:(intros u U; apply P; right; exact U) xs ltac:(cbn in L; lia) ltac:(intros y I; apply H; right; exact I)) as [A B]. split; nra. }
  split; apply (Rmult_le_reg_r (rsum ws)); auto; unfold Rdiv; rewrite Rmult_assoc, Rinv_l by lra; lra.
Qed.
Lemma average_mono ws xs ys : positive ws -> ws <> [] -> Forall2 Rle xs ys -> length xs = length ws -> average ws xs <= average ws ys.
Proof.
  intros P N F L. unfold average. pose proof (rsum_pos ws P N) as Q. assert (E : rsum (products ws xs) <= rsum (products ws ys)).
  { clear N Q. revert ws L P. induction F as [|x y xs ys X F IH]; intros [|w ws] L P; try discriminate; cbn; [lra|]. pose proof (P w (or_introl eq_refl)) as W. specialize (IH ws ltac:(cbn in L; lia) ltac:(intros u U; apply P; right; exact U)). nra. }
  unfold Rdiv. apply Rmult_le_compat_r; [left; apply Rinv_0_lt_compat; exact Q|exact E].
Qed.
Theorem c124_cdf m x : positive (map fst m) -> m <> [] -> (forall wc, In wc m -> exists c, c_cdf (snd wc) x = Fin c) ->
  exists cs, Forall2 (fun wc c => c_cdf (snd wc) x = Fin c) m cs /\ mix_cdf m x = Fin (average (map fst m) cs) /\ (forall lo hi, (forall c, In c cs -> lo <= c <= hi) -> lo <= average (map fst m) cs <= hi).
Proof.
  intros P N H. assert (X : exists cs, Forall2 (fun wc c => c_cdf (snd wc) x = Fin c) m cs).
  { clear P N. induction m as [|wc l IH]; [exists []; constructor|]. destruct (H wc (or_introl eq_refl)) as (c & E). destruct IH as (cs & F); [intros w I; apply H; right; exact I|]. exists (c :: cs). constructor; auto. }
  destruct X as (cs & F). exists cs. split; [exact F|]. split; [apply (weighted_mean_ok (fun c => c_cdf c x)); auto|]. intros lo hi B. apply average_between; auto; [destruct m; [contradiction|discriminate]|rewrite map_length; apply (f2_length _ _ _ F)].
Qed.
Print Assumptions c124_cdf.
(** If the distribution functions are increasing, the one of the mixture is. *)
Theorem c124_cdf_order m x y : positive (map fst m) -> m <> [] -> (forall wc, In wc m -> exists c d, c_cdf (snd wc) x = Fin c /\ c_cdf (snd wc) y = Fin d /\ c <= d) ->
  exists c d, mix_cdf m x = Fin c /\ mix_cdf m y = Fin d /\ c <= d.
Proof.
  intros P N H. assert (X : exists cs ds, Forall2 (fun wc c => c_cdf (snd wc) x = Fin c) m cs /\ Forall2 (fun wc c => c_cdf (snd wc) y = Fin c) m ds /\ Forall2 Rle cs ds).
  { clear P N. induction m as [|wc l IH]; [exists [], []; repeat constructor|]. destruct (H wc (or_introl eq_refl)) as (c & d & E & E2 & L). destruct IH as (cs & ds & F & G & K); [intros w I; apply H; right; exact I|]. exists (c :: cs), (d :: ds). repeat split; constructor; auto. }
  destruct X as (cs & ds & F & G & K). exists (average (map fst m) cs), (average (map fst m) ds). split; [apply (weighted_mean_ok (fun c => c_cdf c x)); auto|]. split; [apply (weighted_mean_ok (fun c => c_cdf c y)); auto|].
  apply average_mono; auto; [destruct m; [contradiction|discriminate]|rewrite map_length; apply (f2_length _ _ _ F)].
Qed.
Print Assumptions c124_cdf_order.
(** The density of a mixture of only discrete or only continuous distributions; an exception for other mixtures. *)
Theorem c124_density m x : positive (map fst m) -> m <> [] ->
  (((exists wc, In wc m /\ c_discrete (snd wc) = true) /\ (exists wc, In wc m /\ c_discrete (snd wc) = false)) <-> mix_density m x = Throw) /\
  forall ys, Forall2 (fun wc y => c_density (snd wc) x = Fin y) m ys -> ~ ((exists wc, In wc m /\ c_discrete (snd wc) = true) /\ (exists wc, In wc m /\ c_discrete (snd wc) = false)) ->
   mix_density m x = Ok (Fin (average (map fst m) ys)) /\ (0 < average (map fst m) ys -> mix_log_density m x = Ok (Fin (ln (average (map fst m) ys)))).
Proof.
  intros P N. assert (T : get_type (map snd m) = MBoth <-> ((exists wc, In wc m /\ c_discrete (snd wc) = true) /\ (exists wc, In wc m /\ c_discrete (snd wc) = false))).
  { unfold get_type. destruct (forallb c_discrete (map snd m)) eqn:A.
    - split; [discriminate|]. intros (_ & wc & I & K). rewrite forallb_forall in A. rewrite (A (snd wc)) in K by (apply in_map; exact I). discriminate.
    - destruct (forallb (fun c => negb (c_discrete c)) (map snd m)) eqn:B.
      + split; [discriminate|]. intros ((wc & I & K) & _). rewrite forallb_forall in B. specialize (B (snd wc) ltac:(apply in_map; exact I)). rewrite K in B. discriminate.
      + split; [intros _|reflexivity]. split.
        * destruct (existsb c_discrete (map snd m)) eqn:C; [apply existsb_exists in C; destruct C as (c & I & K); apply in_map_iff in I; destruct I as (wc & <- & I); exists wc; auto|]. exfalso. assert (forallb (fun c => negb (c_discrete c)) (map snd m) = true); [|congruence]. apply forallb_forall. intros c I. destruct (c_discrete c) eqn:K; [|reflexivity]. assert (existsb c_discrete (map snd m) = true) by (apply existsb_exists; eauto). congruence.
        * destruct (existsb (fun c => negb (c_discrete c)) (map snd m)) eqn:C; [apply existsb_exists in C; destruct C as (c & I & K); apply in_map_iff in I; destruct I as (wc & <- & I); exists wc; split; [exact I|destruct (c_discrete (snd wc)); [discriminate|reflexivity]]|]. exfalso. assert (forallb c_discrete (map snd m) = true); [|congruence]. apply forallb_forall. intros c I. destruct (c_discrete c) eqn:K; [reflexivity|]. assert (existsb (fun c => negb (c_discrete c)) (map snd m) = true) by (apply existsb_exists; exists c; rewrite K; auto). congruence. }
  split.
  - unfold mix_density. split; [intros H; apply T in H; rewrite H; reflexivity|]. intros H. apply T. destruct (get_type (map snd m)); [discriminate|discriminate|reflexivity].
  - intros ys F NB. assert (E : mix_density m x = Ok (Fin (average (map fst m) ys))).
    { unfold mix_density. rewrite (weighted_mean_ok (fun c => c_density c x) m ys) by auto. destruct (get_type (map snd m)); [reflexivity|reflexivity|]. exfalso. apply NB, T. reflexivity. }
    split; [exact E|]. intros Q. unfold mix_log_density. rewrite E. cbn [bind]. rewrite fin_log by exact Q. reflexivity.
Qed.
Print Assumptions c124_density.
(** Smallest and largest values: attained by a distribution of the mixture, and bounds of the values of all. *)
Theorem c124_extremes m : m <> [] -> (forall wc, In wc m -> c_min (snd wc) <> NaN /\ c_max (snd wc) <> NaN) ->
  (exists wc, In wc m /\ mix_minimum m = c_min (snd wc)) /\ (forall wc, In wc m -> xle (mix_minimum m) (c_min (snd wc)) = true) /\
  (exists wc, In wc m /\ mix_maximum m = c_max (snd wc)) /\ (forall wc, In wc m -> xle (c_max (snd wc)) (mix_maximum m) = true).
Proof.
  intros N H.
  destruct (fold_min (fun wc : R * comp => c_min (snd wc)) m ltac:(intros c I; apply H; exact I) PInf ltac:(discriminate)) as (A1 & A2 & A3 & A4).
  destruct (fold_max (fun wc : R * comp => c_max (snd wc)) m ltac:(intros c I; apply H; exact I) NInf ltac:(discriminate)) as (B1 & B2 & B3 & B4).
  cbv zeta in *. fold (mix_minimum m) in *. fold (mix_maximum m) in *. destruct m as [|wc l]; [contradiction|].
  split; [|split; [exact A4|split; [|exact B4]]].
  - destruct A2 as [E|X]; [|exact X]. exists wc. split; [left; reflexivity|]. specialize (A4 wc (or_introl eq_refl)). rewrite E in *. destruct (H wc (or_introl eq_refl)) as [Z _]. destruct (c_min (snd wc)); cbn in A4; congruence.
  - destruct B2 as [E|X]; [|exact X]. exists wc. split; [left; reflexivity|]. specialize (B4 wc (or_introl eq_refl)). rewrite E in *. destruct (H wc (or_introl eq_refl)) as [_ Z]. destruct (c_max (snd wc)); cbn in B4; congruence.
Qed.
Print Assumptions c124_extremes.
(** A mixture of ordinary discrete distributions (C115): the mass function of the mixture has the moments that the class computes. *)
Lemma ordinary_integer d lo : ordinary d -> minimum d = Fin lo -> integer lo.
Proof. destruct d as [k a b]. unfold ordinary, minimum. cbn. destruct k; intros O E; try contradiction; injection E as <-; try (exists 0%Z; reflexivity). apply O. Qed.
Lemma ordinary_discrete d : ordinary d -> is_discrete (d_kind d) = true.
Proof. destruct d as [k a b]. unfold ordinary. cbn. destruct k; intros; try contradiction; reflexivity. Qed.
Lemma density_below s d lo x : minimum d = Fin lo -> x < lo -> density s d x = Fin 0.
Proof. intros E H. unfold density. rewrite E. cbn [xlt]. destruct (Rlt_dec x lo); [reflexivity|contradiction]. Qed.
Lemma integer_offset a b : integer a -> integer b -> a <= b -> exists n, b = a + INR n.
Proof. exact (integer_nat a b). Qed.
Lemma map_snd_combine {A B} (ws : list A) (cs : list B) : length ws = length cs -> map snd (combine ws cs) = cs /\ map fst (combine ws cs) = ws.
Proof. revert cs. induction ws as [|w ws IH]; intros [|c cs] L; try discriminate; [split; reflexivity|]. cbn. destruct (IH cs ltac:(cbn in L; lia)) as [-> ->]. split; reflexivity. Qed.
Lemma f2_combine {A B C} (P : A * B -> C -> Prop) (g : B -> C) (ws : list A) (cs : list B) : length ws = length cs -> (forall w c, In c cs -> P (w, c) (g c)) -> Forall2 P (combine ws cs) (map g cs).
Proof. revert cs. induction ws as [|w ws IH]; intros [|c cs] L H; try discriminate; cbn; constructor; [apply H; left; reflexivity|]. apply IH; [cbn in L; lia|intros w2 c2 I; apply H; right; exact I]. Qed.
Lemma mix_new_ok ws cs m : mix_new ws cs = Ok m -> m = combine ws cs /\ length ws = length cs /\ ws <> [] /\ positive ws.
Proof.
  intros H. pose proof (proj1 (c124_new ws cs) (ex_intro _ m H)) as (L & N & P). split; [|auto]. unfold mix_new in H. rewrite L, Nat.eqb_refl in H. cbn [negb] in H. destruct (existsb _ ws); [discriminate|]. destruct ws; [contradiction|]. injection H as <-. reflexivity.
Qed.
Definition mass (m : mixture) (x : R) : R := match mix_density m x with Ok y => fin y | _ => 0 end.
Theorem c124_discrete (s : special) ws ds m : gamma_function (s_tgamma s) -> log_gamma (s_lgamma s) (s_tgamma s) -> (forall d, In d ds -> ordinary d) -> mix_new ws (map (of_dist s) ds) = Ok m ->
  exists lo mu v sk ku, mix_minimum m = Fin lo /\ mix_mean m = Fin mu /\ mix_variance m = Fin v /\ mix_skewness m = Fin sk /\ mix_kurtosis m = Fin ku /\
    (forall k, exists y, mix_density m (lo + INR k) = Ok (Fin y)) /\ has_moments lo (mass m) mu v sk ku.
Proof.
  intros G LG O Hm. destruct (mix_new_ok _ _ _ Hm) as (-> & L & N & P). rewrite map_length in L. clear Hm. set (cs := map (of_dist s) ds) in *. set (m := combine ws cs).
  assert (Lc : length ws = length cs) by (unfold cs; rewrite map_length; exact L). destruct (map_snd_combine ws cs Lc) as [Ms Mf]. fold m in Ms, Mf.
  assert (Nm : m <> []) by (intros E; rewrite E in Mf; apply N; symmetry; exact Mf).
  assert (Hc : forall wc, In wc m -> exists d, In d ds /\ snd wc = of_dist s d).
  { intros wc I. apply (in_map snd) in I. rewrite Ms in I. unfold cs in I. apply in_map_iff in I. destruct I as (d & E & I). exists d. auto. }
  assert (Cm : forall d, In d ds -> exists lo, minimum d = Fin lo).
  { intros d I. destruct (c115_moments s d G LG (O d I)) as (lo & ? & ? & ? & ? & H & _). exists lo. exact H. }
  (* the smallest value *)
  assert (Lo : exists lo, mix_minimum m = Fin lo /\ integer lo /\ forall d l, In d ds -> minimum d = Fin l -> lo <= l).
  { destruct (fold_min (fun wc : R * comp => c_min (snd wc)) m ltac:(intros c I; destruct (Hc c I) as (d & Id & ->); cbn; destruct (Cm d Id) as (l & ->); discriminate) PInf ltac:(discriminate)) as (_ & A2 & _ & A4). cbv zeta in *. fold (mix_minimum m) in *.
    assert (Y : exists wc, In wc m /\ mix_minimum m = c_min (snd wc)).
    { destruct A2 as [E|X]; [|exact X]. exfalso. assert (I : exists wc, In wc m) by (destruct m as [|wc l]; [contradiction|exists wc; left; reflexivity]). destruct I as (wc & I). specialize (A4 wc I). rewrite E in A4. destruct (Hc wc I) as (d & Id & Ed). rewrite Ed in A4. cbn [c_min of_dist] in A4. destruct (Cm d Id) as (l & El). rewrite El in A4. cbn in A4. discriminate. }
    destruct Y as (wc & I & E). destruct (Hc wc I) as (d & Id & Ed). rewrite Ed in E. cbn [c_min of_dist] in E. destruct (Cm d Id) as (lo & El). exists lo. split; [congruence|]. split; [apply (ordinary_integer d); auto|].
    intros d2 l Id2 El2. assert (J : In (of_dist s d2) (map snd m)) by (rewrite Ms; unfold cs; apply in_map; exact Id2). apply in_map_iff in J. destruct J as (wc2 & E2 & J). specialize (A4 wc2 J). rewrite E2 in A4. cbn [c_min of_dist] in A4. rewrite E, El, El2 in A4. apply xle_fin. exact A4. }
  destruct Lo as (lo & El & Il & Bl).
  (* each distribution, from this value *)
  assert (Md : forall d, In d ds -> exists mu v sk ku, mean d = Fin mu /\ variance d = Fin v /\ skewness d = Fin sk /\ kurtosis d = Fin ku /\ (forall k, exists y, density s d (lo + INR k) = Fin y) /\ has_moments lo (fun x => fin (density s d x)) mu v sk ku).
  { intros d I. destruct (c115_moments s d G LG (O d I)) as (l & mu & v & sk & ku & E0 & E1 & E2 & _ & E3 & E4 & Dk & Hk). exists mu, v, sk, ku. split; [exact E1|]. split; [exact E2|]. split; [exact E3|]. split; [exact E4|].
    destruct (integer_offset lo l Il (ordinary_integer d l (O d I) E0) (Bl d l I E0)) as (n & ->).
    assert (Z : forall k, (k < n)%nat -> density s d (lo + INR k) = Fin 0) by (intros k Hk2; apply (density_below s d (lo + INR n)); [exact E0|apply Rplus_lt_compat_l, lt_INR; exact Hk2]).
    split.
    - intros k. destruct (Nat.lt_ge_cases k n) as [K|K]; [exists 0; apply Z; exact K|]. destruct (Dk (k - n)%nat) as (y & Ey). exists y. rewrite <- Ey. f_equal. replace k with (n + (k - n))%nat at 1 by lia. rewrite plus_INR. ring.
    - apply (moments_lower lo n); [intros k Hk2; rewrite Z by exact Hk2; reflexivity|exact Hk]. }
  set (F := fun d x => fin (density s d x)). set (Es := map (fun d => lattice_expectation lo (F d)) ds).
  assert (K4 : Forall2 known4 m Es).
  { assert (A : forall w d, In d ds -> known4 (w, of_dist s d) (lattice_expectation lo (F d))).
    { intros w d I. destruct (Md d I) as (mu & v & sk & ku & E1 & E2 & E3 & E4 & _ & Hk). split; [apply (lattice_operator _ _ _ _ _ _ Hk)|]. exists mu, v, sk, ku. split; [destruct Hk as (_ & V & _); lra|]. split; [exact E1|]. split; [exact E2|]. split; [exact E3|]. split; [exact E4|]. apply lattice_moments. exact Hk. }
    unfold m, Es, cs. clear - L A. revert ws L. induction ds as [|d l IH]; intros [|w ws] L; try discriminate; cbn; constructor; [apply A; left; reflexivity|]. apply IH; [intros w2 d2 I; apply A; right; exact I|cbn in L; lia]. }
  rewrite <- Mf in P. destruct (c124_moments m Es P Nm K4) as (mu & v & Em & Ev & MV & Rest). rewrite Mf in *.
  assert (LE : length Es = length ws) by (unfold Es; rewrite map_length; symmetry; exact L).
  assert (OpE : forall E, In E Es -> expectation_operator E) by (intros E I; unfold Es in I; apply in_map_iff in I; destruct I as (d & <- & I); destruct (Md d I) as (a & b & c & e & _ & _ & _ & _ & _ & Hk); apply (lattice_operator _ _ _ _ _ _ Hk)).
  assert (Vp : 0 < v).
  { destruct MV as [_ <-]. unfold mixed. assert (Pos : forall x, In x (map (fun E : (R -> R) -> R => E (fun x => (x - mu) ^ 2)) Es) -> 0 < x).
    { intros x I. apply in_map_iff in I. destruct I as (E & <- & I). unfold Es in I. apply in_map_iff in I. destruct I as (d & <- & I). destruct (Md d I) as (a & b & c & e & _ & _ & _ & _ & _ & Hk). pose proof (shift2 _ a b mu (lattice_operator _ _ _ _ _ _ Hk) (proj1 (lattice_moments _ _ _ _ _ _ Hk))) as S2. cbv beta in S2 |- *. unfold F. rewrite S2. destruct Hk as (_ & V & _). pose proof (pow2_ge_0 (a - mu)). lra. }
    set (xs := map _ Es) in *. assert (Lx : length xs = length ws) by (unfold xs; rewrite map_length; exact LE). clearbody xs. unfold average. apply Rdiv_lt_0_compat; [|apply rsum_pos; auto].
    clear - P Pos Lx N. revert xs Lx Pos. induction ws as [|w l IH]; intros [|x xs] Lx Pos; try discriminate; [contradiction|]. cbn. pose proof (P w (or_introl eq_refl)) as W. pose proof (Pos x (or_introl eq_refl)) as X. pose proof (Rmult_lt_0_compat _ _ W X). destruct l as [|w2 l]; [destruct xs; [cbn; lra|discriminate]|]. assert (0 < rsum (products (w2 :: l) xs)); [|lra]. apply IH; [discriminate|intros u U; apply P; right; exact U|cbn in Lx |- *; lia|intros y Y; apply Pos; right; exact Y]. }
  destruct (Rest Vp) as (sk & ku & Es1 & Ek & (_ & M3 & M4)). exists lo, mu, v, sk, ku. do 5 (split; [assumption|]).
  (* the mass function *)
  assert (Dm : forall k, mix_density m (lo + INR k) = Ok (Fin (average ws (map (fun d => F d (lo + INR k)) ds)))).
  { intros k. destruct (c124_density m (lo + INR k) ltac:(rewrite Mf; exact P) Nm) as [_ H]. specialize (H (map (fun d => F d (lo + INR k)) ds)). rewrite Mf in H. apply H.
    - assert (A : forall d, In d ds -> density s d (lo + INR k) = Fin (F d (lo + INR k))) by (intros d I; destruct (Md d I) as (a & b & c & e & _ & _ & _ & _ & D & _); destruct (D k) as (y & Ey); unfold F; rewrite Ey; reflexivity).
      unfold m, cs. clear - L A. revert ws L. induction ds as [|d l IH]; intros [|w ws] L; try discriminate; cbn; constructor; [apply A; left; reflexivity|]. apply IH; [intros d2 I; apply A; right; exact I|cbn in L; lia].
    - intros (_ & (wc & I & K)). destruct (Hc wc I) as (d & Id & Ed). rewrite Ed in K. cbn in K. rewrite (ordinary_discrete d (O d Id)) in K. discriminate. }
  split; [intros k; eexists; apply Dm|].
  assert (X : forall g, quartic g -> expectation lo (mass m) g (mixed ws Es g)).
  { intros g Q. pose proof (average_series ws (map F ds) lo g P N ltac:(rewrite map_length; symmetry; exact L)) as A. lapply A.
    - intros B. unfold expectation in *. eapply series_eq; [| |exact B]; [intros k; cbv beta; f_equal; unfold mass; rewrite Dm; cbn [fin]; rewrite map_map; reflexivity|]. unfold mixed, Es. rewrite !map_map. reflexivity.
    - intros f I. apply in_map_iff in I. destruct I as (d & <- & I). destruct (Md d I) as (a & b & c & e & _ & _ & _ & _ & _ & Hk). apply (expectation_quartic _ _ _ _ _ _ _ Hk Q). }
  destruct MV as [Mu Va]. destruct (mixed_operator ws Es P N LE OpE) as (One & _). split; [|split; [exact Vp|split]].
  - split; [|split; [|split]].
    + intros k. unfold mass. rewrite Dm. cbn [fin]. assert (B : forall x, In x (map (fun d => F d (lo + INR k)) ds) -> 0 <= x).
      { intros x I. apply in_map_iff in I. destruct I as (d & <- & I). destruct (Md d I) as (a & b & c & e & _ & _ & _ & _ & _ & ((Hp & _) & _)). apply Hp. }
      set (xs := map (fun d => F d (lo + INR k)) ds) in *. assert (Lx : length xs = length ws) by (unfold xs; rewrite map_length; symmetry; exact L). clearbody xs. unfold average. apply Rmult_le_pos; [|left; apply Rinv_0_lt_compat, rsum_pos; auto].
      clear - P B Lx. revert xs Lx B. induction ws as [|w l IH]; intros [|x xs] Lx B; try discriminate; [cbn; lra|]. cbn. pose proof (P w (or_introl eq_refl)) as W. pose proof (B x (or_introl eq_refl)) as Bx. specialize (IH ltac:(intros u U; apply P; right; exact U) xs ltac:(cbn in Lx; lia) ltac:(intros y Y; apply B; right; exact Y)). nra.
    + pose proof (X (fun _ => 1) q0) as X0. rewrite One in X0. exact X0.
    + pose proof (X (fun x => x) q1) as X0. rewrite Mu in X0. exact X0.
    + pose proof (X (fun x => (x - mu) ^ 2) (q2 mu)) as X0. rewrite Va in X0. exact X0.
  - pose proof (X (fun x => (x - mu) ^ 3) (q3 mu)) as X0. rewrite M3 in X0. exact X0.
  - pose proof (X (fun x => (x - mu) ^ 4) (q4 mu)) as X0. rewrite M4 in X0. exact X0.
Qed.
Print Assumptions c124_discrete.
(** Sampling: distribution number j is chosen if the uniform number (from 0 to the sum of the weights) is in its part of that interval; so the probability of j is proportional to its weight. *)
Lemma first_above_ok ws : positive ws -> forall a un, a <= un < a + rsum ws ->
  let j := first_above (partial_sums ws a) un in (j < length ws)%nat /\ a + rsum (firstn j ws) <= un < a + rsum (firstn (S j) ws).
Proof.
  induction ws as [|w ws IH]; intros P a un H; cbn [rsum] in H; [lra|]. cbn [partial_sums first_above]. destruct (Rlt_dec un (a + w)) as [K|K]; cbv zeta.
  - cbn. split; [lia|lra].
  - destruct (IH ltac:(intros u U; apply P; right; exact U) (a + w) un ltac:(lra)) as [L B]. cbv zeta in *. split; [cbn; lia|]. set (j := first_above (partial_sums ws (a + w)) un) in *. change (firstn (S (S j)) (w :: ws)) with (w :: firstn (S j) ws). change (firstn (S j) (w :: ws)) with (w :: firstn j ws). cbn [rsum]. lra.
Qed.
Theorem c124_chosen m un : positive (map fst m) -> 0 <= un < rsum (map fst m) ->
  (chosen m un < length m)%nat /\ rsum (firstn (chosen m un) (map fst m)) <= un < rsum (firstn (S (chosen m un)) (map fst m)).
Proof.
  intros P H. destruct (first_above_ok (map fst m) P 0 un ltac:(lra)) as [L B]. cbv zeta in *. rewrite map_length in L. unfold chosen. cbv zeta. destruct (Nat.ltb_spec (first_above (partial_sums (map fst m) 0) un) (length m)); [|lia]. split; [assumption|lra].
Qed.
Print Assumptions c124_chosen.
(** The integers at which the mass function is tabulated. *)
Definition smallest (m : mixture) (l : R) : Prop := (exists wc, In wc m /\ c_min (snd wc) = Fin l) /\ forall wc, In wc m -> exists x, c_min (snd wc) = Fin x /\ l <= x.
Definition greatest (m : mixture) (h : xr) : Prop := (exists wc, In wc m /\ c_max (snd wc) = h) /\ forall wc, In wc m -> c_max (snd wc) <> NaN /\ xle (c_max (snd wc)) h = true.
Lemma xle_antisym a b : xle a b = true -> xle b a = true -> a = b.
Proof. destruct a, b; try (cbn; congruence). rewrite !xle_fin. intros. f_equal. lra. Qed.
Lemma fmin_fold {A} (f : A -> xr) l : (forall c, In c l -> f c <> NaN) -> forall a, a <> NaN -> fold_left (fun a c => fmin a (f c)) l a = fold_left (fun a c => let v := f c in if xlt v a then v else a) l a.
Proof.
  induction l as [|c l IH]; intros H a Na; [reflexivity|]. cbn [fold_left]. assert (Nc : f c <> NaN) by (apply H; left; reflexivity). assert (E : fmin a (f c) = (let v := f c in if xlt v a then v else a)) by (unfold fmin, xmin; destruct a, (f c); cbn [is_nan]; congruence). rewrite E. apply IH; [intros x I; apply H; right; exact I|]. cbv zeta. destruct (xlt (f c) a); auto.
Qed.
Lemma fmax_fold {A} (f : A -> xr) l : (forall c, In c l -> f c <> NaN) -> forall a, a <> NaN -> fold_left (fun a c => fmax a (f c)) l a = fold_left (fun a c => let v := f c in if xlt a v then v else a) l a.
Proof.
  induction l as [|c l IH]; intros H a Na; [reflexivity|]. cbn [fold_left]. assert (Nc : f c <> NaN) by (apply H; left; reflexivity). assert (E : fmax a (f c) = (let v := f c in if xlt a v then v else a)) by (unfold fmax, xmax; destruct a, (f c); cbn [is_nan]; congruence). rewrite E. apply IH; [intros x I; apply H; right; exact I|]. cbv zeta. destruct (xlt a (f c)); auto.
Qed.
Lemma min0_ok m l : smallest m l -> l <= dbl_max -> fold_left (fun a wc => fmin a (c_min (snd wc))) m (Fin dbl_max) = Fin l.
Proof.
  intros ((wc & I & E) & H) L. assert (X : forall wc : R * comp, In wc m -> c_min (snd wc) <> NaN) by (intros c J; destruct (H c J) as (x & -> & _); discriminate).
  rewrite (fmin_fold (fun wc : R * comp => c_min (snd wc))) by (auto; discriminate). destruct (fold_min (fun wc : R * comp => c_min (snd wc)) m X (Fin dbl_max) ltac:(discriminate)) as (_ & A2 & A3 & A4). cbv zeta in *. apply xle_antisym; [rewrite <- E; apply A4; exact I|].
  destruct A2 as [-> |(c & J & ->)]; [apply xle_fin; exact L|]. destruct (H c J) as (x & -> & K). apply xle_fin. exact K.
Qed.
Lemma max0_ok m h : greatest m h -> xle (Fin dbl_min) h = true -> fold_left (fun a wc => fmax a (c_max (snd wc))) m (Fin dbl_min) = h.
Proof.
  intros ((wc & I & E) & H) L. assert (X : forall wc : R * comp, In wc m -> c_max (snd wc) <> NaN) by (intros c J; apply H; exact J).
  rewrite (fmax_fold (fun wc : R * comp => c_max (snd wc))) by (auto; discriminate). destruct (fold_max (fun wc : R * comp => c_max (snd wc)) m X (Fin dbl_min) ltac:(discriminate)) as (_ & A2 & A3 & A4). cbv zeta in *. apply xle_antisym; [|rewrite <- E; apply A4; exact I].
  destruct A2 as [-> |(c & J & ->)]; [exact L|]. apply H. exact J.
Qed.
Lemma to_int_ok n : to_int (Fin (IZR n)) = Ok n.
Proof.
  unfold to_int. destruct (Rlt_dec (IZR n) 0) as [H|H]; f_equal.
  - rewrite <- opp_IZR. unfold Int_part. rewrite <- (tech_up (IZR (- n)) (- n + 1)); [lia| |]; rewrite plus_IZR; lra.
  - unfold Int_part. rewrite <- (tech_up (IZR n) (n + 1)); [lia| |]; rewrite plus_IZR; lra.
Qed.
(** [lo] and [hi] are the requested bounds, NaN for none. *)
Definition lower_bound (l : R) (lo : xr) (lo' : R) : Prop := lo = NaN /\ lo' = l \/ exists x, lo = Fin x /\ lo' = Rmax x l.
Definition upper_bound (h hi : xr) (hi' : R) : Prop := hi = NaN /\ h = Fin hi' \/ exists y, hi = Fin y /\ (h = PInf /\ hi' = y \/ exists z, h = Fin z /\ hi' = Rmin y z).
Theorem c124_support_size m l h lo hi lo' hi' n : smallest m l -> l <= dbl_max -> greatest m h -> xle (Fin dbl_min) h = true ->
  lower_bound l lo lo' -> upper_bound h hi hi' -> hi' - lo' = IZR n ->
  support_size m lo hi = Ok (Fin lo', Fin hi', (n + 1)%Z).
Proof.
  intros Sm Sd Gm Gd Lb Ub E. unfold support_size. rewrite (min0_ok m l Sm Sd), (max0_ok m h Gm Gd).
  assert (E1 : fmax lo (Fin l) = Fin lo').
  { destruct Lb as [(-> & ->)|(x & -> & ->)]; [reflexivity|]. unfold fmax, xmax. cbn [is_nan xlt]. destruct (Rlt_dec x l); [rewrite Rmax_right by lra|rewrite Rmax_left by lra]; reflexivity. }
  assert (E2 : fmin hi h = Fin hi').
  { destruct Ub as [(-> & ->)|(y & -> & [(-> & ->)|(z & -> & ->)])]; [reflexivity|reflexivity|]. unfold fmin, xmin. cbn [is_nan xlt]. destruct (Rlt_dec z y); [rewrite Rmin_right by lra|rewrite Rmin_left by lra]; reflexivity. }
  cbv zeta. rewrite E1, E2. cbn [xsub xopp xadd]. change (hi' + - lo') with (hi' - lo'). rewrite E, to_int_ok. reflexivity.
Qed.
Print Assumptions c124_support_size.
Lemma res_list_ok {A B} (f : A -> res B) (g : A -> B) l : (forall a, In a l -> f a = Ok (g a)) -> res_list (map f l) = Ok (map g l).
Proof. induction l as [|a l IH]; intros H; [reflexivity|]. cbn [map res_list]. rewrite (H a (or_introl eq_refl)). cbn [bind]. rewrite IH by (intros x I; apply H; right; exact I). reflexivity. Qed.
(** the mass, or its logarithm *)
Definition ordinate (m : mixture) (log : bool) (x : R) (y : xr) : Prop := (if log then mix_log_density m x else mix_density m x) = Ok y.
Theorem c124_support m log length lo hi lo' hi' n : (forall wc, In wc m -> c_discrete (snd wc) = true) -> support_size m lo hi = Ok (Fin lo', hi', n) -> (0 < length)%Z ->
  (exists t, support m log length false lo hi = Ok t /\ List.length t = Z.to_nat length /\ forall i, (i < Z.to_nat length)%nat -> exists y, nth i t (NaN, NaN) = (Fin (lo' + INR i), y) /\ ordinate m log (lo' + INR i) y) /\
  (exists t, support m log length true lo hi = Ok t /\ List.length t = (3 * Z.to_nat (length / 3))%nat /\ forall i, (i < Z.to_nat (length / 3))%nat ->
     nth (3 * i) t (NaN, NaN) = (Fin (lo' + INR i), Fin 0) /\ nth (3 * i + 2) t (NaN, NaN) = (Fin (lo' + INR i), Fin 0) /\ exists y, nth (3 * i + 1) t (NaN, NaN) = (Fin (lo' + INR i), y) /\ ordinate m log (lo' + INR i) y).
Proof.
  intros D Es Hl. assert (T : get_type (map snd m) = MDiscrete).
  { unfold get_type. replace (forallb c_discrete (map snd m)) with true; [reflexivity|]. symmetry. apply forallb_forall. intros c I. apply in_map_iff in I. destruct I as (wc & <- & I). apply D. exact I. }
  set (v := fun x => let y := weighted_mean (fun c => c_density c x) m in if log then xlog y else y).
  assert (O : forall x, (if log then mix_log_density m x else mix_density m x) = Ok (v x)) by (intros x; unfold mix_log_density, mix_density, v; rewrite T; destruct log; reflexivity).
  assert (Pt : forall i : nat, support_point m log (Fin lo' + Fin (INR i))%x = Ok (Fin (lo' + INR i), v (lo' + INR i))) by (intros i; unfold support_point; cbn [xadd]; rewrite O; reflexivity).
  unfold support. destruct (length <=? 0)%Z eqn:Q; [lia|]. rewrite T, Es. cbn [bind]. split.
  - rewrite (res_list_ok _ (fun i => (Fin (lo' + INR i), v (lo' + INR i)))) by (intros i _; apply Pt). eexists. split; [reflexivity|]. rewrite map_length, seq_length. split; [reflexivity|]. intros i Hi. exists (v (lo' + INR i)). split; [|apply O].
    rewrite (nth_indep _ _ ((fun i => (Fin (lo' + INR i), v (lo' + INR i))) 0%nat)) by (rewrite map_length, seq_length; exact Hi). rewrite (map_nth (fun i => (Fin (lo' + INR i), v (lo' + INR i)))), seq_nth by exact Hi. reflexivity.
  - rewrite (res_list_ok _ (fun i => (Fin (lo' + INR i), v (lo' + INR i)))) by (intros i _; apply Pt). cbn [bind]. eexists. split; [reflexivity|]. rewrite map_map. cbn [fst].
    set (k := Z.to_nat (length / 3)). set (g := fun i : nat => [(Fin (lo' + INR i), Fin 0); (Fin (lo' + INR i), v (lo' + INR i)); (Fin (lo' + INR i), Fin 0)]). rewrite <- flat_map_concat_map.
    assert (K : forall k s, List.length (flat_map g (seq s k)) = (3 * k)%nat /\ forall i, (i < k)%nat -> forall j d, (j < 3)%nat -> nth (3 * i + j) (flat_map g (seq s k)) d = nth j (g (s + i)%nat) d).
    { clear. induction k as [|k IH]; intros s; [split; [reflexivity|intros; lia]|]. cbn [seq flat_map]. destruct (IH (S s)) as [L H]. split; [rewrite app_length, L; cbn [g List.length]; lia|]. intros i Hi j d Hj. destruct i as [|i].
      - rewrite Nat.add_0_r, Nat.mul_0_r, Nat.add_0_l. apply app_nth1. cbn. exact Hj.
      - rewrite app_nth2 by (cbn [g List.length]; lia). cbn [g List.length]. replace (3 * S i + j - 3)%nat with (3 * i + j)%nat by lia. rewrite H by lia. f_equal. f_equal. lia. }
    destruct (K k 0%nat) as [L H]. split; [exact L|]. intros i Hi. rewrite <- (Nat.add_0_r (3 * i)). rewrite !H by lia. rewrite Nat.add_0_l. split; [reflexivity|]. split; [rewrite Nat.add_0_r, H by lia; reflexivity|]. exists (v (lo' + INR i)). split; [rewrite Nat.add_0_r, H by lia; reflexivity|apply O].
Qed.
Print Assumptions c124_support.
(** No table for a mixture with a continuous distribution, or a length that is not positive. *)
Theorem c124_support_throws m log length plot lo hi : (length <= 0)%Z \/ (exists wc, In wc m /\ c_discrete (snd wc) = false) -> support m log length plot lo hi = Throw.
Proof.
  intros H. unfold support. destruct (Z.leb_spec length 0) as [L|L]; [reflexivity|]. destruct H as [H|(wc & I & D)]; [lia|]. unfold get_type. destruct (forallb c_discrete (map snd m)) eqn:F; [|destruct (forallb (fun c => negb (c_discrete c)) (map snd m)); reflexivity].
  exfalso. rewrite forallb_forall in F. specialize (F (snd wc) (in_map snd _ _ I)). congruence.
Qed.
Print Assumptions c124_support_throws.
(** A component whose mean does not exist (a t distribution with one degree of freedom) is skipped: the mixture gets the mean of the other one. *)
Theorem c124_nan_refuted (s : special) : exists m, mix_new [1; 1] (map (of_dist s) [Dist KT 1 0; Dist KNormal 5 1]) = Ok m /\ mean (Dist KT 1 0) = NaN /\ mix_mean m = Fin 5.
Proof.
  eexists. split; [unfold mix_new; cbn [length map Nat.eqb negb existsb]; rewrite !fin_gt by lra; reflexivity|]. assert (E : mean (Dist KT 1 0) = NaN) by (unfold mean; cbn [d_kind p1 p2]; rewrite fin_ge by lra; reflexivity).
  split; [exact E|]. unfold mix_mean, weighted_mean. cbn [combine fold_left snd fst c_mean of_dist map]. rewrite E. unfold push at 2. cbn [is_nan]. unfold push. change (mean (Dist KNormal 5 1)) with (Fin 5). cbn [is_nan fst snd xadd xmul]. rewrite fin_div by lra. unfold get_mean. cbn [fst snd]. rewrite fin_ne by lra. f_equal. field.
Qed.
Print Assumptions c124_nan_refuted.
Lemma two_pow p : 1 < powerRZ 2 (Zpos p).
Proof. cbn [powerRZ]. apply Rlt_pow_R1; [lra|apply Pos2Nat.is_pos]. Qed.
Lemma dbl_min_small : 0 < dbl_min < 1.
Proof.
  unfold dbl_min. assert (P : 0 < powerRZ 2 1022) by (apply powerRZ_lt; lra). assert (E : powerRZ 2 (-1022) * powerRZ 2 1022 = 1) by (rewrite <- powerRZ_add by lra; reflexivity). pose proof (two_pow 1022) as Q.
  split; [apply powerRZ_lt; lra|]. assert (0 < powerRZ 2 (-1022)) by (apply powerRZ_lt; lra). nra.
Qed.
(** For the uniform distribution on -5, -4, -3, the largest value becomes the smallest positive double and the size 6. *)
Theorem c124_support_refuted (s : special) : exists m, mix_new [1] (map (of_dist s) [Dist KUniformDis (-5) (-3)]) = Ok m /\ mix_maximum m = Fin (-3) /\ support_size m NaN NaN = Ok (Fin (-5), Fin dbl_min, 6%Z).
Proof.
  eexists. split; [unfold mix_new; cbn [length map Nat.eqb negb existsb]; rewrite !fin_gt by lra; reflexivity|]. split; [reflexivity|]. pose proof dbl_min_small as D. assert (M : -5 < dbl_max).
  { unfold dbl_max. assert (0 < powerRZ 2 1023) by (apply powerRZ_lt; lra). assert (powerRZ 2 (-52) < 2); [|nra]. assert (P : 1 < powerRZ 2 52) by apply two_pow. assert (E : powerRZ 2 (-52) * powerRZ 2 52 = 1) by (rewrite <- powerRZ_add by lra; reflexivity). nra. }
  unfold support_size. cbn [combine map fold_left snd]. cbn [of_dist c_min c_max]. change (minimum (Dist KUniformDis (-5) (-3))) with (Fin (-5)). change (maximum (Dist KUniformDis (-5) (-3))) with (Fin (-3)).
  unfold fmin, fmax, xmin, xmax. cbn [is_nan]. rewrite (fin_lt (-5) dbl_max) by lra. replace (xlt (Fin dbl_min) (Fin (-3))) with false by (symmetry; unfold xlt; destruct (Rlt_dec dbl_min (-3)) as [K|K]; [exfalso; lra|reflexivity]). cbv zeta. cbn [xsub xopp xadd]. unfold to_int.
  destruct (Rlt_dec (dbl_min + - -5) 0); [lra|]. cbn [bind]. replace (Int_part (dbl_min + - -5)) with 5%Z; [reflexivity|]. unfold Int_part. rewrite <- (tech_up (dbl_min + - -5) 6); [reflexivity| |]; lra.
Qed.
Print Assumptions c124_support_refuted.
(** For a distribution without largest value and no requested bound, infinity is converted to an integer. *)
Theorem c124_unbounded_refuted (s : special) : exists m, mix_new [1] (map (of_dist s) [Dist KPoisson 3 0]) = Ok m /\ support_size m NaN NaN = UB.
Proof.
  eexists. split; [unfold mix_new; cbn [length map Nat.eqb negb existsb]; rewrite !fin_gt by lra; reflexivity|]. unfold support_size. cbn [combine map fold_left snd]. cbn [of_dist c_min c_max]. unfold minimum, maximum. cbn [d_kind p1 p2]. unfold fmin, fmax, xmin, xmax. cbn [is_nan]. destruct (xlt (Fin 0) (Fin dbl_max)); reflexivity.
Qed.
Print Assumptions c124_unbounded_refuted.
(** Poisson with parameter 3 and weight 1, Bernoulli with 1/2 and weight 3. *)
Example c124_case : exists m, mix_new [1; 3] (map (of_dist some_special) [Dist KPoisson 3 0; Dist KBernoulli (1 / 2) 0]) = Ok m /\ mix_mean m = Fin (9 / 8) /\
  (forall d, In d [Dist KPoisson 3 0; Dist KBernoulli (1 / 2) 0] -> ordinary d) /\ gamma_function (s_tgamma some_special) /\ log_gamma (s_lgamma some_special) (s_tgamma some_special) /\
  smallest m 0 /\ greatest m PInf /\ lower_bound 0 NaN 0 /\ upper_bound PInf (Fin 4) 4 /\ chosen m 2 = 1%nat /\ positive (map fst m) /\
  Forall2 known4 [(1, Comp true #0 #0 #5 #0 #0 #0 (fun _ => #0) (fun _ => #0))]%x [fun g => g 5].
Proof.
  eexists. split; [unfold mix_new; cbn [length map Nat.eqb negb existsb]; rewrite !fin_gt by lra; reflexivity|]. split; [|split; [|split; [exact gam_ok|split; [intros x Hx; reflexivity|]]]].
  - rewrite (weighted_mean_ok c_mean _ [3; 1 / 2]); [f_equal; unfold average; cbn; field| | |repeat constructor]; [|discriminate]. intros w [<-|[<-|[]]]; cbn; lra.
  - intros d [<-|[<-|[]]]; unfold ordinary; cbn; lra.
  - split; [split; [eexists; split; [left; reflexivity|reflexivity]|]; intros wc [<-|[<-|[]]]; exists 0; (split; [reflexivity|lra])|].
    split; [split; [eexists; split; [left; reflexivity|reflexivity]|]; intros wc [<-|[<-|[]]]; cbn; (split; [discriminate|reflexivity])|].
    split; [left; split; reflexivity|]. split; [right; exists 4; split; [reflexivity|left; split; reflexivity]|].
    split; [unfold chosen; cbn; destruct (Rlt_dec 2 (0 + 1)); [lra|]; destruct (Rlt_dec 2 (0 + 1 + 3)); [reflexivity|lra]|]. split; [intros w [<-|[<-|[]]]; cbn; lra|].
    constructor; [|constructor]. split; [split; [reflexivity|split; [intros g h H; apply H|reflexivity]]|]. exists 5, 0, 0, 0. split; [lra|]. repeat (split; [reflexivity|]). split; [split; [reflexivity|ring]|]. rewrite sqrt_0. split; ring.
Qed.
