From Verif Require Import ColModel ColSpec MatProofs MatProofs2 MatDotProofs DataProofs DataProofs2 SplitProofs DescProofs DescProofs2 MomentsProofs ColProofs RocProofs3.
Local Open Scope Qc_scope.

Lemma has_nan_dec (l : list (option Qc)) : has_nan l \/ l = map Some (present l).
Proof.
  induction l as [|[x|] t [H|H]].
  - right. reflexivity.
  - left. right. exact H.
  - right. cbn. f_equal. exact H.
  - left. left. auto.
  - left. left. auto.
Qed.
Lemma has_nan_not l : ~ has_nan (map Some l).
Proof. unfold has_nan. rewrite in_map_iff. intros (x & [=] & _). Qed.
Lemma present_some l : present (map Some l) = l.
Proof. unfold present. induction l; cbn; congruence. Qed.
Lemma present_app a b : present (a ++ b) = present a ++ present b.
Proof. apply flat_map_app. Qed.
Lemma fsum_ok l : fsum (map Some l) = Some (qsum l).
Proof. unfold fsum. rewrite fold_fadd_some. f_equal. ring. Qed.
Lemma fsum_nan l : has_nan l -> fsum l = None.
Proof. apply fold_fadd_has_none. Qed.
Lemma qz_succ (n : nat) : qz (Z.of_nat n + 1) <> 0.
Proof. apply Qc_lt_ne. apply (qz_lt 0). lia. Qed.
Lemma fdiv_ok a (n : Z) : qz n <> 0 -> Some a /f Some (qz n) = Some (a / qz n).
Proof. intros H. cbn. destruct (qeqb_spec (qz n) 0); [contradiction|auto]. Qed.
Lemma fdiv_zero a : a /f Some (qz 0) = None.
Proof. destruct a; reflexivity. Qed.

Lemma mean_all_none : forall l i, mean_all l i None = None.
Proof. induction l as [|[d|] t IH]; intros i; cbn; auto. Qed.
Lemma mean_all_nan : forall l i me, has_nan l -> mean_all l i me = None.
Proof.
  unfold has_nan. induction l as [|d t IH]; intros i me H; [contradiction|]. cbn [mean_all]. destruct H as [->|H]; [|apply IH; auto].
  cbn. destruct me; apply mean_all_none.
Qed.
Lemma mean_all_ok : forall l p, mean_all (map Some l) (Z.of_nat (length p)) (Some (avg p)) = Some (avg (p ++ l)).
Proof.
  induction l as [|d t IH]; intros p; [rewrite app_nil_r; auto|]. cbn [mean_all map]. cbv zeta. change (Some d -f Some (avg p)) with (Some (d - avg p)).
  rewrite fdiv_ok by apply qz_succ.
  destruct (step_ok p d) as (A & _). change (Some (avg p) +f Some ?s) with (Some (avg p + s)). rewrite <- A.
  replace (Z.of_nat (length p) + 1)%Z with (Z.of_nat (length (p ++ [d]))) by (rewrite app_length; cbn; lia).
  rewrite IH, <- app_assoc. reflexivity.
Qed.
Lemma var_all_none : forall l i m2, var_all l i None m2 = (None, m2) \/ var_all l i None m2 = (None, None).
Proof.
  induction l as [|d t IH]; intros i m2; cbn [var_all]; auto.
  assert (E : d -f None = None) by (destruct d; reflexivity). rewrite E. cbn. destruct (IH (i + 1)%Z (m2 +f None)) as [-> | ->]; auto.
  right. destruct m2; reflexivity.
Qed.
Lemma var_all_none2 : forall l i, var_all l i None None = (None, None).
Proof. intros. destruct (var_all_none l i None) as [-> | ->]; auto. Qed.
Lemma var_all_nan : forall l i me m2, has_nan l -> var_all l i me m2 = (None, None).
Proof.
  unfold has_nan. induction l as [|d t IH]; intros i me m2 H; [contradiction|]. cbn [var_all]. destruct H as [->|H]; [|apply IH; auto].
  cbn. destruct me, m2; apply var_all_none2.
Qed.
Lemma var_all_ok : forall l p, var_all (map Some l) (Z.of_nat (length p)) (Some (avg p)) (Some (dev 2 p)) = (Some (avg (p ++ l)), Some (dev 2 (p ++ l))).
Proof.
  induction l as [|d t IH]; intros p; [rewrite app_nil_r; auto|]. cbn [var_all map]. cbv zeta. change (Some d -f Some (avg p)) with (Some (d - avg p)).
  rewrite fdiv_ok by apply qz_succ.
  destruct (step_ok p d) as (A & B & _). change (Some (avg p) +f Some ?s) with (Some (avg p + s)). rewrite <- A.
  match goal with |- context [Some (dev 2 p) +f ?e] => replace (Some (dev 2 p) +f e) with (Some (dev 2 (p ++ [d]))) by (rewrite B; reflexivity) end.
  replace (Z.of_nat (length p) + 1)%Z with (Z.of_nat (length (p ++ [d]))) by (rewrite app_length; cbn; lia).
  rewrite IH, <- app_assoc. reflexivity.
Qed.
Lemma var_nan_ok : forall l p, var_nan l (Z.of_nat (length p)) (avg p) (dev 2 p)
  = (Z.of_nat (length (p ++ present l)), avg (p ++ present l), dev 2 (p ++ present l)).
Proof.
  induction l as [|[d|] t IH]; intros p; cbn [var_nan]; cbv zeta.
  - cbn. rewrite app_nil_r; auto.
  - destruct (step_ok p d) as (A & B & _). rewrite <- A. change (qz (Z.of_nat (length p))) with (qn (length p)). rewrite <- B.
    replace (Z.of_nat (length p) + 1)%Z with (Z.of_nat (length (p ++ [d]))) by (rewrite app_length; cbn; lia).
    rewrite IH, <- app_assoc. reflexivity.
  - apply IH.
Qed.
(** Means which leave out NaN are right if no NaN comes before a number. *)
Lemma mean_nan_nones : forall n i me, mean_nan (repeat None n) i me = me.
Proof. induction n; intros; cbn; auto. Qed.
Lemma mean_nan_ok : forall l n p, mean_nan (map Some l ++ repeat None n) (Z.of_nat (length p)) (avg p) = avg (p ++ l).
Proof.
  induction l as [|d t IH]; intros n p; cbn [map app mean_nan]; cbv zeta; [rewrite app_nil_r; apply mean_nan_nones|].
  destruct (step_ok p d) as (A & _). rewrite <- A. replace (Z.of_nat (length p) + 1)%Z with (Z.of_nat (length (p ++ [d]))) by (rewrite app_length; cbn; lia).
  rewrite IH, <- app_assoc. reflexivity.
Qed.
Lemma repeat_nan l : no_number l -> l = repeat None (length l).
Proof. induction l as [|x t IH]; intros N; cbn; auto. rewrite (N x) by (left; auto). f_equal. apply IH. intros y Hy. apply N. right. auto. Qed.

Lemma ratio_spec sample l : l <> [] -> nan_or_ratio (Some (dev 2 l)) sample (Z.of_nat (length l)) = variance_spec sample l.
Proof.
  intros N. unfold nan_or_ratio, variance_spec. destruct l as [|x [|y t]]; [contradiction| |]; destruct sample.
  - change (Z.of_nat (length [x]) - 1)%Z with 0%Z. apply fdiv_zero.
  - rewrite fdiv_ok by discriminate. reflexivity.
  - rewrite fdiv_ok; [reflexivity|]. apply Qc_lt_ne. apply (qz_lt 0). cbn [length]. lia.
  - rewrite fdiv_ok; [reflexivity|]. apply Qc_lt_ne. apply (qz_lt 0). cbn [length]. lia.
Qed.
Lemma mean_spec_ok l : l <> [] -> mean_spec l = Some (avg l).
Proof. destruct l; [contradiction|reflexivity]. Qed.
Lemma variance_check sample l : (2 <= length l)%nat -> present l <> [] -> variance_of sample true l = (mean_spec (present l), variance_spec sample (present l)).
Proof.
  intros L N. unfold variance_of. destruct l as [|a [|b t]]; cbn [length] in L; try lia.
  pose proof (var_nan_ok (a :: b :: t) []) as E. change (Z.of_nat (length [])) with 0%Z in E. change (avg []) with 0 in E. change (dev 2 []) with 0 in E.
  rewrite E. cbn [app]. rewrite mean_spec_ok, ratio_spec by auto. reflexivity.
Qed.
Lemma variance_plain sample l : (2 <= length l)%nat -> variance_of sample false (map Some l) = (mean_spec l, variance_spec sample l).
Proof.
  intros L. unfold variance_of. destruct l as [|a [|b t]]; cbn [length] in L; try lia. cbn [map].
  change (Some a :: Some b :: map Some t) with (map Some (a :: b :: t)).
  pose proof (var_all_ok (a :: b :: t) []) as E. change (Z.of_nat (length [])) with 0%Z in E. change (avg []) with 0 in E. change (dev 2 []) with 0 in E.
  rewrite E. cbn [app]. rewrite mean_spec_ok by discriminate. rewrite map_length, ratio_spec by discriminate. reflexivity.
Qed.
Lemma variance_plain_nan sample l : (2 <= length l)%nat -> has_nan l -> variance_of sample false l = (None, None).
Proof.
  intros L N. unfold variance_of. destruct l as [|a [|b t]]; cbn [length] in L; try lia. rewrite var_all_nan by auto. reflexivity.
Qed.
Lemma variance_all_nan sample l : (2 <= length l)%nat -> no_number l -> variance_of sample true l = (Some 0, if sample then Some 0 else None).
Proof.
  intros L N. unfold variance_of. destruct l as [|a [|b t]]; cbn [length] in L; try lia.
  pose proof (var_nan_ok (a :: b :: t) []) as E. change (Z.of_nat (length [])) with 0%Z in E. change (avg []) with 0 in E. change (dev 2 []) with 0 in E.
  rewrite E. assert (P : present (a :: b :: t) = []).
  { rewrite (repeat_nan _ N). unfold present. induction (length (a :: b :: t)); cbn; auto. }
  rewrite P. cbn [app]. unfold nan_or_ratio. destruct sample; [|reflexivity]. cbn [length]. rewrite fdiv_ok by discriminate. do 2 f_equal.
Qed.
Lemma mean_plain l : mean_of false (map Some l) = mean_spec l.
Proof.
  destruct l as [|a [|b t]]; [reflexivity|cbn; rewrite avg1; reflexivity|]. unfold mean_of. cbn [map]. change (Some a :: Some b :: map Some t) with (map Some (a :: b :: t)).
  pose proof (mean_all_ok (a :: b :: t) []) as E. exact E.
Qed.
Lemma mean_plain_nan l : has_nan l -> mean_of false l = None.
Proof.
  intros N. destruct l as [|a [|b t]]; [contradiction|destruct N as [->|[]]; reflexivity|]. unfold mean_of. apply mean_all_nan. auto.
Qed.

(** Sums of products *)
Lemma qsum_const {A} (l : list A) c : qsum (map (fun _ => c) l) = qn (length l) * c.
Proof. induction l as [|x t IH]; cbn [map length]; [change (qn 0) with 0; cbn; ring|]. change (qsum (?a :: ?b)) with (a + qsum b). rewrite IH, qn_S. ring. Qed.
Lemma codev_raw P a b : qsum (map (fun p => (fst p - a) * (snd p - b)) P) = qsum (map (fun p => fst p * snd p) P) - a * qsum (ys P) - b * qsum (xs P) + qn (length P) * (a * b).
Proof.
  unfold xs, ys. induction P as [|[x y] t IH]; cbn [map fst snd length]; [change (qn 0) with 0; cbn; ring|].
  change (qsum (?a :: ?b)) with (a + qsum b). rewrite IH, qn_S. ring.
Qed.
Lemma qsum_one {A} (f : A -> Qc) l x : qsum (map f (l ++ [x])) = qsum (map f l) + f x.
Proof. rewrite map_app, qsum_app. cbn. ring. Qed.
Lemma qsum_avg l : l <> [] -> qsum l = qn (length l) * avg l.
Proof. intros N. unfold avg. field. apply Qc_lt_ne, qn_pos. destruct l; [contradiction|cbn; lia]. Qed.
Lemma xs_app P Q : xs (P ++ Q) = xs P ++ xs Q. Proof. apply map_app. Qed.
Lemma ys_app P Q : ys (P ++ Q) = ys P ++ ys Q. Proof. apply map_app. Qed.
Lemma xs_len P : length (xs P) = length P. Proof. apply map_length. Qed.
Lemma ys_len P : length (ys P) = length P. Proof. apply map_length. Qed.
Lemma codev_snoc P x y : codev (P ++ [(x, y)]) = codev P + (x - avg (xs P)) * (y - avg (ys (P ++ [(x, y)]))).
Proof.
  destruct (step_ok (xs P) x) as (A & _). destruct (step_ok (ys P) y) as (B & _). cbv zeta in A, B.
  unfold codev. rewrite !codev_raw, !xs_app, !ys_app. change (xs [(x, y)]) with [x]. change (ys [(x, y)]) with [y].
  rewrite A, B, !qsum_app, !app_length, qsum_one, !xs_len, !ys_len. cbn [length fst snd]. replace (length P + 1)%nat with (S (length P)) by lia. rewrite qn_S.
  change (qsum [x]) with (x + 0). change (qsum [y]) with (y + 0).
  destruct P as [|p t].
  - change (xs []) with (@nil Qc). change (ys []) with (@nil Qc). cbn [map length]. change (avg []) with 0. change (qsum []) with 0.
    change (qz (Z.of_nat 0 + 1)) with 1. change (qn 0) with 0. field. discriminate.
  - pose proof (qsum_avg (xs (p :: t))) as QX. pose proof (qsum_avg (ys (p :: t))) as QY. rewrite QX, QY by discriminate. rewrite !xs_len, !ys_len.
    rewrite qz_add. change (qz (Z.of_nat (length (p :: t)))) with (qn (length (p :: t))). change (qz 1) with 1.
    assert (NZ : qn (length (p :: t)) + 1 <> 0) by (rewrite <- qn_S; apply Qc_lt_ne, qn_pos; lia). revert NZ.
    generalize (qn (length (p :: t))) (avg (xs (p :: t))) (avg (ys (p :: t))) (qsum (map (fun p => fst p * snd p) (p :: t))). intros n a b s NZ. field. auto.
Qed.
Definition pairs_of (l : list (option Qc * option Qc)) : list (Qc * Qc) :=
  flat_map (fun p => match p with (Some a, Some b) => [(a, b)] | _ => [] end) l.
Lemma cov_nan_ok : forall l p, cov_nan l (Z.of_nat (length p)) (avg (xs p)) (avg (ys p)) (codev p)
  = (let Q := p ++ pairs_of l in (Z.of_nat (length Q), avg (xs Q), avg (ys Q), codev Q)).
Proof.
  induction l as [|[[d1|] [d2|]] t IH]; intros p; cbn [cov_nan]; cbv zeta; try apply IH; [cbn; rewrite app_nil_r; auto|].
  destruct (step_ok (xs p) d1) as (A & _). destruct (step_ok (ys p) d2) as (B & _). cbv zeta in A, B. rewrite xs_len in A. rewrite ys_len in B.
  rewrite <- A, <- B. change (xs p ++ [d1]) with (xs p ++ xs [(d1, d2)]). change (ys p ++ [d2]) with (ys p ++ ys [(d1, d2)]). rewrite <- xs_app, <- ys_app, <- codev_snoc.
  replace (Z.of_nat (length p) + 1)%Z with (Z.of_nat (length (p ++ [(d1, d2)]))) by (rewrite app_length; cbn; lia).
  rewrite IH. cbv zeta. rewrite <- !app_assoc. reflexivity.
Qed.
Lemma cov_all_ok : forall l p, cov_all (map (fun ab => (Some (fst ab), Some (snd ab))) l) (Z.of_nat (length p)) (Some (avg (xs p))) (Some (avg (ys p))) (Some (codev p))
  = (let Q := p ++ l in (Some (avg (xs Q)), Some (avg (ys Q)), Some (codev Q))).
Proof.
  induction l as [|[d1 d2] t IH]; intros p; cbn [cov_all map fst snd]; cbv zeta; [rewrite app_nil_r; auto|].
  destruct (step_ok (xs p) d1) as (A & _). destruct (step_ok (ys p) d2) as (B & _). cbv zeta in A, B. rewrite xs_len in A. rewrite ys_len in B.
  change (Some d1 -f Some ?m) with (Some (d1 - m)). change (Some d2 -f Some (avg (ys p))) with (Some (d2 - avg (ys p))). rewrite !fdiv_ok by apply qz_succ.
  change (Some (avg ?q) +f Some ?s) with (Some (avg q + s)). rewrite <- A, <- B.
  change (xs p ++ [d1]) with (xs p ++ xs [(d1, d2)]). change (ys p ++ [d2]) with (ys p ++ ys [(d1, d2)]). rewrite <- xs_app, <- ys_app.
  match goal with |- context [Some (codev p) +f ?e] => replace (Some (codev p) +f e) with (Some (codev (p ++ [(d1, d2)]))) by (rewrite codev_snoc; reflexivity) end.
  replace (Z.of_nat (length p) + 1)%Z with (Z.of_nat (length (p ++ [(d1, d2)]))) by (rewrite app_length; cbn; lia).
  rewrite IH. cbv zeta. rewrite <- !app_assoc. reflexivity.
Qed.
Lemma cov_all_none2 : forall l c, cov_all l c None None None = (None, None, None).
Proof. induction l as [|[[a|] [b|]] t IH]; intros c; cbn; auto. Qed.
Lemma cov_all_m2 : forall l c a b, snd (cov_all l c a b None) = None.
Proof. induction l as [|[x y] t IH]; intros; [reflexivity|]. cbn [cov_all]. cbv zeta. change (None +f ?e) with (@None Qc). apply IH. Qed.
Lemma cov_all_nan : forall l c a b m, (exists p, In p l /\ (fst p = None \/ snd p = None)) -> snd (cov_all l c a b m) = None.
Proof.
  induction l as [|[x y] t IH]; intros c a b m (p & Hp & E); [contradiction|]. cbn [cov_all]. destruct Hp as [<-|Hp]; [|apply IH; eauto].
  cbn [fst snd] in E. assert (X : x -f a = None \/ y = None) by (destruct E as [-> | ->]; [left; reflexivity|right; reflexivity]).
  cbv zeta. assert (Y : m +f (x -f a) *f (y -f (b +f (y -f b) /f Some (qz (c + 1)))) = None).
  { destruct X as [-> | ->]; [destruct m; reflexivity|]. destruct m, (x -f a); reflexivity. }
  rewrite Y. apply cov_all_m2.
Qed.
Lemma cov_all_mean1 : forall l c a m, snd (fst (cov_all l c a None m)) = None.
Proof. induction l as [|[x y] t IH]; intros; [reflexivity|]. cbn [cov_all]. cbv zeta. change (None +f ?e) with (@None Qc). apply IH. Qed.
Lemma cov_all_mean0 : forall l c b m, fst (fst (cov_all l c None b m)) = None.
Proof. induction l as [|[x y] t IH]; intros; [reflexivity|]. cbn [cov_all]. cbv zeta. change (None +f ?e) with (@None Qc). apply IH. Qed.

Lemma cov_ratio sample P : P <> [] -> nan_or_ratio (Some (codev P)) sample (Z.of_nat (length P)) = covariance_spec sample P.
Proof.
  intros N. unfold nan_or_ratio, covariance_spec. destruct P as [|x [|y t]]; [contradiction| |]; destruct sample.
  - change (Z.of_nat (length [x]) - 1)%Z with 0%Z. apply fdiv_zero.
  - rewrite fdiv_ok by discriminate. reflexivity.
  - rewrite fdiv_ok; [reflexivity|]. apply Qc_lt_ne. apply (qz_lt 0). cbn [length]. lia.
  - rewrite fdiv_ok; [reflexivity|]. apply Qc_lt_ne. apply (qz_lt 0). cbn [length]. lia.
Qed.

(** Cauchy-Schwarz *)
Definition sxy (l : list (Qc * Qc)) := qsum (map (fun p => fst p * snd p) l).
Definition sxx (l : list (Qc * Qc)) := qsum (map (fun p => fst p * fst p) l).
Definition syy (l : list (Qc * Qc)) := qsum (map (fun p => snd p * snd p) l).
Lemma sq_zero (x : Qc) : x * x <= 0 -> x = 0.
Proof.
  intros H. pose proof (sq_nonneg x) as N. assert (E : x * x = 0) by (apply Qcle_antisym; auto). destruct (Qcmult_integral _ _ E); auto.
Qed.
Lemma syy_nonneg l : 0 <= syy l.
Proof. apply qsum_nonneg, Forall_map, Forall_forall. intros; apply sq_nonneg. Qed.
Lemma sxx_nonneg l : 0 <= sxx l.
Proof. apply qsum_nonneg, Forall_map, Forall_forall. intros; apply sq_nonneg. Qed.
Lemma syy_zero l : syy l <= 0 -> sxy l = 0.
Proof.
  unfold syy, sxy. induction l as [|[x y] t IH]; cbn [map fst snd]; auto. change (qsum (?a :: ?b)) with (a + qsum b). intros H.
  pose proof (sq_nonneg y). pose proof (syy_nonneg t) as N. unfold syy in N. rewrite IH by qlra. rewrite (sq_zero y) by qlra. ring.
Qed.
Lemma cs_sum l A B S : qsum (map (fun p => (fst p * B - snd p * S) * (fst p * B - snd p * S)) l) = B * B * sxx l - (1 + 1) * (B * S) * sxy l + S * S * syy l + 0 * A.
Proof.
  unfold sxx, sxy, syy. induction l as [|[x y] t IH]; cbn [map fst snd]; [cbn; ring|]. change (qsum (?a :: ?b)) with (a + qsum b). rewrite IH. ring.
Qed.
Lemma Qc_mul_cancel_le a b c : 0 < c -> c * a <= c * b -> a <= b.
Proof. intros Hc H. rewrite !(Qcmult_comm c) in H. apply Qcmult_lt_0_le_reg_r with c; auto. Qed.
Lemma cauchy_schwarz l : sxy l * sxy l <= sxx l * syy l.
Proof.
  pose proof (syy_nonneg l) as N. destruct (Qclt_le_dec 0 (syy l)) as [H|H].
  - apply Qc_mul_cancel_le with (syy l); auto.
    assert (E : 0 <= qsum (map (fun p => (fst p * syy l - snd p * sxy l) * (fst p * syy l - snd p * sxy l)) l)) by (apply qsum_nonneg, Forall_map, Forall_forall; intros; apply sq_nonneg).
    rewrite (cs_sum l 0) in E. apply Qcle_minus_iff. apply Qcle_trans with (1 := E).
    match goal with |- ?a <= ?b => replace b with a by ring end. apply Qcle_refl.
  - rewrite syy_zero by auto. replace (syy l) with 0 by (apply Qcle_antisym; auto). rewrite !Qcmult_0_r. apply Qcle_refl.
Qed.
Lemma dev2_sum l : dev 2 l = qsum (map (fun x => (x - avg l) * (x - avg l)) l).
Proof. unfold dev. f_equal. apply map_ext. intros. apply power2. Qed.
Lemma codev_cs P : codev P * codev P <= dev 2 (xs P) * dev 2 (ys P).
Proof.
  pose proof (cauchy_schwarz (map (fun p => (fst p - avg (xs P), snd p - avg (ys P))) P)) as C. unfold sxy, sxx, syy in C. rewrite !map_map in C. cbn [fst snd] in C.
  rewrite !dev2_sum. unfold xs at 3, ys at 3. rewrite !map_map. exact C.
Qed.
Lemma dev2_nonneg l : 0 <= dev 2 l.
Proof. rewrite dev2_sum. apply qsum_nonneg, Forall_map, Forall_forall. intros; apply sq_nonneg. Qed.
