(** The contract for boost's beta function (GldSpec.beta_ok) is met by a function: the integral of Euler exists. *)
From Coq Require Import Reals Lra Lia Classical.
From Coquelicot Require Import Coquelicot.
From Verif Require Import UdModel GldModel GldSpec GldProofs GldProofs2.
Import Lra.
Local Open Scope R_scope.

Lemma near_ends (P : R * R -> Prop) (c d : R) : 0 < c < 1 -> 0 < d < 1 -> (forall a b, 0 < a < c -> d < b < 1 -> P (a, b)) -> filter_prod (at_right 0) (at_left 1) P.
Proof.
  intros Hc Hd H. apply (Filter_prod _ _ _ (fun a => 0 < a < c) (fun b => d < b < 1)).
  - exists (mkposreal c (proj1 Hc)). intros y B Hy. apply Rabs_def2 in B. unfold minus, plus, opp in B; cbn in B. lra.
  - assert (Hd' : 0 < 1 - d) by lra. exists (mkposreal _ Hd'). intros y B Hy. apply Rabs_def2 in B. unfold minus, plus, opp in B; cbn in B. lra.
  - exact H.
Qed.
Lemma rint_ex (f : R -> R) a b : (forall p, 0 < p < 1 -> continuous f p) -> 0 < a < 1 -> 0 < b < 1 -> exists z, is_RInt f a b z.
Proof.
  intros C Ha Hb. destruct (ex_RInt_continuous (V := R_CompleteNormedModule) f a b) as (z & Hz); [|exists z; exact Hz].
  intros p Hp. apply C. apply (between01 a b); assumption.
Qed.
Lemma bounded_integral (f : R -> R) (M : R) : (forall p, 0 < p < 1 -> continuous f p) -> (forall p, 0 < p < 1 -> 0 <= f p) ->
  (forall a b z, 0 < a -> a <= b -> b < 1 -> is_RInt f a b z -> z <= M) -> exists v, integral01 f v.
Proof.
  intros C P BM. set (E := fun x => exists a b, 0 < a /\ a <= b /\ b < 1 /\ is_RInt f a b x).
  destruct (completeness E) as (v & UB & LUB).
  - exists M. intros x (a & b & H1 & H2 & H3 & H4). apply (BM a b); assumption.
  - destruct (rint_ex f (1 / 2) (1 / 2) C ltac:(lra) ltac:(lra)) as (z & Hz). exists z, (1 / 2), (1 / 2). refine (conj _ (conj _ (conj _ Hz))); lra.
  - exists v. apply filterlimi_locally. intros eps. destruct (classic (exists x, E x /\ v - eps < x)) as [(x & (a0 & b0 & H1 & H2 & H3 & H4) & Hx)|N].
    + apply (near_ends _ a0 b0); [lra|lra|]. intros a b Ha Hb. cbn [fst snd]. destruct (rint_ex f a b C ltac:(lra) ltac:(lra)) as (z & Hz). exists z. split; [exact Hz|].
      destruct (rint_ex f a a0 C ltac:(lra) ltac:(lra)) as (z1 & Hz1). destruct (rint_ex f b0 b C ltac:(lra) ltac:(lra)) as (z2 & Hz2).
      pose proof (is_RInt_ge_0 f a a0 z1 ltac:(lra) Hz1 ltac:(intros; apply P; lra)). pose proof (is_RInt_ge_0 f b0 b z2 ltac:(lra) Hz2 ltac:(intros; apply P; lra)).
      pose proof (is_RInt_Chasles _ _ _ _ _ _ (is_RInt_Chasles _ _ _ _ _ _ Hz1 H4) Hz2) as Hs. pose proof (is_RInt_unique _ _ _ _ Hs) as U1. pose proof (is_RInt_unique _ _ _ _ Hz) as U2.
      assert (EZ : z = z1 + x + z2). { rewrite <- U2. exact U1. } assert (Hv : z <= v). { apply UB. exists a, b. refine (conj _ (conj _ (conj _ Hz))); lra. }
      change (Rabs (z - v) < eps). rewrite Rabs_left1; lra.
    + exfalso. assert (v <= v - eps); [|pose proof (cond_pos eps); lra]. apply LUB. intros x Ex. destruct (Rle_lt_dec x (v - eps)); [assumption|]. exfalso. apply N. exists x. split; [exact Ex|lra].
Qed.
Lemma power_le_1 u y : 0 < u <= 1 -> 0 <= y -> Rpower u y <= 1.
Proof. intros Hu Hy. rewrite <- (Rpower_1_l y). apply Rle_Rpower_l; [exact Hy|lra]. Qed.
Lemma power_half u y : 1 / 2 <= u <= 1 -> Rpower u y <= 1 + Rpower 2 (- y).
Proof.
  intros Hu. destruct (Rle_lt_dec 0 y) as [H|H].
  - pose proof (power_le_1 u y ltac:(lra) H). pose proof (Rpower_pos 2 (- y)). lra.
  - assert (E : Rpower u y = Rpower (/ u) (- y)). { unfold Rpower. rewrite ln_Rinv by lra. f_equal. ring. }
    rewrite E. pose proof (Rle_Rpower_l (/ u) 2 (- y)) as X. assert (/ u <= 2). { replace 2 with (/ (1 / 2)) by field. apply Rinv_le_contravar; lra. }
    assert (0 < / u) by (apply Rinv_0_lt_compat; lra). specialize (X ltac:(lra) (conj H1 H0)). lra.
Qed.
Definition euler (x y p : R) : R := Rpower p x * Rpower (1 - p) y.
Lemma euler_le x y p : 0 < p < 1 -> euler x y p <= (1 + Rpower 2 (- y)) * Rpower p x + (1 + Rpower 2 (- x)) * Rpower (1 - p) y.
Proof.
  intros Hp. unfold euler. pose proof (Rpower_pos p x). pose proof (Rpower_pos (1 - p) y). pose proof (Rpower_pos 2 (- x)). pose proof (Rpower_pos 2 (- y)).
  destruct (Rle_lt_dec p (1 / 2)) as [G|G].
  - pose proof (power_half (1 - p) y ltac:(lra)). nra.
  - pose proof (power_half p x ltac:(lra)). nra.
Qed.
Lemma euler_cont x y p : 0 < p < 1 -> continuous (euler x y) p.
Proof. intros Hp. eapply cont_derive. unfold euler, Rpower. auto_derive; [lra|reflexivity]. Qed.
Lemma euler_integral x y : -1 < x -> -1 < y -> exists v, integral01 (euler x y) v.
Proof.
  intros Hx Hy. set (cy := 1 + Rpower 2 (- y)). set (cx := 1 + Rpower 2 (- x)). assert (0 < cy) by (unfold cy; pose proof (Rpower_pos 2 (- y)); lra). assert (0 < cx) by (unfold cx; pose proof (Rpower_pos 2 (- x)); lra).
  apply (bounded_integral _ (cy / (x + 1) + cx / (y + 1))); [intros; apply euler_cont; assumption| |].
  { intros p _. unfold euler. apply Rlt_le, Rmult_lt_0_compat; apply Rpower_pos. }
  intros a b z Ha Hab Hb Hz. set (F := fun p => cy / (x + 1) * Rpower p (x + 1) + - (cx / (y + 1)) * Rpower (1 - p) (y + 1)). set (g := fun p => cy * Rpower p x + cx * Rpower (1 - p) y).
  assert (D : forall p, 0 < p < 1 -> is_derive F p (g p)).
  { intros p Hp. pose proof (is_derive_scal _ p (cy / (x + 1)) _ (derive_power (x + 1) p ltac:(lra))) as D1. pose proof (is_derive_scal _ p (- (cx / (y + 1))) _ (derive_power' (y + 1) p ltac:(lra))) as D2.
    replace (g p) with (cy / (x + 1) * ((x + 1) * Rpower p (x + 1 - 1)) + - (cx / (y + 1)) * - ((y + 1) * Rpower (1 - p) (y + 1 - 1))).
    - exact (is_derive_plus (K := R_AbsRing) (V := R_NormedModule) _ _ p _ _ D1 D2).
    - unfold g. replace (x + 1 - 1) with x by ring. replace (y + 1 - 1) with y by ring. field. lra. }
  assert (I : is_RInt g a b (F b - F a)).
  { apply (is_RInt_derive (V := R_CompleteNormedModule) F g).
    - intros p Hp. apply D. apply (between01 a b); auto; lra.
    - intros p Hp. assert (0 < p < 1) by (apply (between01 a b); auto; lra). eapply cont_derive. unfold g, Rpower. auto_derive; [lra|reflexivity]. }
  pose proof (is_RInt_le _ _ a b _ _ Hab Hz I) as L. assert (G : z <= F b - F a) by (apply L; intros p Hp; apply euler_le; lra).
  assert (0 < cy / (x + 1)) by (apply Rdiv_lt_0_compat; lra). assert (0 < cx / (y + 1)) by (apply Rdiv_lt_0_compat; lra). unfold F in G.
  pose proof (power_le_1 b (x + 1) ltac:(lra) ltac:(lra)). pose proof (power_le_1 (1 - a) (y + 1) ltac:(lra) ltac:(lra)). pose proof (Rpower_pos a (x + 1)). pose proof (Rpower_pos (1 - b) (y + 1)).
  set (k := cy / (x + 1)) in *. set (l := cx / (y + 1)) in *. nra.
Qed.
(** reflection *)
Lemma int_reflect f v : integral01 f v -> integral01 (fun p => f (1 - p)) v.
Proof.
  intros I. apply filterlimi_locally. intros eps. pose proof (proj1 (filterlimi_locally _ _) I eps) as I'. clear I. rename I' into I.
  destruct I as [P Q HP HQ H]. destruct HP as (e1 & H1). destruct HQ as (e2 & H2).
  apply (Filter_prod _ _ _ (fun a => Q (1 - a)) (fun b => P (1 - b))).
  - exists e2. intros y By Hy. apply H2; [|lra]. apply Rabs_def2 in By. unfold minus, plus, opp in By; cbn in By. change (Rabs (1 - y - 1) < e2). apply Rabs_def1; lra.
  - exists e1. intros y By Hy. apply H1; [|lra]. apply Rabs_def2 in By. unfold minus, plus, opp in By; cbn in By. change (Rabs (1 - y - 0) < e1). apply Rabs_def1; lra.
  - intros a b Qa Pb. cbn [fst snd]. destruct (H (1 - b) (1 - a) Pb Qa) as (z & Hz & Bz). cbn [fst snd] in Hz. exists z. split; [|exact Bz].
    pose proof (is_RInt_swap _ _ _ _ Hz) as S1. assert (S2 : is_RInt f (-1 * a + 1) (-1 * b + 1) (opp z)) by (replace (-1 * a + 1) with (1 - a) by ring; replace (-1 * b + 1) with (1 - b) by ring; exact S1).
    apply is_RInt_comp_lin in S2. pose proof (is_RInt_scal _ _ _ (-1) _ S2) as S3. replace z with (scal (-1) (opp z)) by (unfold scal, opp; cbn; unfold mult; cbn; ring).
    revert S3. apply is_RInt_ext. intros p _. unfold scal; cbn; unfold mult; cbn. replace (-1 * p + 1) with (1 - p) by ring. ring.
Qed.
Definition euler_beta (u v : R) : R := if Rlt_dec 0 u then if Rlt_dec 0 v then RInt_gen (V := R_CompleteNormedModule) (euler (u - 1) (v - 1)) (at_right 0) (at_left 1) else 0 else 0.
Lemma euler_beta_ok x y : -1 < x -> -1 < y -> integral01 (euler x y) (euler_beta (x + 1) (y + 1)).
Proof.
  intros Hx Hy. destruct (euler_integral x y Hx Hy) as (v & I). unfold euler_beta. destruct (Rlt_dec 0 (x + 1)); [|exfalso; lra]. destruct (Rlt_dec 0 (y + 1)); [|exfalso; lra].
  replace (x + 1 - 1) with x by ring. replace (y + 1 - 1) with y by ring. apply (RInt_gen_correct (V := R_CompleteNormedModule)). exists v. exact I.
Qed.
Lemma euler_beta_sym u v : euler_beta u v = euler_beta v u.
Proof.
  destruct (Rlt_dec 0 u) as [Hu|Hu], (Rlt_dec 0 v) as [Hv|Hv]; [|unfold euler_beta; destruct (Rlt_dec 0 u), (Rlt_dec 0 v); auto; contradiction ..].
  pose proof (euler_beta_ok (u - 1) (v - 1) ltac:(lra) ltac:(lra)) as I1. replace (u - 1 + 1) with u in I1 by ring. replace (v - 1 + 1) with v in I1 by ring.
  apply int_reflect in I1. unfold euler_beta at 2. destruct (Rlt_dec 0 v); [|contradiction]. destruct (Rlt_dec 0 u); [|contradiction]. symmetry.
  apply (is_RInt_gen_unique (V := R_CompleteNormedModule)). revert I1. apply int_ext. intros p Hp. unfold euler. replace (1 - (1 - p)) with p by ring. ring.
Qed.
Theorem beta_ok_exists digamma polygamma e z : beta_ok (GSpecial euler_beta digamma polygamma e z).
Proof. split; [intros x y Hx Hy; apply euler_beta_ok; assumption|exact euler_beta_sym]. Qed.
