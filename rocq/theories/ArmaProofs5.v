(** The responses of a VARMA model and the errors of its forecasts: proofs about the equations. *)
From Verif Require Import ArmaModel ArmaSpec MatProofs DataProofs PolyProofs PolyProofs2 ArmaProofs.
From Coq Require Import Lia ZifyBool.
Local Open Scope Z_scope.

Lemma in_upto' n i : In i (upto n) <-> 0 <= i < n.
Proof. unfold upto. rewrite in_map_iff. split; [intros (x & <- & H); apply in_seq in H; lia|]. intros H. exists (Z.to_nat i). split; [lia|]. apply in_seq. lia. Qed.
Lemma lag_sum_ext c f f' t : (forall s, s <= t -> f s = f' s) -> lag_sum c f t = lag_sum c f' t.
Proof. revert t. induction c as [|x c IH]; intros t H; cbn; [reflexivity|]. rewrite H by lia. rewrite (IH (t - 1)); [reflexivity|]. intros s Hs. apply H. lia. Qed.
Lemma lag_terms_ext g a lags v v' : (forall b l, 0 <= b < g -> In l lags -> v b l = v' b l) -> forall s, lag_terms g a s lags v = lag_terms g a s lags v'.
Proof.
  induction lags as [|l t IH]; intros H s; cbn [lag_terms]; [reflexivity|]. rewrite IH by (intros; apply H; auto; right; auto). f_equal. f_equal. apply map_ext_in. intros b Hb. apply in_upto' in Hb. rewrite (H b l Hb (or_introl eq_refl)). reflexivity.
Qed.
(** Two paths with the same past, exogenous variables and errors are the same. *)
Lemma follows_unique g nx ar ma c a t0 n y y' x e : ascending 0 ar -> hd_error c = Some 1%Qc ->
  (forall i t, 0 <= i < g -> t <= t0 -> y i t = y' i t) -> follows g nx ar ma (lag_sum c) a t0 n y x e -> follows g nx ar ma (lag_sum c) a t0 n y' x e ->
  forall i t, 0 <= i < g -> t <= t0 + n -> y i t = y' i t.
Proof.
  intros A HC H0 F F'. destruct c as [|c0 c]; [discriminate|]. injection HC as ->.
  assert (X : forall k : nat, Z.of_nat k <= n -> forall i t, 0 <= i < g -> t <= t0 + Z.of_nat k -> y i t = y' i t).
  { induction k as [|k IH]; intros Hk i t Hi Ht; [apply H0; [exact Hi|lia]|]. specialize (IH ltac:(lia)).
    destruct (Z.le_gt_cases t (t0 + Z.of_nat k)) as [H|H]; [apply IH; auto|].
    specialize (F t i ltac:(lia) Hi). specialize (F' t i ltac:(lia) Hi).
    assert (E : varma_equation g nx ar ma (a i) (fun j => lag_sum (1%Qc :: c) (y j)) x e t = varma_equation g nx ar ma (a i) (fun j => lag_sum (1%Qc :: c) (y' j)) x e t).
    { unfold varma_equation. f_equal. f_equal. apply lag_terms_ext. intros b l Hb Hl. pose proof (ascending_all 0 ar A l Hl) as L1. apply lag_sum_ext. intros s Hs. apply IH; [exact Hb|lia]. }
    rewrite E in F. rewrite <- F' in F. cbn [lag_sum] in F. rewrite (lag_sum_ext c (y i) (y' i)) in F by (intros s Hs; apply IH; [exact Hi|lia]).
    apply (f_equal (fun v => (v - lag_sum c (y' i) (t - 1))%Qc)) in F. ring_simplify in F. exact F. }
  intros i t Hi Ht. destruct (Z.le_gt_cases t t0) as [H|H]; [apply H0; auto|]. apply (X (Z.to_nat (t - t0))); [lia|exact Hi|lia].
Qed.
Lemma responses_follow g nx ar ma dif a n psi b : 0 <= b < g -> responses g nx ar ma dif a n psi -> follows g nx ar ma dif a (- (1)) n (fun i t => psi t i b) (fun _ _ => 0%Qc) (impulse b).
Proof. intros Hb (_ & H) t i Ht Hi. apply (H t i b); auto. lia. Qed.
Lemma responses_unique g nx ar ma c a n psi psi' : ascending 0 ar -> hd_error c = Some 1%Qc -> responses g nx ar ma (lag_sum c) a n psi -> responses g nx ar ma (lag_sum c) a n psi' ->
  forall t i b, t < n -> 0 <= i < g -> 0 <= b < g -> psi t i b = psi' t i b.
Proof.
  intros A HC R1 R2 t i b Ht Hi Hb. apply (follows_unique g nx ar ma c a (-(1)) n (fun i t => psi t i b) (fun i t => psi' t i b) (fun _ _ => 0%Qc) (impulse b) A HC); auto; try (apply responses_follow; auto); [|lia].
  intros i' t' Hi' Ht'. cbn. destruct R1 as [Z1 _], R2 as [Z2 _]. rewrite Z1, Z2 by lia. reflexivity.
Qed.
Lemma responses_ext g nx ar ma dif dif' a n psi : (forall f t, dif f t = dif' f t) -> responses g nx ar ma dif a n psi -> responses g nx ar ma dif' a n psi.
Proof.
  intros E (H0 & H). split; [exact H0|]. intros t i b Ht Hi Hb. specialize (H t i b Ht Hi Hb). cbv beta zeta in H |- *. rewrite <- E, H. f_equal. unfold varma_equation. f_equal. f_equal. apply lag_terms_ext. intros. apply E.
Qed.
(** ** Linear combinations *)
Section Lin.
Context {A : Type} (L : list A) (lam : A -> Qc).
Lemma sum_of_sums {B} (f : A -> B -> Qc) M : qsum (map (fun b => qsum (map (fun i => f i b) L)) M) = qsum (map (fun i => qsum (map (f i) M)) L).
Proof using.
  induction M as [|b M IH]; cbn [map].
  - symmetry. apply qsum_map0. reflexivity.
  - change (qsum (?x :: ?l)) with (x + qsum l)%Qc at 1. rewrite IH, <- qsum_map_add. reflexivity.
Qed.
Lemma lag_sum_lin c (f : A -> series) t : lag_sum c (fun t => qsum (map (fun i => lam i * f i t)%Qc L)) t = qsum (map (fun i => lam i * lag_sum c (f i) t)%Qc L).
Proof using.
  revert t. induction c as [|x c IH]; intros t; cbn [lag_sum]; [symmetry; apply qsum_map0; intros; ring|]. rewrite IH, <- qsum_map_mul, <- qsum_map_add. f_equal. apply map_ext. intros i. ring.
Qed.
Lemma lag_terms_lin g a lags (v : A -> Z -> Z -> Qc) : forall s, lag_terms g a s lags (fun b l => qsum (map (fun i => lam i * v i b l)%Qc L)) = qsum (map (fun i => lam i * lag_terms g a s lags (v i))%Qc L).
Proof using.
  induction lags as [|l t IH]; intros s; cbn [lag_terms]; [symmetry; apply qsum_map0; intros; ring|]. rewrite IH.
  transitivity (qsum (map (fun i => lam i * qsum (map (fun b => a (s + b)%Z * v i b l) (upto g)))%Qc L) + qsum (map (fun i => (lam i * lag_terms g a (s + g) t (v i))%Qc) L))%Qc.
  - f_equal. transitivity (qsum (map (fun b => qsum (map (fun i => lam i * (a (s + b)%Z * v i b l))%Qc L)) (upto g))).
    + f_equal. apply map_ext. intros b. rewrite <- qsum_map_mul. f_equal. apply map_ext. intros i. ring.
    + rewrite sum_of_sums. f_equal. apply map_ext. intros i. rewrite qsum_map_mul. reflexivity.
  - rewrite <- qsum_map_add. f_equal. apply map_ext. intros i. ring.
Qed.
Lemma equation_lin g nx ar ma a (w e : A -> Z -> series) t :
  varma_equation g nx ar ma a (fun b t => qsum (map (fun i => lam i * w i b t)%Qc L)) (fun _ _ => 0%Qc) (fun b t => qsum (map (fun i => lam i * e i b t)%Qc L)) t =
  qsum (map (fun i => lam i * varma_equation g nx ar ma a (w i) (fun _ _ => 0%Qc) (e i) t)%Qc L).
Proof using.
  unfold varma_equation. cbv zeta. rewrite (lag_terms_lin g a ar (fun i b l => w i b (t - l))), (lag_terms_lin g a ma (fun i b l => e i b (t - l))).
  rewrite (qsum_map0 (fun c => (a (Z.of_nat (length ar) * g + c)%Z * 0)%Qc)) by (intros; ring). rewrite Qcplus_0_r, <- qsum_map_add. f_equal. apply map_ext. intros i. ring.
Qed.
End Lin.
Lemma lag_sum_shift c f s t : lag_sum c (fun t => f (t - s)) t = lag_sum c f (t - s).
Proof. revert t. induction c as [|x c IH]; intros t; cbn [lag_sum]; [reflexivity|]. rewrite IH. replace (t - 1 - s) with (t - s - 1) by lia. reflexivity. Qed.
Lemma equation_shift g nx ar ma a w e s t : varma_equation g nx ar ma a (fun b t => w b (t - s)) (fun _ _ => 0%Qc) (fun b t => e b (t - s)) t = varma_equation g nx ar ma a w (fun _ _ => 0%Qc) e (t - s).
Proof. unfold varma_equation. f_equal; [f_equal|]; apply lag_terms_ext; intros b l _ _; f_equal; lia. Qed.
Lemma equation_diff g nx ar ma a w w' x e e' t : (varma_equation g nx ar ma a w x e t - varma_equation g nx ar ma a w' x e' t = varma_equation g nx ar ma a (fun b t => w b t - w' b t)%Qc (fun _ _ => 0%Qc) (fun b t => e b t - e' b t)%Qc t)%Qc.
Proof.
  unfold varma_equation. cbv zeta. rewrite (qsum_map0 (fun c => (a (Z.of_nat (length ar) * g + c)%Z * 0)%Qc)) by (intros; ring).
  assert (D : forall lags v v' s, (lag_terms g a s lags (fun b l => v b l - v' b l) = lag_terms g a s lags v - lag_terms g a s lags v')%Qc).
  { clear. induction lags as [|l r IH]; intros v v' s; cbn [lag_terms]; [ring|]. rewrite IH.
    assert (S : (qsum (map (fun b => a (s + b)%Z * (v b l - v' b l))%Qc (upto g)) = qsum (map (fun b => a (s + b)%Z * v b l)%Qc (upto g)) - qsum (map (fun b => a (s + b)%Z * v' b l)%Qc (upto g)))%Qc).
    { replace (qsum (map (fun b => a (s + b)%Z * v b l)%Qc (upto g)) - qsum (map (fun b => a (s + b)%Z * v' b l)%Qc (upto g)))%Qc with (qsum (map (fun b => a (s + b)%Z * v b l)%Qc (upto g)) + - (1) * qsum (map (fun b => a (s + b)%Z * v' b l)%Qc (upto g)))%Qc by ring.
      rewrite <- qsum_map_mul, <- qsum_map_add. f_equal. apply map_ext. intros b. ring. }
    rewrite S. ring. }
  rewrite (D ar (fun b l => w b (t - l)) (fun b l => w' b (t - l))), (D ma (fun b l => e b (t - l)) (fun b l => e' b (t - l))). ring.
Qed.
Lemma lag_sum_diff c f f' t : (lag_sum c (fun t => f t - f' t) t = lag_sum c f t - lag_sum c f' t)%Qc.
Proof. revert t. induction c as [|x c IH]; intros t; cbn [lag_sum]; [ring|]. rewrite IH. ring. Qed.

(** The responses satisfy the equation before time 0, too. *)
Lemma responses_all g nx ar ma c a n psi : ascending 0 ar -> ascending 0 ma -> responses g nx ar ma (lag_sum c) a n psi ->
  forall t i b, t < n -> 0 <= i < g -> 0 <= b < g -> lag_sum c (fun s => psi s i b) t = (varma_equation g nx ar ma (a i) (fun j => lag_sum c (fun s => psi s j b)) (fun _ _ => 0) (impulse b) t + impulse b i t)%Qc.
Proof.
  intros A1 A2 (Z0 & H) t i b Ht Hi Hb. destruct (Z.lt_ge_cases t 0) as [Neg|Pos]; [|apply (H t i b); lia].
  assert (ZL : forall j s, s < 0 -> lag_sum c (fun s => psi s j b) s = 0%Qc) by (intros j s Hs; apply lag_sum_neg; auto).
  assert (ZT : forall k v s lags, (forall x l, In l lags -> v x l = 0%Qc) -> lag_terms g k s lags v = 0%Qc).
  { clear. intros k v s lags. revert s. induction lags as [|l r IH]; intros s Hv; cbn [lag_terms]; [reflexivity|]. rewrite IH by (intros; apply Hv; right; auto). rewrite qsum_map0; [ring|]. intros x _. rewrite Hv by (left; auto). ring. }
  rewrite ZL by exact Neg. unfold varma_equation. rewrite !ZT.
  - rewrite qsum_map0 by (intros; ring). unfold impulse. replace (t =? 0) with false by lia. rewrite andb_false_r. ring.
  - intros x l Hl. pose proof (ascending_all 0 ma A2 l Hl). unfold impulse. replace (t - l =? 0) with false by lia. rewrite andb_false_r. reflexivity.
  - intros x l Hl. pose proof (ascending_all 0 ar A1 l Hl). apply ZL. lia.
Qed.
(** ** The error of a forecast *)
Lemma sumn_rev f : forall k, sumn (fun s => f (k - 1 - s)%nat) k = sumn f k.
Proof.
  induction k as [|k IH]; [reflexivity|]. rewrite sumn_front, sumn_S, <- IH. replace (S k - 1 - 0)%nat with k by lia. rewrite Qcplus_comm. f_equal. apply sumn_ext. intros i Hi. f_equal. lia.
Qed.
Lemma forecast_error_ok g nx ar ma c a n psi t0 y f x e : ascending 0 ar -> ascending 0 ma -> hd_error c = Some 1%Qc -> responses g nx ar ma (lag_sum c) a n psi ->
  (forall i t, 0 <= i < g -> t <= t0 -> f i t = y i t) ->
  follows g nx ar ma (lag_sum c) a t0 n y x e -> follows g nx ar ma (lag_sum c) a t0 n f x (fun b t => if t <=? t0 then e b t else 0%Qc) ->
  forall i h, 0 <= i < g -> 1 <= h <= n -> (y i (t0 + h)%Z - f i (t0 + h)%Z = forecast_error g psi e t0 i h)%Qc.
Proof.
  intros A1 A2 HC R HP FY FF. set (E := fun b t => if t <=? t0 then 0%Qc else e b t).
  set (L := list_prod (upto n) (upto g)). set (lam := fun sb : Z * Z => E (snd sb) (t0 + 1 + fst sb)).
  set (D := fun i t => qsum (map (fun sb => lam sb * psi (t - (t0 + 1 + fst sb))%Z i (snd sb))%Qc L)).
  destruct (R) as (Z0 & _).
  assert (D1 : follows g nx ar ma (lag_sum c) a t0 n (fun i t => y i t - f i t)%Qc (fun _ _ => 0%Qc) E).
  { intros t i Ht Hi. rewrite (lag_sum_diff c (y i) (f i)). rewrite (FY t i Ht Hi), (FF t i Ht Hi).
    transitivity ((varma_equation g nx ar ma (a i) (fun j => lag_sum c (y j)) x e t - varma_equation g nx ar ma (a i) (fun j => lag_sum c (f j)) x (fun b t => if (t <=? t0)%Z then e b t else 0) t) + (e i t - (if (t <=? t0)%Z then e i t else 0)))%Qc; [ring|].
    rewrite equation_diff. f_equal.
    - unfold varma_equation. f_equal; [f_equal|]; apply lag_terms_ext; intros b l _ _.
      + symmetry. apply lag_sum_diff.
      + unfold E. destruct (t - l <=? t0); ring.
    - unfold E. destruct (t <=? t0); ring. }
  assert (EI : forall b t, 0 <= b < g -> t <= t0 + n -> E b t = qsum (map (fun sb => lam sb * impulse (snd sb) b (t - (t0 + 1 + fst sb))%Z)%Qc L)).
  { intros b t Hb Ht. unfold L. assert (P : forall F : Z -> Z -> Qc, qsum (map (fun sb => F (fst sb) (snd sb)) (list_prod (upto n) (upto g))) = qsum (map (fun s => qsum (map (F s) (upto g))) (upto n))).
    { clear. intros F. induction (upto n) as [|s l IH]; [reflexivity|]. cbn [list_prod map]. rewrite map_app, qsum_app, IH, map_map. reflexivity. }
    unfold lam. rewrite (P (fun s b' => E b' (t0 + 1 + s)%Z * impulse b' b (t - (t0 + 1 + s))%Z)%Qc).
    transitivity (qsum (map (fun s => if s =? t - t0 - 1 then E b (t0 + 1 + s) else 0%Qc) (upto n))).
    - destruct (Z.le_gt_cases t t0) as [H|H].
      + unfold E. replace (t <=? t0) with true by lia. symmetry. apply qsum_map0. intros s Hs. apply in_upto' in Hs. replace (s =? t - t0 - 1) with false by lia. reflexivity.
      + rewrite (pick n (fun s => E b (t0 + 1 + s)) (t - t0 - 1)) by lia. f_equal. lia.
    - f_equal. apply map_ext_in. intros s Hs. unfold impulse. cbn [fst snd]. destruct (Z.eqb_spec s (t - t0 - 1)) as [->|Ne].
      + transitivity (qsum (map (fun b' => if b' =? b then E b' (t0 + 1 + (t - t0 - 1)) else 0%Qc) (upto g))); [symmetry; apply (pick g (fun b' => E b' (t0 + 1 + (t - t0 - 1))) b Hb)|]. f_equal. apply map_ext. intros b'.
        replace (t - (t0 + 1 + (t - t0 - 1)) =? 0) with true by lia. rewrite andb_true_r, (Z.eqb_sym b b'). destruct (b' =? b); ring.
      + symmetry. apply qsum_map0. intros b' _. replace (t - (t0 + 1 + s) =? 0) with false by lia. rewrite andb_false_r. ring. }
  assert (D2 : follows g nx ar ma (lag_sum c) a t0 n D (fun _ _ => 0%Qc) E).
  { intros t i Ht Hi. unfold D. rewrite (lag_sum_lin L lam c (fun sb t => psi (t - (t0 + 1 + fst sb)) i (snd sb)) t).
    transitivity (qsum (map (fun sb => lam sb * (varma_equation g nx ar ma (a i) (fun j t => lag_sum c (fun s => psi s j (snd sb)) (t - (t0 + 1 + fst sb))%Z) (fun _ _ => 0) (fun b t => impulse (snd sb) b (t - (t0 + 1 + fst sb))%Z) t + impulse (snd sb) i (t - (t0 + 1 + fst sb))%Z))%Qc L)).
    - f_equal. apply map_ext_in. intros [s b] Hsb. apply in_prod_iff in Hsb. rewrite !in_upto' in Hsb. cbn [fst snd]. f_equal.
      rewrite (lag_sum_shift c (fun s0 => psi s0 i b)). rewrite (equation_shift g nx ar ma (a i) (fun j => lag_sum c (fun s => psi s j b)) (impulse b)). apply (responses_all g nx ar ma c a n psi A1 A2 R); lia.
    - transitivity (qsum (map (fun sb => lam sb * varma_equation g nx ar ma (a i) (fun j t => lag_sum c (fun s => psi s j (snd sb)) (t - (t0 + 1 + fst sb))%Z) (fun _ _ => 0) (fun b t => impulse (snd sb) b (t - (t0 + 1 + fst sb))%Z) t)%Qc L) + qsum (map (fun sb => lam sb * impulse (snd sb) i (t - (t0 + 1 + fst sb))%Z)%Qc L))%Qc.
      + rewrite <- qsum_map_add. f_equal. apply map_ext. intros. ring.
      + rewrite <- (EI i t Hi) by lia. f_equal. rewrite <- (equation_lin L lam g nx ar ma (a i) (fun sb j t => lag_sum c (fun s => psi s j (snd sb)) (t - (t0 + 1 + fst sb))) (fun sb b t => impulse (snd sb) b (t - (t0 + 1 + fst sb)))).
        unfold varma_equation. f_equal; [f_equal|]; apply lag_terms_ext; intros b l Hb Hl.
        * rewrite (lag_sum_lin L lam c (fun sb t => psi (t - (t0 + 1 + fst sb)) b (snd sb))). f_equal. apply map_ext. intros sb. f_equal. symmetry. apply (lag_sum_shift c (fun s0 => psi s0 b (snd sb))).
        * symmetry. apply EI; [exact Hb|]. pose proof (ascending_all 0 ma A2 l Hl). lia. }
  assert (DD : forall i t, 0 <= i < g -> t <= t0 + n -> (y i t - f i t = D i t)%Qc).
  { apply (follows_unique g nx ar ma c a t0 n (fun i t => y i t - f i t)%Qc D (fun _ _ => 0%Qc) E A1 HC); [|exact D1|exact D2]. intros i t Hi Ht. rewrite HP by auto. unfold D. rewrite qsum_map0; [ring|]. intros [s b] Hsb. apply in_prod_iff in Hsb. rewrite !in_upto' in Hsb. cbn [fst snd]. rewrite Z0 by lia. ring. }
  intros i h Hi Hh. rewrite DD by lia. unfold D, forecast_error, L.
  assert (P : forall F : Z -> Z -> Qc, qsum (map (fun sb => F (fst sb) (snd sb)) (list_prod (upto n) (upto g))) = qsum (map (fun s => qsum (map (F s) (upto g))) (upto n))).
  { clear. intros F. induction (upto n) as [|s l IH]; [reflexivity|]. cbn [list_prod map]. rewrite map_app, qsum_app, IH, map_map. reflexivity. }
  unfold lam. rewrite (P (fun s b => E b (t0 + 1 + s)%Z * psi (t0 + h - (t0 + 1 + s))%Z i b)%Qc).
  rewrite (upto_sumn n), (upto_sumn h) by lia. rewrite (sumn_beyond _ (Z.to_nat h)); [|lia|].
  - set (k := Z.to_nat h). rewrite <- (sumn_rev _ k). apply sumn_ext. intros s Hs. f_equal. apply map_ext. intros b. unfold E. replace (t0 + 1 + Z.of_nat (k - 1 - s) <=? t0) with false by lia. replace (t0 + h - (t0 + 1 + Z.of_nat (k - 1 - s))) with (Z.of_nat s) by lia. replace (t0 + 1 + Z.of_nat (k - 1 - s)) with (t0 + h - Z.of_nat s) by lia. ring.
  - intros s Hs. apply qsum_map0. intros b _. rewrite Z0 by lia. ring.
Qed.
