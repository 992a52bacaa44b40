(** Products of matrix series and the equations of a VARMA model: proofs. *)
From Verif Require Import MPolyModel MPolySpec MatProofs MatProofs2 MatDotProofs SplitProofs SplitProofs4 MatProofs4 MatProofs6 PolyProofs PolyProofs2 MPolyProofs MPolyProofs2 ArmaSpec.
From Coq Require Import Lia ZifyBool.
Local Open Scope Z_scope.

(** ** Products of series *)
Lemma sumn_triangle (f : nat -> nat -> Qc) : forall k, sumn (fun p => sumn (f p) (S (k - p))) (S k) = sumn (fun r => sumn (fun p => f p (r - p)%nat) (S r)) (S k).
Proof.
  induction k as [|k IH]; [reflexivity|]. rewrite (sumn_S _ (S k)), (sumn_S (fun r => sumn _ (S r)) (S k)), <- IH.
  rewrite (sumn_ext (fun p => sumn (f p) (S (S k - p))) (fun p => (sumn (f p) (S (k - p)) + f p (S k - p)%nat)%Qc) (S k)).
  2:{ intros p Hp. replace (S k - p)%nat with (S (k - p)) by lia. rewrite sumn_S. reflexivity. }
  rewrite sumn_add, (sumn_S (fun p => f p (S k - p)%nat) (S k)). replace (S k - S k)%nat with 0%nat by lia. rewrite (sumn_S (f (S k)) 0), sumn_0. ring.
Qed.
Lemma product_sumn_l m (f : nat -> fn) n b i j : product (Z.of_nat m) (fun r c => sumn (fun p => f p r c) n) b i j = sumn (fun p => product (Z.of_nat m) (f p) b i j) n.
Proof.
  rewrite product_sumn. transitivity (sumn (fun l => sumn (fun p => f p i (Z.of_nat l) * b (Z.of_nat l) j)%Qc n) m).
  - apply sumn_ext. intros l _. rewrite Qcmult_comm, <- sumn_mul. apply sumn_ext. intros. ring.
  - rewrite sumn_swap. apply sumn_ext. intros p _. rewrite product_sumn. reflexivity.
Qed.
Lemma product_sumn_r m a (f : nat -> fn) n i j : product (Z.of_nat m) a (fun r c => sumn (fun p => f p r c) n) i j = sumn (fun p => product (Z.of_nat m) a (f p) i j) n.
Proof. unfold sumn at 1. rewrite (product_sum_r m a f (seq 0 n)). reflexivity. Qed.
Lemma product_scal_l m (x : Qc) a b i j : product (Z.of_nat m) (fun r c => (a r c * x)%Qc) b i j = (x * product (Z.of_nat m) a b i j)%Qc.
Proof. rewrite !product_sumn, <- sumn_mul. apply sumn_ext. intros. ring. Qed.
Lemma product_scal_r m (x : Qc) a b i j : product (Z.of_nat m) a (fun r c => (x * b r c)%Qc) i j = (x * product (Z.of_nat m) a b i j)%Qc.
Proof. rewrite !product_sumn, <- sumn_mul. apply sumn_ext. intros. ring. Qed.
Lemma mconv_sumn m a b k i j : mconv m a b k i j = sumn (fun p => product (Z.of_nat m) (a p) (b (k - p)%nat) i j) (S k).
Proof. reflexivity. Qed.
Lemma mconv_ext m a a' b b' k : (forall p, (p <= k)%nat -> same m (a p) (a' p)) -> (forall p, (p <= k)%nat -> same m (b p) (b' p)) -> same m (mconv m a b k) (mconv m a' b' k).
Proof. intros HA HB i j W. rewrite !mconv_sumn. apply sumn_ext. intros p Hp. apply product_ext; [apply HA; lia|apply HB; lia|exact W]. Qed.
Lemma mconv_assoc m a b c k i j : mconv m (mconv m a b) c k i j = mconv m a (mconv m b c) k i j.
Proof.
  rewrite !mconv_sumn.
  transitivity (sumn (fun p => sumn (fun q => product (Z.of_nat m) (a p) (product (Z.of_nat m) (b q) (c (k - p - q)%nat)) i j) (S (k - p))) (S k)).
  - rewrite (sumn_triangle (fun p q => product (Z.of_nat m) (a p) (product (Z.of_nat m) (b q) (c (k - p - q)%nat)) i j)). apply sumn_ext. intros r Hr.
    change (mconv m a b r) with (fun i j => sumn (fun p => product (Z.of_nat m) (a p) (b (r - p)%nat) i j) (S r)). rewrite product_sumn_l. apply sumn_ext. intros p Hp.
    rewrite product_assoc. replace (k - p - (r - p))%nat with (k - r)%nat by lia. reflexivity.
  - apply sumn_ext. intros p Hp. symmetry. change (mconv m b c (k - p)) with (fun i j => sumn (fun q => product (Z.of_nat m) (b q) (c (k - p - q)%nat) i j) (S (k - p))). apply product_sumn_r.
Qed.
(** The series times a scalar series. *)
Definition filtered (d : nat -> Qc) (y : nat -> fn) (k : nat) (i j : Z) : Qc := sumn (fun q => d q * y (k - q)%nat i j)%Qc (S k).
Lemma mconv_scalar m a d y k i j : mconv m (sconv a d) y k i j = mconv m a (filtered d y) k i j.
Proof.
  rewrite !mconv_sumn. transitivity (sumn (fun p => sumn (fun q => d q * product (Z.of_nat m) (a p) (y (k - p - q)%nat) i j)%Qc (S (k - p))) (S k)).
  - rewrite (sumn_triangle (fun p q => d q * product (Z.of_nat m) (a p) (y (k - p - q)%nat) i j)%Qc). apply sumn_ext. intros r Hr.
    change (sconv a d r) with (fun i j => sumn (fun p => (a p i j * d (r - p)%nat)%Qc) (S r)). rewrite (product_sumn_l m (fun p i j => (a p i j * d (r - p)%nat)%Qc)). apply sumn_ext. intros p Hp.
    rewrite product_scal_l. replace (k - p - (r - p))%nat with (k - r)%nat by lia. reflexivity.
  - apply sumn_ext. intros p Hp. unfold filtered. rewrite (product_sumn_r m (a p) (fun q r c => (d q * y (k - p - q)%nat r c)%Qc)). apply sumn_ext. intros q Hq. rewrite product_scal_r. reflexivity.
Qed.

(** ** Lags in order *)
Definition isin (lags : list Z) (k : Z) : bool := existsb (Z.eqb k) lags.
(** The number of lags below k: the position of lag k. *)
Definition rank (lags : list Z) (k : Z) : Z := Z.of_nat (length (filter (fun l => l <? k) lags)).
Lemma ascending_all l0 lags : ascending l0 lags -> forall l, In l lags -> l0 < l.
Proof.
  revert l0. induction lags as [|l1 t IH]; intros l0; cbn; [intros _ l []|]. intros [H A] l [<-|I]; [exact H|]. specialize (IH l1 A l I). lia.
Qed.
Lemma isin_spec lags k : isin lags k = true <-> In k lags.
Proof. unfold isin. rewrite existsb_exists. split; [intros (x & H & E); apply Z.eqb_eq in E; congruence|intros H; exists k; split; [exact H|apply Z.eqb_refl]]. Qed.
Lemma rank_next lags l0 k : ascending l0 lags -> rank lags (k + 1) = rank lags k + (if isin lags k then 1 else 0).
Proof.
  revert l0. induction lags as [|l1 t IH]; intros l0 A; [reflexivity|]. cbn in A. destruct A as [_ A]. specialize (IH l1 A). unfold rank, isin in *. cbn [filter existsb].
  pose proof (ascending_all l1 t A) as G. destruct (Z.eqb_spec k l1) as [->|N]; cbn [orb].
  - replace (l1 <? l1 + 1) with true by lia. replace (l1 <? l1) with false by lia. cbn [length]. destruct (existsb (Z.eqb l1) t) eqn:E; [|lia].
    apply isin_spec in E. specialize (G l1 E). lia.
  - destruct (l1 <? k + 1) eqn:E1, (l1 <? k) eqn:E2; try lia; cbn [length]; lia.
Qed.
Lemma rank_0 lags l0 k : ascending l0 lags -> k <= l0 + 1 -> rank lags k = 0.
Proof.
  intros A H. unfold rank. replace (filter (fun l => l <? k) lags) with (@nil Z); [reflexivity|]. symmetry. pose proof (ascending_all l0 lags A) as G. clear A.
  induction lags as [|l t IH]; [reflexivity|]. cbn. specialize (G l (or_introl eq_refl)) as G1. replace (l <? k) with false by lia. apply IH. intros l' Hl'. apply G. right. exact Hl'.
Qed.
Lemma rank_bound lags k : 0 <= rank lags k <= Z.of_nat (length lags).
Proof. unfold rank. induction lags as [|l t IH]; cbn; [lia|]. destruct (l <? k); cbn [length]; lia. Qed.
Lemma rank_in lags l0 k : ascending l0 lags -> In k lags -> rank lags k + 1 <= Z.of_nat (length lags).
Proof.
  intros A H. pose proof (rank_next lags l0 k A) as E. apply isin_spec in H. rewrite H in E. pose proof (rank_bound lags (k + 1)). lia.
Qed.
(** The terms of one lag. *)
Definition lag_term (g : Z) (a : Z -> Qc) (s : Z) (v : Z -> Z -> Qc) (r l : Z) : Qc := qsum (map (fun b => a (s + g * r + b)%Z * v b l)%Qc (upto g)).
Lemma lag_terms_sum g a v : forall len l0 lags s, ascending l0 lags -> (forall l, In l lags -> l <= l0 + Z.of_nat len) ->
  lag_terms g a s lags v = sumn (fun p => let l := (l0 + 1 + Z.of_nat p)%Z in if isin lags l then lag_term g a s v (rank lags l) l else 0%Qc) len.
Proof.
  induction len as [|len IH]; intros l0 lags s A B.
  - destruct lags as [|l t]; [reflexivity|]. exfalso. pose proof (ascending_all l0 _ A l (or_introl eq_refl)). specialize (B l (or_introl eq_refl)). lia.
  - rewrite sumn_front. cbv zeta. change (Z.of_nat 0) with 0. rewrite Z.add_0_r. destruct lags as [|l t].
    + cbn [lag_terms isin existsb]. rewrite sumn_zero; [ring|]. reflexivity.
    + destruct (Z.eq_dec l (l0 + 1)) as [->|N].
      * cbn in A. destruct A as [_ A]. cbn [lag_terms]. unfold isin at 1. cbn [existsb]. rewrite Z.eqb_refl. cbn [orb].
        assert (R1 : rank ((l0 + 1) :: t) (l0 + 1) = 0). { apply (rank_0 _ l0); [cbn; split; [lia|exact A]|lia]. } rewrite R1. unfold lag_term at 1. replace (g * 0) with 0 by lia. rewrite Z.add_0_r.
        rewrite (IH (l0 + 1) t (s + g) A) by (intros l Hl; specialize (B l (or_intror Hl)); lia). apply (f_equal (fun x => (_ + x)%Qc)). apply sumn_ext. intros p Hp. cbv zeta. replace (l0 + 1 + 1 + Z.of_nat p) with (l0 + 1 + Z.of_nat (S p)) by lia.
        set (l := l0 + 1 + Z.of_nat (S p)). unfold isin. cbn [existsb]. replace (l =? l0 + 1) with false by lia. cbn [orb]. destruct (existsb _ t); [|reflexivity].
        assert (R2 : rank ((l0 + 1) :: t) l = rank t l + 1). { unfold rank. cbn [filter]. replace (l0 + 1 <? l) with true by lia. cbn [length]. lia. } rewrite R2. unfold lag_term. f_equal. apply map_ext. intros b. f_equal. f_equal. lia.
      * cbn in A. destruct A as [L A]. rewrite (IH (l0 + 1) (l :: t) s) by (try (cbn; split; [lia|exact A]); intros l' Hl'; specialize (B l' Hl'); lia).
        replace (isin (l :: t) (l0 + 1)) with false.
        2:{ symmetry. apply not_true_iff_false. intros E. apply isin_spec in E. destruct E as [E|E]; [lia|]. pose proof (ascending_all l t A _ E). lia. }
        rewrite Qcplus_0_l. apply sumn_ext. intros p Hp. cbv zeta. replace (l0 + 1 + 1 + Z.of_nat p) with (l0 + 1 + Z.of_nat (S p)) by lia. reflexivity.
Qed.

(** ** The filter of a series that is zero before time 0 *)
Lemma lag_sum_neg c f t : (forall s, s < 0 -> f s = 0%Qc) -> t < 0 -> lag_sum c f t = 0%Qc.
Proof. intros F. revert t. induction c as [|x c IH]; intros t H; cbn; [reflexivity|]. rewrite F, IH by lia. ring. Qed.
Lemma lag_sum_conv c f : (forall s, s < 0 -> f s = 0%Qc) -> forall k, lag_sum c f (Z.of_nat k) = sumn (fun q => coef c q * f (Z.of_nat (k - q)))%Qc (S k).
Proof.
  intros F. induction c as [|x c IH]; intros k; cbn [lag_sum].
  - symmetry. apply sumn_zero. intros i _. unfold coef. destruct i; cbn; ring.
  - rewrite sumn_front. rewrite Nat.sub_0_r. change (coef (x :: c) 0) with x. f_equal. destruct k as [|k].
    + rewrite lag_sum_neg by (auto; lia). reflexivity.
    + replace (Z.of_nat (S k) - 1) with (Z.of_nat k) by lia. rewrite IH. apply sumn_ext. intros q _. reflexivity.
Qed.

(** ** The equations *)
(** Coefficient k of the AR polynomial (sgn = -1) or the MA polynomial (sgn = 1); the coefficients in the equations start at s. *)
Definition poly_coef (sgn : Qc) (g : Z) (lags : list Z) (a : Z -> Z -> Qc) (s : Z) (k : nat) (i j : Z) : Qc :=
  match k with
  | O => iden i j
  | _ => if isin lags (Z.of_nat k) then (sgn * a i (s + g * rank lags (Z.of_nat k) + j)%Z)%Qc else 0%Qc
  end.
Lemma iden_impulse b a : iden a b = impulse b a 0.
Proof. unfold iden, impulse. rewrite Z.eqb_refl, andb_true_r. reflexivity. Qed.
Lemma qsum_map0 {A} (f : A -> Qc) l : (forall a, In a l -> f a = 0%Qc) -> qsum (map f l) = 0%Qc.
Proof. induction l as [|a l IH]; intros H; [reflexivity|]. cbn [map]. change (qsum (?x :: ?l)) with (x + qsum l)%Qc. rewrite IH by (intros; apply H; right; auto). rewrite H by (left; auto). ring. Qed.
Lemma upto_sumn g (f : Z -> Qc) : 0 <= g -> qsum (map f (upto g)) = sumn (fun l => f (Z.of_nat l)) (Z.to_nat g).
Proof. intros _. unfold upto, sumn. rewrite map_map. reflexivity. Qed.
Lemma pick g (f : Z -> Qc) b : 0 <= b < g -> qsum (map (fun l => if l =? b then f l else 0%Qc) (upto g)) = f b.
Proof.
  intros H. rewrite upto_sumn by lia. rewrite (sumn_ext _ (fun l => if (l =? Z.to_nat b)%nat then f (Z.of_nat l) else 0%Qc)) by (intros l _; destruct (Z.eqb_spec (Z.of_nat l) b), (Nat.eqb_spec l (Z.to_nat b)); try lia; reflexivity).
  rewrite (sumn_single (fun l => f (Z.of_nat l))). replace (Z.to_nat b <? Z.to_nat g)%nat with true by lia. rewrite Z2Nat.id by lia. reflexivity.
Qed.
Definition zseries (psi : nat -> fn) (t a b : Z) : Qc := if t <? 0 then 0%Qc else psi (Z.to_nat t) a b.
Lemma all_below lags : exists N : nat, forall l, In l lags -> l <= Z.of_nat N.
Proof. induction lags as [|l t [N H]]; [exists 0%nat; intros l []|]. exists (Nat.max N (Z.to_nat l)). intros l' [<-|I]; [lia|]. specialize (H l' I). lia. Qed.
(** If AR(L) c(L) psi(L) = MA(L) for the first n coefficients, then psi are the responses. *)
Lemma responses_ok g nx ar ma c a (psi : nat -> fn) n : 1 <= g -> 0 <= nx -> ascending 0 ar -> ascending 0 ma ->
  (forall k, (k < n)%nat -> same (Z.to_nat g) (mconv (Z.to_nat g) (poly_coef (- (1)) g ar a 0) (filtered (coef c) psi) k) (poly_coef 1 g ma a (Z.of_nat (length ar) * g + nx) k)) ->
  responses g nx ar ma (lag_sum c) a (Z.of_nat n) (zseries psi).
Proof.
  intros G NX A1 A2 H. split; [intros t i b Ht; unfold zseries; replace (t <? 0) with true by lia; reflexivity|].
  intros t i b Ht Hi Hb w. assert (E : exists k, t = Z.of_nat k) by (exists (Z.to_nat t); lia). destruct E as [k ->]. assert (Hk : (k < n)%nat) by lia. set (m := Z.to_nat g) in *.
  assert (Gm : Z.of_nat m = g) by lia. assert (Win : within m i b) by (split; lia).
  assert (Zn : forall l s, s < 0 -> zseries psi s l b = 0%Qc) by (intros l s Hs; unfold zseries; replace (s <? 0) with true by lia; reflexivity).
  assert (Wk : forall k' l, w l (Z.of_nat k') = filtered (coef c) psi k' l b).
  { intros k' l. unfold w. rewrite (lag_sum_conv c _ (Zn l)). unfold filtered. apply sumn_ext. intros q Hq. unfold zseries. replace (Z.of_nat (k' - q) <? 0) with false by lia. rewrite Nat2Z.id. reflexivity. }
  assert (Wn : forall l s, s < 0 -> w l s = 0%Qc) by (intros l s Hs; apply lag_sum_neg; auto).
  specialize (H k Hk i b Win). rewrite mconv_sumn, sumn_front in H. cbn [poly_coef] in H. rewrite Nat.sub_0_r, product_iden_l in H by exact Win.
  unfold varma_equation. set (n0 := (Z.of_nat (length ar) * g)%Z) in *.
  rewrite (qsum_map0 (fun c0 : Z => (a i (n0 + c0)%Z * 0)%Qc)) by (intros; ring).
  assert (AR : lag_terms g (a i) 0 ar (fun b0 l => w b0 (Z.of_nat k - l)%Z) = (- sumn (fun p => product (Z.of_nat m) (poly_coef (- (1)) g ar a 0 (S p)) (filtered (coef c) psi (k - S p)) i b) k)%Qc).
  { destruct (all_below ar) as [N HN]. rewrite (lag_terms_sum g (a i) _ (N + k) 0 ar 0 A1) by (intros l Hl; specialize (HN l Hl); lia). rewrite (sumn_beyond _ k); [|lia|].
    - replace (- sumn _ k)%Qc with (- (1) * sumn (fun p => product (Z.of_nat m) (poly_coef (- (1)) g ar a 0 (S p)) (filtered (coef c) psi (k - S p)) i b) k)%Qc by ring. rewrite <- sumn_mul. apply sumn_ext. intros p Hp. cbv zeta.
      replace (0 + 1 + Z.of_nat p) with (Z.of_nat (S p)) by lia. unfold product. cbn [poly_coef]. rewrite <- qsum_map_mul. destruct (isin ar (Z.of_nat (S p))).
      + unfold lag_term. rewrite Gm. f_equal. apply map_ext. intros l. replace (Z.of_nat k - Z.of_nat (S p)) with (Z.of_nat (k - S p)) by lia. rewrite Wk. ring.
      + symmetry. apply qsum_map0. intros. ring.
    - intros p Hp. cbv zeta. destruct (isin ar _); [|reflexivity]. unfold lag_term. apply qsum_map0. intros l _. rewrite Wn by lia. ring. }
  assert (MA : lag_terms g (a i) (n0 + nx) ma (fun b0 l => impulse b b0 (Z.of_nat k - l)%Z) = match k with O => 0%Qc | _ => poly_coef 1 g ma a (n0 + nx) k i b end).
  { destruct (all_below ma) as [N HN]. rewrite (lag_terms_sum g (a i) _ (N + k) 0 ma (n0 + nx) A2) by (intros l Hl; specialize (HN l Hl); lia).
    rewrite (sumn_ext _ (fun p => if (p =? k - 1)%nat then match k with O => 0%Qc | _ => poly_coef 1 g ma a (n0 + nx) k i b end else 0%Qc)).
    - rewrite (sumn_single (fun _ => match k with O => 0%Qc | _ => poly_coef 1 g ma a (n0 + nx) k i b end)). destruct k as [|k]; [destruct (_ <? _)%nat; reflexivity|]. replace (S k - 1 <? N + S k)%nat with true by lia. reflexivity.
    - intros p Hp. cbv zeta. replace (0 + 1 + Z.of_nat p) with (Z.of_nat (S p)) by lia. destruct (Nat.eqb_spec p (k - 1)) as [->|Np].
      + destruct k as [|k].
        * destruct (isin ma _); [|reflexivity]. unfold lag_term. apply qsum_map0. intros l _. unfold impulse. replace (Z.of_nat 0 - Z.of_nat (S (0 - 1)) =? 0) with false by lia. rewrite andb_false_r. ring.
        * replace (S (S k - 1)) with (S k) by lia. cbn [poly_coef]. destruct (isin ma (Z.of_nat (S k))); [|reflexivity]. unfold lag_term.
          rewrite (map_ext _ (fun l => if l =? b then a i (n0 + nx + g * rank ma (Z.of_nat (S k)) + l)%Z else 0%Qc)).
          2:{ intros l. unfold impulse. rewrite Z.sub_diag, Z.eqb_refl, andb_true_r. destruct (l =? b); ring. }
          rewrite (pick g (fun l => a i (n0 + nx + g * rank ma (Z.of_nat (S k)) + l)%Z)) by exact Hb. ring.
      + destruct (isin ma _); [|reflexivity]. unfold lag_term. apply qsum_map0. intros l _. unfold impulse. replace (Z.of_nat k - Z.of_nat (S p) =? 0) with false by lia. rewrite andb_false_r. ring. }
  rewrite AR, MA, Wk. apply (f_equal (fun x => (x - sumn (fun p => product (Z.of_nat m) (poly_coef (- (1)) g ar a 0 (S p)) (filtered (coef c) psi (k - S p)) i b) k)%Qc)) in H. ring_simplify in H.
  assert (I0 : (match k with O => 0 | _ => poly_coef 1 g ma a (n0 + nx) k i b end + impulse b i (Z.of_nat k) = poly_coef 1 g ma a (n0 + nx) k i b)%Qc).
  { destruct k as [|k]; [cbn [poly_coef]; rewrite iden_impulse; change (Z.of_nat 0) with 0; ring|]. unfold impulse. replace (Z.of_nat (S k) =? 0) with false by lia. rewrite andb_false_r. ring. }
  rewrite <- I0 in H. etransitivity; [exact H|]. ring.
Qed.
