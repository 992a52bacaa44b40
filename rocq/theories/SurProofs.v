(** Sums over pairs, Kronecker products, and what the matrix operations leave. *)
From Verif Require Import SurModel StatSpec MatProofs MatProofs2 MatProofs5 MatDotProofs DataProofs LsProofs OlsProofs.
From Coq Require Import Lia ZifyBool.
Local Open Scope Z_scope.

(** ** Sums over pairs of indexes *)
Lemma upto_app a b : 0 <= a -> 0 <= b -> upto (a + b) = upto a ++ map (fun t => a + t) (upto b).
Proof.
  intros Ha Hb. unfold upto. rewrite Z2Nat.inj_add, seq_app, map_app by auto. f_equal. rewrite map_map. cbn [Nat.add].
  replace (seq (Z.to_nat a) (Z.to_nat b)) with (map (fun n => (Z.to_nat a + n)%nat) (seq 0 (Z.to_nat b))).
  - rewrite map_map. apply map_ext. intros n. lia.
  - generalize (Z.to_nat b) as n. induction n as [|n IH]; [reflexivity|]. rewrite !seq_S, map_app, IH. reflexivity.
Qed.
Lemma st_split (n : Z) (m : nat) f : 0 <= n -> sum_to (Z.of_nat m * n) f = sum_to (Z.of_nat m) (fun a => sum_to n (fun b => f (a * n + b))).
Proof.
  intros Hn. induction m as [|m IH].
  - replace (Z.of_nat 0 * n) with 0 by lia. reflexivity.
  - replace (Z.of_nat (S m) * n) with (Z.of_nat m * n + n) by lia. replace (Z.of_nat (S m)) with (Z.of_nat m + 1) by lia.
    unfold sum_to at 1 2. rewrite !upto_app, !map_app, !qsum_app, map_map by lia. fold (sum_to (Z.of_nat m * n) f). rewrite IH. unfold sum_to at 1. f_equal.
    rewrite !map_map. change (upto 1) with [0]. cbn [map]. unfold sum_to, qsum. cbn [fold_right]. rewrite Z.add_0_r, Qcplus_0_r. reflexivity.
Qed.
Lemma pair_div a b n : 0 <= b < n -> (a * n + b) / n = a /\ (a * n + b) mod n = b.
Proof. intros H. split. - rewrite Z.div_add_l by lia. rewrite Z.div_small by lia. lia. - rewrite Z.add_comm, Z.mod_add by lia. apply Z.mod_small. auto. Qed.

(** ** Matrices with known elements and length of the storage *)
Definition hl (n : nat) (r c : nat) (f : Z -> Z -> Qc) (M : mat Qc) : Prop := has r c f M /\ length (data M) = n.
Lemma hl_has n r c f M : hl n r c f M -> has r c f M. Proof. intros (H & _). auto. Qed.
Lemma hl_ok n r c f M : hl n r c f M -> mat_ok M. Proof. intros ((_ & _ & H & _) & _). auto. Qed.
Lemma hl_rows n r c f M : hl n r c f M -> nrows M = Z.of_nat r. Proof. intros ((<- & _) & _). reflexivity. Qed.
Lemma hl_cols n r c f M : hl n r c f M -> ncols M = Z.of_nat c. Proof. intros ((_ & <- & _) & _). reflexivity. Qed.
Lemma hl_el n r c f M i j : hl n r c f M -> 0 <= i < Z.of_nat r -> 0 <= j < Z.of_nat c -> el M i j = f i j.
Proof. intros ((_ & _ & _ & H) & _). auto. Qed.
Lemma hl_ext n r c f g M : (forall i j, 0 <= i < Z.of_nat r -> 0 <= j < Z.of_nat c -> f i j = g i j) -> hl n r c f M -> hl n r c g M.
Proof. intros E ((A & B & C & D) & L). split; auto. split; [auto|split; [auto|split; [auto|]]]. intros. rewrite <- E; auto. Qed.
Lemma becomes_hl (S S' : mat Qc) g f : mat_ok S -> becomes S g S' -> (forall i j, inside S i j -> g i j = Some (f i j)) -> hl (length (data S)) (rows S) (cols S) f S'.
Proof. intros W B G. split; [apply (becomes_has S S' g); auto|apply (bc_length _ _ _ B)]. Qed.
Lemma hl_self M : mat_ok M -> hl (length (data M)) (rows M) (cols M) (el M) M.
Proof. intros W. split; auto. split; [auto|split; [auto|split; auto]]. Qed.

Section Ops.
Context (r c p : nat) (f g : Z -> Z -> Qc) (nM nB : nat) (M B S : mat Qc).
Lemma dot_hl : hl nM r c f M -> hl nB c p g B -> mat_ok S -> rows S = r -> cols S = p -> (0 < r)%nat -> (0 < c)%nat ->
  exists S', dot M B S 1 0 = Ok S' /\ hl (length (data S)) r p (product (Z.of_nat c) f g) S'.
Proof.
  intros HM HB WS <- <- Pr Pc.
  destruct (dot_ok M B S 1 0 (hl_ok _ _ _ _ _ HM) (hl_ok _ _ _ _ _ HB) WS) as (S' & E & Bc); rewrite ?(hl_rows _ _ _ _ _ HM), ?(hl_cols _ _ _ _ _ HM), ?(hl_rows _ _ _ _ _ HB), ?(hl_cols _ _ _ _ _ HB); auto; try lia.
  exists S'. split; auto. apply (becomes_hl S S' _ _ WS Bc). intros i j (Hi & Hj). rewrite scaled_one, (hl_cols _ _ _ _ _ HM). f_equal. apply product_ext'. intros l Hl.
  split; [apply (hl_el _ _ _ _ _ _ _ HM)|apply (hl_el _ _ _ _ _ _ _ HB)]; auto.
Qed.
Lemma dot_tr_hl : hl nM r c f M -> hl nB p c g B -> mat_ok S -> rows S = r -> cols S = p -> (0 < r)%nat -> (0 < p)%nat ->
  exists S', dot_tr M B S 1 0 = Ok S' /\ hl (length (data S)) r p (product (Z.of_nat c) f (fun l j => g j l)) S'.
Proof.
  intros HM HB WS <- <- Pr Pc.
  destruct (dot_tr_ok M B S 1 0 (hl_ok _ _ _ _ _ HM) (hl_ok _ _ _ _ _ HB) WS) as (S' & E & Bc); rewrite ?(hl_rows _ _ _ _ _ HM), ?(hl_cols _ _ _ _ _ HM), ?(hl_rows _ _ _ _ _ HB), ?(hl_cols _ _ _ _ _ HB); auto; try lia.
  exists S'. split; auto. apply (becomes_hl S S' _ _ WS Bc). intros i j (Hi & Hj). rewrite scaled_one, (hl_cols _ _ _ _ _ HM). f_equal. apply product_ext'. intros l Hl.
  split; [apply (hl_el _ _ _ _ _ _ _ HM)|apply (hl_el _ _ _ _ _ _ _ HB)]; auto.
Qed.
Lemma tr_dot_hl : hl nM c r f M -> hl nB c p g B -> mat_ok S -> rows S = r -> cols S = p -> (0 < r)%nat -> (0 < c)%nat ->
  exists S', tr_dot M B S 1 0 = Ok S' /\ hl (length (data S)) r p (product (Z.of_nat c) (fun i l => f l i) g) S'.
Proof.
  intros HM HB WS <- <- Pr Pc.
  destruct (tr_dot_ok M B S 1 0 (hl_ok _ _ _ _ _ HM) (hl_ok _ _ _ _ _ HB) WS) as (S' & E & Bc); rewrite ?(hl_rows _ _ _ _ _ HM), ?(hl_cols _ _ _ _ _ HM), ?(hl_rows _ _ _ _ _ HB), ?(hl_cols _ _ _ _ _ HB); auto; try lia.
  exists S'. split; auto. apply (becomes_hl S S' _ _ WS Bc). intros i j (Hi & Hj). rewrite scaled_one, (hl_rows _ _ _ _ _ HM). f_equal. apply product_ext'. intros l Hl.
  split; [apply (hl_el _ _ _ _ _ _ _ HM)|apply (hl_el _ _ _ _ _ _ _ HB)]; auto.
Qed.
Lemma dot_ata_hl : hl nM c r f M -> mat_ok S -> rows S = r -> cols S = r -> (0 < r)%nat -> (0 < c)%nat ->
  exists S', dot_ata M S true 1 0 = Ok S' /\ hl (length (data S)) r r (product (Z.of_nat c) (fun i l => f l i) f) S'.
Proof.
  intros HM WS E1 E2 Pr Pc.
  destruct (dot_ata_ok M S 1 0 (hl_ok _ _ _ _ _ HM) WS true) as (S' & E & Bc); rewrite ?(hl_rows _ _ _ _ _ HM), ?(hl_cols _ _ _ _ _ HM); auto; try (unfold nrows, ncols; rewrite ?E1, ?E2; lia).
  exists S'. split; auto. rewrite <- E1 at 1. rewrite <- E2 at 1. apply (becomes_hl S S' _ _ WS Bc). intros i j (Hi & Hj). unfold nrows, ncols in Hi, Hj. rewrite E1 in Hi. rewrite E2 in Hj.
  unfold sym_result. rewrite (hl_rows _ _ _ _ _ HM). destruct (i <=? j); rewrite scaled_one; f_equal.
  - apply product_ext'. intros l Hl. unfold el_t. split; apply (hl_el _ _ _ _ _ _ _ HM); auto.
  - rewrite !product_sum. apply st_ext. intros l Hl. unfold el_t. rewrite !(hl_el _ _ _ _ _ _ _ HM); auto. ring.
Qed.
End Ops.
Lemma minus_hl r c f g nM nB M B S : hl nM r c f M -> hl nB r c g B -> mat_ok S -> rows S = r -> cols S = c ->
  exists S', ew Qcminus M B S = Ok S' /\ hl (length (data S)) r c (fun i j => f i j - g i j)%Qc S'.
Proof.
  intros HM HB WS E1 E2. assert (H1 := hl_rows _ _ _ _ _ HM). assert (H2 := hl_cols _ _ _ _ _ HM). assert (H3 := hl_rows _ _ _ _ _ HB). assert (H4 := hl_cols _ _ _ _ _ HB).
  assert (H5 : nrows S = Z.of_nat r) by (unfold nrows; lia). assert (H6 : ncols S = Z.of_nat c) by (unfold ncols; lia).
  unfold ew, same_size. rewrite H1, H2, H3, H4, H5, H6, !Z.eqb_refl. cbn [andb negb].
  destruct (vmap_ok M S (fun k x => do y <- rd (data B) k; Ok (x - y)%Qc) (fun i j => Some (el M i j - el B i j)%Qc) (hl_ok _ _ _ _ _ HM) WS) as (S' & E & Bc); try lia.
  { intros i j (Hi & Hj). exists (el M i j - el B i j)%Qc. split; auto. rewrite H1, <- H3, rd_el by (auto; try apply (hl_ok _ _ _ _ _ HB); split; lia). reflexivity. }
  exists S'. split; auto. rewrite <- E1, <- E2. apply (becomes_hl S S' _ _ WS Bc). intros i j (Hi & Hj). rewrite H5 in Hi. rewrite H6 in Hj. rewrite (hl_el _ _ _ _ _ _ _ HM), (hl_el _ _ _ _ _ _ _ HB); auto.
Qed.
Lemma plus_hl r c f g nM nB M B : hl nM r c f M -> hl nB r c g B ->
  exists S', ew_in Qcplus M B = Ok S' /\ hl nM r c (fun i j => f i j + g i j)%Qc S'.
Proof.
  intros HM HB. assert (H1 := hl_rows _ _ _ _ _ HM). assert (H2 := hl_cols _ _ _ _ _ HM). assert (H3 := hl_rows _ _ _ _ _ HB). assert (H4 := hl_cols _ _ _ _ _ HB).
  unfold ew_in, same_size. rewrite H1, H2, H3, H4, !Z.eqb_refl. cbn [andb negb].
  destruct (vmap_ok M M (fun k x => do y <- rd (data B) k; Ok (x + y)%Qc) (fun i j => Some (el M i j + el B i j)%Qc) (hl_ok _ _ _ _ _ HM) (hl_ok _ _ _ _ _ HM)) as (S' & E & Bc); try lia.
  { intros i j (Hi & Hj). exists (el M i j + el B i j)%Qc. split; auto. rewrite H1, <- H3, rd_el by (auto; try apply (hl_ok _ _ _ _ _ HB); split; lia). reflexivity. }
  exists S'. split; auto. destruct HM as ((Q1 & Q2 & Q3 & Q4) & Q5). rewrite <- Q5, <- Q1, <- Q2. apply (becomes_hl M S' _ _ Q3 Bc). intros i j (Hi & Hj). rewrite H1 in Hi. rewrite H2 in Hj. rewrite Q4, (hl_el _ _ _ _ _ _ _ HB); auto.
Qed.
Lemma divide_hl r c f n M v : hl n r c f M -> exists M', ew_scalar_in Qcdiv M v = Ok M' /\ hl n r c (fun i j => f i j / v)%Qc M'.
Proof.
  intros ((Q1 & Q2 & Q3 & Q4) & Q5). unfold ew_scalar_in.
  destruct (vmap_ok M M (fun _ x => Ok (x / v)%Qc) (fun i j => Some (el M i j / v)%Qc) Q3 Q3) as (S' & E & Bc); auto.
  { intros i j _. exists (el M i j / v)%Qc. auto. }
  exists S'. split; auto. rewrite <- Q5, <- Q1, <- Q2. apply (becomes_hl M S' _ _ Q3 Bc). intros i j (Hi & Hj). unfold nrows in Hi. unfold ncols in Hj. rewrite Q1 in Hi. rewrite Q2 in Hj. rewrite Q4; auto.
Qed.
(** Kronecker product with a p x q matrix. *)
Definition kronf (p q : nat) (a b : Z -> Z -> Qc) (i j : Z) : Qc := (a (i / Z.of_nat p)%Z (j / Z.of_nat q)%Z * b (i mod Z.of_nat p)%Z (j mod Z.of_nat q)%Z)%Qc.
Lemma entry_hl n r c f M i j : hl n r c f M -> 0 <= i < Z.of_nat r -> 0 <= j < Z.of_nat c -> entry M i j = Some (f i j).
Proof.
  intros HM Hi Hj. rewrite entry_el. - f_equal. apply (hl_el _ _ _ _ _ _ _ HM); auto. - apply (hl_ok _ _ _ _ _ HM). - split; [rewrite (hl_rows _ _ _ _ _ HM)|rewrite (hl_cols _ _ _ _ _ HM)]; auto.
Qed.
Lemma kron_hl r c p q f g nM nB M B S : hl nM r c f M -> hl nB p q g B -> mat_ok S -> rows S = (r * p)%nat -> cols S = (c * q)%nat ->
  exists S', kron M B S = Ok S' /\ hl (length (data S)) (r * p) (c * q) (kronf p q f g) S'.
Proof.
  intros HM HB WS E1 E2. assert (K := kron_ok M B S (hl_ok _ _ _ _ _ HM) (hl_ok _ _ _ _ _ HB) WS).
  rewrite (hl_rows _ _ _ _ _ HM), (hl_cols _ _ _ _ _ HM), (hl_rows _ _ _ _ _ HB), (hl_cols _ _ _ _ _ HB) in K.
  replace (_ && _) with true in K by (unfold nrows, ncols; lia). destruct K as (S' & E & Bc). exists S'. split; auto. rewrite <- E1, <- E2. apply (becomes_hl S S' _ _ WS Bc).
  intros i j (Hi & Hj). unfold nrows in Hi. unfold ncols in Hj. rewrite E1 in Hi. rewrite E2 in Hj. unfold kron_entry.
  destruct (div_bound i (Z.of_nat p) (Z.of_nat r)) as (? & ? & ?); [lia..|]. destruct (div_bound j (Z.of_nat q) (Z.of_nat c)) as (? & ? & ?); [lia..|].
  rewrite (entry_hl _ _ _ _ _ _ _ HM), (entry_hl _ _ _ _ _ _ _ HB); auto.
Qed.
Lemma iden_kron_hl h p q g nB B S : hl nB p q g B -> mat_ok S -> rows S = (h * p)%nat -> cols S = (h * q)%nat ->
  exists S', iden_kron B (Z.of_nat h) S = Ok S' /\ hl (length (data S)) (h * p) (h * q) (kronf p q iden g) S'.
Proof.
  intros HB WS E1 E2. assert (K := iden_kron_ok B (Z.of_nat h) S (hl_ok _ _ _ _ _ HB) WS ltac:(lia)).
  rewrite (hl_rows _ _ _ _ _ HB), (hl_cols _ _ _ _ _ HB) in K.
  replace (_ && _) with true in K by (unfold nrows, ncols; lia). destruct K as (S' & E & Bc). exists S'. split; auto. rewrite <- E1, <- E2. apply (becomes_hl S S' _ _ WS Bc).
  intros i j (Hi & Hj). unfold nrows in Hi. unfold ncols in Hj. rewrite E1 in Hi. rewrite E2 in Hj. unfold kron_entry.
  destruct (div_bound i (Z.of_nat p) (Z.of_nat h)) as (? & ? & ?); [lia..|]. destruct (div_bound j (Z.of_nat q) (Z.of_nat h)) as (? & ? & ?); [lia..|].
  rewrite identity_in, (entry_hl _ _ _ _ _ _ _ HB); auto.
Qed.
(** A vector of the columns of a matrix. *)
Lemma vec_el (r c : nat) d t : (r * c <= length d)%nat -> 0 <= t < Z.of_nat (r * c) -> el (Mat (r * c) 1 d) t 0 = el (Mat r c d) (t mod Z.of_nat r) (t / Z.of_nat r).
Proof.
  intros W Ht. destruct (div_bound t (Z.of_nat r) (Z.of_nat c)) as (? & ? & ?); [lia..|]. unfold el, entry, insideb, nrows, ncols. cbn [rows cols data].
  replace (_ && _ && _ && _) with true by lia. replace (_ && _ && _ && _) with true by lia. replace (Z.to_nat (0 * Z.of_nat (r * c) + t)) with (Z.to_nat t) by lia.
  replace (t / Z.of_nat r * Z.of_nat r + t mod Z.of_nat r) with t; [reflexivity|]. rewrite (Z.div_mod t (Z.of_nat r)) at 1 by lia. lia.
Qed.
Lemma reshape_hl n (r c : nat) f d : hl n r c f (Mat r c d) -> hl n (r * c) 1 (fun t _ => f (t mod Z.of_nat r) (t / Z.of_nat r)) (Mat (r * c) 1 d).
Proof.
  intros HM. assert (W := hl_ok _ _ _ _ _ HM). unfold mat_ok in W. cbn [rows cols data] in W. split; [|apply HM]. split; [auto|split; [auto|split]].
  - unfold mat_ok. cbn [rows cols data]. lia.
  - intros t j Ht Hj. assert (j = 0) by lia. subst. rewrite vec_el by auto. destruct (div_bound t (Z.of_nat r) (Z.of_nat c)) as (? & ? & ?); [lia..|]. apply (hl_el _ _ _ _ _ _ _ HM); auto.
Qed.
Lemma unvec_hl n (r c : nat) f d : hl n (r * c) 1 f (Mat (r * c) 1 d) -> hl n r c (fun i j => f (j * Z.of_nat r + i) 0) (Mat r c d).
Proof.
  intros HM. assert (W := hl_ok _ _ _ _ _ HM). unfold mat_ok in W. cbn [rows cols data] in W. split; [|apply HM]. split; [auto|split; [auto|split]].
  - unfold mat_ok. cbn [rows cols data]. lia.
  - intros i j Hi Hj. rewrite <- (hl_el _ _ _ _ _ (j * Z.of_nat r + i) 0 HM) by nia. rewrite vec_el by nia.
    destruct (pair_div j i (Z.of_nat r) Hi) as (-> & ->). reflexivity.
Qed.
Lemma copy_vec_hl n (r c : nat) f M S : hl n r c f M -> mat_ok S -> rows S = (r * c)%nat -> cols S = 1%nat -> (0 < r)%nat ->
  exists S', copy_to00 M S = Ok S' /\ hl (length (data S)) (r * c) 1 (fun t _ => f (t mod Z.of_nat r) (t / Z.of_nat r)) S'.
Proof.
  intros HM WS E1 E2 Pr. destruct HM as ((Q1 & Q2 & Q3 & Q4) & Q5). unfold copy_to00.
  destruct (copy_to00_ok M (Mat r c (data S)) Q3) as (S' & E & Bc); try (unfold nrows, ncols, mat_ok in *; cbn [rows cols data]; rewrite ?Q1, ?Q2; auto; lia).
  assert (HS : hl (length (data S)) r c f S').
  { refine (becomes_hl (Mat r c (data S)) S' _ _ _ Bc _). - unfold mat_ok in *. cbn [rows cols data]. rewrite E1, E2 in WS. lia.
    - intros i j (Hi & Hj). apply (entry_hl n r c f M); auto. split; auto. split; auto. }
  exists (with_data S (data S')). unfold copy_to00, mwrites in E. cbn [data] in E. unfold mwrites. destruct (writes _ (data S)) as [d| |]; cbn [bind] in *; try discriminate. injection E as <-.
  split; [reflexivity|]. cbn [with_data data] in *. unfold with_data in *. cbn [rows cols] in *. rewrite E1, E2. apply reshape_hl. auto.
Qed.
Lemma inv_hl lapack n r f M M' : lapack_sound lapack -> hl n r r f M -> inv00 lapack M = Ok M' -> hl n r r (el M') M' /\ inverse_of (Z.of_nat r) f (el M').
Proof.
  intros Sd HM E. assert (HM' := HM). destruct HM as ((Q1 & Q2 & Q3 & Q4) & Q5). destruct (inv00_ok lapack M M' Sd Q3 ltac:(unfold nrows, ncols; lia) E) as (I1 & I2 & I3 & I4).
  split.
  - split. + split; [lia|split; [lia|split; auto]]. + unfold inv00 in E. destruct (lapack M) as (d & info) eqn:EL. destruct (Z.eqb_spec info 0); [|discriminate]. injection E as <-. subst info.
      destruct (Sd M d Q3 ltac:(unfold nrows, ncols; lia) EL) as (L & _). cbn. lia.
  - unfold nrows in I4. rewrite Q1 in I4. intros i j Hi Hj. destruct (I4 i j Hi Hj) as (J1 & J2). split; [rewrite <- J1|rewrite <- J2]; apply product_ext'; intros l Hl; rewrite ?Q4; auto.
Qed.
Lemma inv_total lapack n r f M g : lapack_complete (Z.of_nat r) lapack -> hl n r r f M -> inverse_of (Z.of_nat r) f g -> exists M', inv00 lapack M = Ok M'.
Proof.
  intros Cp HM Inv. apply (inv00_total lapack M g); rewrite ?(hl_rows _ _ _ _ _ HM), ?(hl_cols _ _ _ _ _ HM); auto. - apply (hl_ok _ _ _ _ _ HM).
  - intros i j Hi Hj. destruct (Inv i j Hi Hj) as (J1 & J2). split; [rewrite <- J1|rewrite <- J2]; apply product_ext'; intros l Hl; rewrite ?(hl_el _ _ _ _ _ _ _ HM); auto.
Qed.
(** ** The norm *)
Definition norm1_of (r c : Z) (f : Z -> Z -> Qc) (v : Qc) : Prop :=
  (0 <= v)%Qc /\ (forall j, 0 <= j < c -> (sum_to r (fun i => qabs (f i j)) <= v)%Qc) /\ (0 < c -> exists j, 0 <= j < c /\ v = sum_to r (fun i => qabs (f i j))).
Lemma qabs_nn x : (0 <= qabs x)%Qc.
Proof. unfold qabs. destruct (qltb_spec x 0%Qc); qlra. Qed.
Lemma fold_max l : forall a, (a <= fold_left qmax2 l a)%Qc /\ (forall x, In x l -> (x <= fold_left qmax2 l a)%Qc) /\ (fold_left qmax2 l a = a \/ In (fold_left qmax2 l a) l).
Proof.
  induction l as [|b l IH]; intros a; cbn [fold_left].
  - split; [qlra|]. split; [intros x []|auto].
  - destruct (IH (qmax2 a b)) as (I1 & I2 & I3). assert (Ea : (a <= qmax2 a b)%Qc) by (unfold qmax2; destruct (qltb_spec a b); qlra).
    assert (Eb : (b <= qmax2 a b)%Qc). { unfold qmax2. destruct (qltb_spec a b); [qlra|]. apply Qcnot_lt_le. auto. }
    split; [qlra|]. split. + intros x [<-|Hx]; [qlra|auto]. + destruct I3 as [->|I3]; [|right; right; auto]. unfold qmax2. destruct (qltb_spec a b); auto. right. left. auto.
Qed.
Lemma rmap_const {A B} (f : A -> res B) (g : A -> B) l : (forall a, In a l -> f a = Ok (g a)) -> rmap f l = Ok (map g l).
Proof.
  induction l as [|a l IH]; intros H; [reflexivity|]. cbn. rewrite H by (left; auto). cbn. rewrite IH by (intros; apply H; right; auto). reflexivity.
Qed.
Lemma norm1_hl n r c f M : hl n r c f M -> exists v, norm1 M = Ok v /\ norm1_of (Z.of_nat r) (Z.of_nat c) f v.
Proof.
  intros HM. unfold norm1. rewrite (hl_rows _ _ _ _ _ HM), (hl_cols _ _ _ _ _ HM).
  rewrite (rmap_const _ (fun j => sum_to (Z.of_nat r) (fun i => qabs (f i j)))).
  - cbn [bind]. eexists. split; [reflexivity|]. set (l := map _ _). destruct (fold_max l 0%Qc) as (I1 & I2 & I3). split; auto. split.
    + intros j Hj. apply I2. apply in_map_iff. exists j. split; auto. apply in_zrange. lia.
    + intros Hc. destruct I3 as [I3|I3].
      * exists 0. split; [lia|]. rewrite I3. assert (H := I2 (sum_to (Z.of_nat r) (fun i => qabs (f i 0)))). rewrite I3 in H.
        assert (G : (0 <= sum_to (Z.of_nat r) (fun i => qabs (f i 0%Z)))%Qc) by (apply st_nonneg; intros; apply qabs_nn).
        apply Qcle_antisym; auto. apply H. apply in_map_iff. exists 0. split; auto. apply in_zrange. lia.
      * apply in_map_iff in I3. destruct I3 as (j & Ej & Hj). exists j. apply in_zrange in Hj. split; [lia|]. auto.
  - intros j Hj. apply in_zrange in Hj. rewrite (rmap_const _ (fun i => f i j)).
    + cbn [bind]. unfold sum_to. rewrite map_map. reflexivity.
    + intros i Hi. apply in_zrange in Hi. destruct (get0_ok M i j (hl_ok _ _ _ _ _ HM)) as (v & E1 & E2).
      { split; rewrite ?(hl_rows _ _ _ _ _ HM), ?(hl_cols _ _ _ _ _ HM); lia. } rewrite E2. rewrite (entry_hl _ _ _ _ _ _ _ HM) in E1 by lia. congruence.
Qed.
