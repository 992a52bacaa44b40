From Verif Require Import PolyModel PolySpec MatProofs SplitProofs SplitProofs4 MatProofs6.
From Coq Require Import Lia.
Local Open Scope Qc_scope.

Definition sumn (f : nat -> Qc) (n : nat) : Qc := qsum (map f (seq 0 n)).
Lemma sumn_S f n : sumn f (S n) = sumn f n + f n.
Proof. unfold sumn. rewrite seq_S, map_app, qsum_app. cbn. ring. Qed.
Lemma sumn_0 f : sumn f 0 = 0. Proof. reflexivity. Qed.
Lemma sumn_ext f g n : (forall i, (i < n)%nat -> f i = g i) -> sumn f n = sumn g n.
Proof. intros H. unfold sumn. f_equal. apply map_ext_in. intros i Hi. apply in_seq in Hi. apply H. lia. Qed.
Lemma sumn_zero f n : (forall i, (i < n)%nat -> f i = 0) -> sumn f n = 0.
Proof. induction n as [|n IH]; intros H; [reflexivity|]. rewrite sumn_S, IH, H; auto. Qed.
Lemma sumn_beyond f m n : (m <= n)%nat -> (forall i, (m <= i)%nat -> f i = 0) -> sumn f n = sumn f m.
Proof. intros L H. induction L as [|n L IH]; auto. rewrite sumn_S, IH, H by auto. ring. Qed.
Lemma sumn_add f g n : sumn (fun i => f i + g i) n = sumn f n + sumn g n.
Proof. apply qsum_map_add. Qed.
Lemma sumn_mul k f n : sumn (fun i => k * f i) n = k * sumn f n.
Proof. apply qsum_map_mul. Qed.
Lemma sumn_swap f m n : sumn (fun i => sumn (f i) n) m = sumn (fun j => sumn (fun i => f i j) m) n.
Proof.
  induction m as [|m IH]; [symmetry; apply sumn_zero; auto|]. rewrite sumn_S, IH, <- sumn_add. apply sumn_ext. intros. rewrite sumn_S. auto.
Qed.
Lemma sumn_front f n : sumn f (S n) = f 0%nat + sumn (fun i => f (S i)) n.
Proof. unfold sumn. cbn [seq map]. change (qsum (?a :: ?l)) with (a + qsum l). f_equal. rewrite <- seq_shift, map_map. auto. Qed.
Lemma conv_sumn f g k : conv f g k = sumn (fun i => f i * g (k - i)%nat) (S k). Proof. reflexivity. Qed.
Lemma coef_out a k : (length a <= k)%nat -> coef a k = 0. Proof. intros. apply nth_overflow. auto. Qed.

(** ** Multiplication *)
Lemma rd_coef (a : list Qc) k : (k < length a)%nat -> rd a (Z.of_nat k) = Ok (coef a k).
Proof. intros H. unfold rd, coef. destruct (Z.ltb_spec (Z.of_nat k) 0); [lia|]. rewrite Nat2Z.id. rewrite (nth_error_nth' a 0) by auto. auto. Qed.
Lemma fill_ok v n d : (n <= length d)%nat -> fill v n d = Ok (repeat v n ++ skipn n d).
Proof. revert d. induction n as [|n IH]; intros d H; [reflexivity|]. destruct d as [|x d]; [cbn in H; lia|]. cbn [fill repeat skipn app]. rewrite IH by (cbn in H; lia). reflexivity. Qed.
Definition hits (a b : list Qc) (k : nat) (ps : list (nat * nat)) : Qc := qsum (map (fun p => if (fst p + snd p =? k)%nat then coef a (fst p) * coef b (snd p) else 0) ps).
Lemma mul_loop_ok a b n : forall ps d, Forall (fun p => (fst p < length a)%nat /\ (snd p < length b)%nat) ps -> (n <= length d)%nat ->
  exists d', mul_loop a b (Z.of_nat n) (map (fun p => (Z.of_nat (fst p), Z.of_nat (snd p))) ps) d = Ok d' /\ length d' = length d /\
    (forall k, (k < n)%nat -> nth k d' 0 = nth k d 0 + hits a b k ps) /\ forall k, (n <= k)%nat -> nth_error d' k = nth_error d k.
Proof.
  induction ps as [|(i, j) ps IH]; intros d F L; [exists d; repeat split; auto; intros; unfold hits; cbn; ring|]. inversion F as [|? ? (Hi & Hj) F']; subst. cbn [map fst snd mul_loop] in *.
  destruct (Z.ltb_spec (Z.of_nat i + Z.of_nat j) (Z.of_nat n)) as [H|H].
  - replace (Z.of_nat i + Z.of_nat j)%Z with (Z.of_nat (i + j)) by lia. rewrite !rd_coef by (auto; lia). cbn [bind]. rewrite wr_ok by lia. cbn [bind]. rewrite Nat2Z.id.
    destruct (IH (upd (i + j) (coef d (i + j) + coef a i * coef b j) d) F') as (d' & E & LD & N & O); [rewrite upd_length; auto|]. exists d'. rewrite upd_length in LD. split; auto. split; auto. split.
    + intros k Hk. rewrite N by auto. unfold hits. cbn [map fst snd]. change (qsum (?x :: ?l)) with (x + qsum l). destruct (Nat.eqb_spec (i + j) k) as [<- |NE].
      * rewrite nth_upd_same by lia. unfold coef. ring.
      * rewrite nth_upd_other by auto. ring.
    + intros k Hk. rewrite O by auto. apply nth_error_upd_other. lia.
  - destruct (IH d F' L) as (d' & E & LD & N & O). exists d'. split; auto. split; auto. split; auto. intros k Hk. rewrite N by auto. unfold hits. cbn [map fst snd]. change (qsum (?x :: ?l)) with (x + qsum l). destruct (Nat.eqb_spec (i + j) k); [lia|]. ring.
Qed.
Definition npairs (m n : nat) : list (nat * nat) := flat_map (fun i => map (fun j => (i, j)) (seq 0 n)) (seq 0 m).
Lemma zrange_seq n : zrange 0 (Z.of_nat n) = map Z.of_nat (seq 0 n).
Proof. unfold zrange. rewrite Nat2Z.id. reflexivity. Qed.
Lemma pairs_npairs m n : pairs (Z.of_nat m) (Z.of_nat n) = map (fun p => (Z.of_nat (fst p), Z.of_nat (snd p))) (npairs m n).
Proof.
  unfold pairs, npairs. rewrite !zrange_seq. generalize (seq 0 m). intros l. induction l as [|i l IH]; auto. cbn [map flat_map]. rewrite map_app, <- IH. f_equal. rewrite !map_map. auto.
Qed.
Lemma npairs_bound m n : Forall (fun p => (fst p < m)%nat /\ (snd p < n)%nat) (npairs m n).
Proof. apply Forall_forall. intros (i, j) H. apply in_flat_map in H as (i' & Hi & H). apply in_map_iff in H as (j' & E & Hj). injection E as -> ->. apply in_seq in Hi, Hj. cbn. lia. Qed.
Lemma qsum_flat_map {A} (f : A -> Qc) (g : nat -> list A) l : qsum (map f (flat_map g l)) = qsum (map (fun i => qsum (map f (g i))) l).
Proof. induction l as [|i l IH]; auto. cbn [flat_map map]. rewrite map_app, qsum_app, IH. reflexivity. Qed.
Lemma sumn_single f n k : sumn (fun j => if (j =? k)%nat then f j else 0) n = if (k <? n)%nat then f k else 0.
Proof.
  induction n as [|n IH]; [reflexivity|]. rewrite sumn_S, IH. destruct (Nat.eqb_spec n k) as [<- |NE].
  - destruct (Nat.ltb_spec n n), (Nat.ltb_spec n (S n)); try lia. ring.
  - destruct (Nat.ltb_spec k n), (Nat.ltb_spec k (S n)); try lia; ring.
Qed.
Lemma hits_conv a b k : hits a b k (npairs (length a) (length b)) = conv (coef a) (coef b) k.
Proof.
  unfold hits, npairs. rewrite qsum_flat_map.
  transitivity (sumn (fun i => if (i <=? k)%nat then coef a i * coef b (k - i) else 0) (length a)).
  - apply sumn_ext. intros i Hi. rewrite map_map. cbn [fst snd]. destruct (Nat.leb_spec i k) as [L|L].
    + transitivity (sumn (fun j => if (j =? k - i)%nat then coef a i * coef b j else 0) (length b)).
      * apply sumn_ext. intros j Hj. destruct (Nat.eqb_spec (i + j) k), (Nat.eqb_spec j (k - i)); try lia; auto.
      * rewrite (sumn_single (fun j => coef a i * coef b j)). destruct (Nat.ltb_spec (k - i) (length b)) as [H|H]; auto. rewrite (coef_out b) by auto. ring.
    + apply sumn_zero. intros j Hj. destruct (Nat.eqb_spec (i + j) k); [lia|auto].
  - rewrite conv_sumn. set (F := fun i => if (i <=? k)%nat then coef a i * coef b (k - i) else 0). rewrite <- (sumn_beyond F (length a) (length a + S k)).
    + rewrite (sumn_beyond F (S k)); [|lia|intros i Hi; unfold F; destruct (Nat.leb_spec i k); [lia|auto]]. apply sumn_ext. intros i Hi. unfold F. destruct (Nat.leb_spec i k); [auto|lia].
    + lia.
    + intros i Hi. unfold F. destruct (Nat.leb_spec i k); auto. rewrite coef_out by auto. ring.
Qed.
Lemma truncated_length n f : length (truncated n f) = n. Proof. unfold truncated. rewrite map_length, seq_length. auto. Qed.
Lemma truncated_nth n f k : (k < n)%nat -> nth k (truncated n f) 0 = f k.
Proof. intros H. unfold truncated. rewrite (nth_indep _ 0 (f 0%nat)) by (rewrite map_length, seq_length; auto). rewrite map_nth, seq_nth by auto. auto. Qed.
Lemma truncated_eq n f l : length l = n -> (forall k, (k < n)%nat -> nth k l 0 = f k) -> l = truncated n f.
Proof. intros L H. apply (nth_ext l (truncated n f) 0 0); [rewrite truncated_length; auto|]. intros k Hk. rewrite truncated_nth by lia. apply H. lia. Qed.
Lemma truncated_ext n f g : (forall k, (k < n)%nat -> f k = g k) -> truncated n f = truncated n g.
Proof. intros H. apply map_ext_in. intros k Hk. apply in_seq in Hk. apply H. lia. Qed.
Lemma nth_app_repeat n (l : list Qc) k : (k < n)%nat -> nth k (repeat 0 n ++ l) 0 = 0.
Proof. intros H. rewrite app_nth1 by (rewrite repeat_length; auto). apply nth_repeat. Qed.
Lemma mul_calc_ok size a b storage max n : mul_size (degree a) (degree b) max = Z.of_nat n -> (Z.of_nat n <= size)%Z -> (n <= length storage)%nat ->
  mul_calc size a b storage max = Ok (truncated n (conv (coef a) (coef b)) ++ skipn n storage, Z.of_nat n).
Proof.
  intros E S L. unfold mul_calc. rewrite E. destruct (Z.ltb_spec size (Z.of_nat n)); [lia|]. rewrite Nat2Z.id, fill_ok by auto. cbn [bind].
  unfold degree. replace (Z.of_nat (length a) - 1 + 1)%Z with (Z.of_nat (length a)) by lia. replace (Z.of_nat (length b) - 1 + 1)%Z with (Z.of_nat (length b)) by lia. rewrite pairs_npairs.
  destruct (mul_loop_ok a b n (npairs (length a) (length b)) (repeat 0 n ++ skipn n storage) (npairs_bound _ _)) as (d' & EL & LD & N & O).
  { rewrite app_length, repeat_length. lia. }
  rewrite EL. cbn [bind]. do 2 f_equal. rewrite <- (firstn_skipn n d'). f_equal.
  - apply truncated_eq; [rewrite firstn_length, LD, app_length, repeat_length; lia|]. intros k Hk. rewrite <- hits_conv. replace (nth k (firstn n d') 0) with (nth k d' 0).
    + rewrite N by auto. rewrite nth_app_repeat by auto. ring.
    + rewrite <- (firstn_skipn n d') at 1. apply app_nth1. rewrite firstn_length, LD, app_length, repeat_length. lia.
  - apply list_ext_nth_error. intros k. rewrite !nth_skipn. rewrite O by lia. rewrite nth_error_app2 by (rewrite repeat_length; lia). rewrite repeat_length. replace (n + k - n)%nat with k by lia. rewrite nth_skipn. auto.
Qed.
